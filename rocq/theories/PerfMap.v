(** * Model of /repo/src/perf_map.rs

    Maps of just-in-time compiled functions. *)

From Verif Require Import Base Util Text Maps Num Sym.
Local Open Scope N_scope.

(** lines 31-39 [Function] *)
Record pfn := PFn {
  pf_name : list N;
  pf_addr : N;
  pf_size : N
}.

(** lines 42-103 [parse_perf_map_line] *)
Definition parse_perf_map_line (line : list N) : res pfn :=
  let number text :=
    if utf8_valid text then of_option EInvalidData (from_str_radix 16 two64 text) else Err EInvalidData in
  let* '(addr_slice, line) := of_option EInvalidData (split_once is_ws line) in
  let* addr := number addr_slice in
  let* '(size_slice, line) := of_option EInvalidData (split_once is_ws line) in
  let* size := number size_slice in
  if utf8_valid line then Ok (PFn line addr size) else Err EInvalidData.

(** [collect::<Result<Vec<_>>>] *)
Fixpoint collect {A B} (f : A -> res B) (l : list A) : res (list B) :=
  match l with
  | [] => Ok []
  | a :: l => let* b := f a in let* r := collect f l in Ok (b :: r)
  end.

(** lines 106-114 [parse_perf_map] *)
Definition pf_leb (a b : pfn) : bool :=
  (pf_addr a <? pf_addr b) || ((pf_addr a =? pf_addr b) && (pf_size a <=? pf_size b)).
Definition parse_perf_map (data : list N) : res (list pfn) :=
  let* functions := collect parse_perf_map_line
    (filter (fun line => negb (is_empty line)) (split (fun b => (b =? 10) || (b =? 13)) data)) in
  Ok (isort pf_leb functions).

(** lines 158-192 [find_sym] *)
Fixpoint find_loop (m : mode) (addr : N) (l : list pfn) : res (option pfn) :=
  match l with
  | [] => Ok None
  | f :: l =>
      if addr <? pf_addr f then Ok None
      else if (pf_addr f =? addr) && (pf_size f =? 0) then Ok (Some f)
      else
        let* end_ := add64 m (pf_addr f) (pf_size f) in
        if addr <? end_ then Ok (Some f) else find_loop m addr l
  end.
Definition perf_find_sym (m : mode) (functions : list pfn) (addr : N) : find_result :=
  match find_match_or_lower_bound_by_key functions addr pf_addr with
  | Some idx =>
      let* o := find_loop m addr (skipn idx functions) in
      match o with
      | Some f => Ok (inl (ResolvedSym (pf_name f) None (pf_addr f) (Some (pf_size f)) LangUnknown None []))
      | None => Ok (inr UnknownAddr)
      end
  | None => Ok (inr UnknownAddr)
  end.
