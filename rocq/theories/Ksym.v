(** * Model of /repo/src/kernel/ksym.rs and the parsing of
      /repo/src/kernel/bpf/prog.rs

    Kernel symbols as listed in /proc/kallsyms, BPF programs among them. The
    feature "bpf" is taken to be enabled. *)

From Coq Require Import String.
From Verif Require Import Base Util Nom Text Maps Num Sym Inspect Elf.
Local Close Scope string_scope.
Local Open Scope N_scope.

(** ** bpf/prog.rs *)

(** lines 40, 43 *)
Definition bpf_module : list N := bs "[bpf]"%string.
Definition bpf_prog_prefix : list N := bs "bpf_prog_"%string.

(** Whether a slice of a string may end in front of these bytes
    ([str::is_char_boundary]). *)
Definition boundary (rest : list N) : bool :=
  match rest with
  | [] => true
  | b :: _ => negb (in_range 128 191 b)
  end.
(** lines 66-84 [BpfTag::from_str] *)
Fixpoint tag_loop (s : list N) : res (option (list N)) :=
  match s with
  | a :: b :: rest =>
      if boundary rest then
        match from_str_radix 16 256 [a; b] with
        | None => Ok None
        | Some v =>
            let* o := tag_loop rest in
            Ok (match o with None => None | Some vs => Some (v :: vs) end)
        end
      else Panic
  | _ => Ok (Some [])
  end.
Definition tag_from_str (s : list N) : res (option (list N)) :=
  if Nat.eqb (length s) 16 then tag_loop s else Ok None.
(** lines 51-58 [Display] *)
Definition hex_char (d : N) : N := if d <? 10 then 48 + d else 87 + d.
Definition tag_display (t : list N) : list N :=
  flat_map (fun b => [hex_char (b / 16); hex_char (b mod 16)]) t.

(** lines 281-301 [BpfProg::parse], the tag *)
Definition bpf_parse (s : list N) : res (option (list N)) :=
  match strip_prefix bpf_prog_prefix s with
  | None => Ok None
  | Some no_prefix =>
      tag_from_str
        (match split_once (fun b => b =? 95) no_prefix with
         | Some (tag, _name) => tag
         | None => no_prefix
         end)
  end.

(** ** ksym.rs *)

(** lines 41-47, 121-125 [Ksym], [Kfunc] and bpf/prog.rs 270-276 [BpfProg]:
    for a BPF program there is a tag. *)
Record ksym := Ksym {
  ks_addr : N;
  ks_name : list N;
  ks_tag : option (list N)
}.
(** lines 50-60 [Ksym::new] *)
Definition ksym_new (name : list N) (addr : N) : res ksym :=
  let* tag := bpf_parse name in
  Ok (Ksym addr name tag).

(** lines 204-226, a line *)
Definition parse_ksym (line : list N) : res (option ksym) :=
  match words line with
  | addr :: _typ :: name :: _ =>
      match from_str_radix 16 two64 addr with
      | Some addr =>
          if addr =? 0 then Ok None
          else let* k := ksym_new name addr in Ok (Some k)
      | None => Ok None
      end
  | _ => Ok None
  end.
(** lines 197-227, the loop *)
Fixpoint ksym_lines (lines : list (list N)) : res (list ksym) :=
  match lines with
  | [] => Ok []
  | l :: lines =>
      if utf8_valid l then
        let* k := parse_ksym l in
        let* ks := ksym_lines lines in
        Ok (match k with Some k => k :: ks | None => ks end)
      else Err EInvalidData
  end.
(** lines 191-238 [load_from_reader] *)
Definition ks_leb (a b : ksym) : bool := ks_addr a <=? ks_addr b.
Definition ksym_load (text : list N) : res (list ksym) :=
  let* syms := ksym_lines (read_lines text) in
  Ok (isort ks_leb syms).

(** lines 254-267 [find_ksym] *)
Definition find_ksym (syms : list ksym) (addr : N) : ksym + reason :=
  match find_match_or_lower_bound_by_key syms addr ks_addr with
  | Some idx =>
      match nth_error syms idx with
      | Some k => inl k
      | None => inr (match syms with [] => MissingSyms | _ => UnknownAddr end)
      end
  | None => inr (match syms with [] => MissingSyms | _ => UnknownAddr end)
  end.

(** lines 62-72, 128-149 [resolve] and bpf/prog.rs 356-388. The source
    information of a BPF program (prog.rs 303-354) is [code]. *)
Definition ksym_resolve (code : list N -> N -> res (option code_info)) (k : ksym) (addr : N)
    (opts : find_opts) : res resolved_sym :=
  match ks_tag k with
  | None => Ok (ResolvedSym (ks_name k) None (ks_addr k) None LangUnknown None [])
  | Some tag =>
      let* ci := if code_info_opt opts then code tag addr else Ok None in
      Ok (ResolvedSym (ks_name k) (Some bpf_module) (ks_addr k) None LangUnknown ci [])
  end.
(** lines 284-292 [find_sym] *)
Definition ksym_find_sym (code : list N -> N -> res (option code_info)) (syms : list ksym)
    (addr : N) (opts : find_opts) : find_result :=
  match find_ksym syms addr with
  | inl k => let* s := ksym_resolve code k addr opts in Ok (inl s)
  | inr r => Ok (inr r)
  end.

(** lines 108-118, 152-167 and bpf/prog.rs 407-422 [SymInfo::try_from] *)
Definition ksym_info (k : ksym) : sym_info :=
  SymInfo (ks_name k) (ks_addr k) None TFunction None
    (match ks_tag k with Some _ => Some bpf_module | None => None end).
(** lines 269-280 [create_by_name_idx]; the index is the list of symbols in
    its order. *)
Definition ks_name_leb (a b : ksym) : bool :=
  match bcmp (ks_name a) (ks_name b) with
  | Lt => true
  | Eq => ks_addr a <=? ks_addr b
  | Gt => false
  end.
(** lines 296-316 [find_addr] *)
Definition ksym_find_addr (syms : list ksym) (name : list N) (opts : find_addr_opts) : list sym_info :=
  match fa_sym_type opts with
  | TVariable => []
  | _ =>
      let idx := isort ks_name_leb syms in
      match find_name_or_lower_bound idx name ks_name with
      | Some i => map ksym_info (skipn i idx)
      | None => []
      end
  end.
(** lines 318-331 [for_each] *)
Fixpoint ksym_for_each_loop {S} (f : for_each_fn S) (s : S) (syms : list ksym) : S :=
  match syms with
  | [] => s
  | k :: syms =>
      let '(s, brk) := f s (ksym_info k) in
      if brk then s else ksym_for_each_loop f s syms
  end.
Definition ksym_for_each {S} (syms : list ksym) (opts : find_addr_opts) (f : for_each_fn S) (s : S) : S :=
  match fa_sym_type opts with
  | TVariable => s
  | _ => ksym_for_each_loop f s syms
  end.
