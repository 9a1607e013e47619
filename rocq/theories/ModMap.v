(** * Model of /repo/src/kernel/modmap.rs

    Kernel modules by address. *)

From Verif Require Import Base Util Text Maps Num Sym.
Local Open Scope N_scope.

(** lines 14-20 [Mod] *)
Record kmod := KMod {
  km_name : list N;
  km_addr : N;
  km_size : N
}.

(** [str::trim_start_matches("0x")]: removes the prefix as often as it is
    there. *)
Fixpoint trim_0x (s : list N) : list N :=
  match s with
  | 48 :: 120 :: s => trim_0x s
  | _ => s
  end.

(** lines 56-89, a line *)
Definition parse_module (line : list N) : option kmod :=
  match words line with
  | name :: size :: _insts :: _deps :: _state :: addr :: _ =>
      match from_str_radix 16 two64 (trim_0x addr) with
      | Some addr =>
          if addr =? 0 then None
          else
            match from_str_radix 10 two64 size with
            | Some size => Some (KMod name addr size)
            | None => None
            end
      | None => None
      end
  | _ => None
  end.

Definition km_leb (a b : kmod) : bool := km_addr a <=? km_addr b.

(** lines 42-96 [from_reader]. [sort_unstable_by_key] is [sort]. *)
Definition modmap (sort : list kmod -> list kmod) (text : list N) : res (list kmod) :=
  let* modules := fold_lines
    (fun modules line =>
       match parse_module line with
       | Some k => modules ++ [k]
       | None => modules
       end) [] (read_lines text) in
  Ok (sort modules).

(** lines 99-117 [find_module] *)
Definition find_module (m : mode) (modules : list kmod) (addr : N) : res (list N * N + reason) :=
  let none := inr (match modules with [] => MissingSyms | _ => UnknownAddr end) in
  match find_match_or_lower_bound_by_key modules addr km_addr with
  | Some idx =>
      match nth_error modules idx with
      | Some k =>
          let* end_ := add64 m (km_addr k) (km_size k) in
          if (km_addr k <=? addr) && (addr <? end_) then Ok (inl (km_name k, km_addr k))
          else Ok none
      | None => Ok none
      end
  | None => Ok none
  end.
