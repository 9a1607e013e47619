(** * What the process dispatcher of a C program means: independent of the code

    capi/include/blazesym.h, the comments of [blaze_symbolizer_dispatch] *)

From Coq Require Import ZArith Permutation.
From Verif Require Import Base Util UtilProofs Bytes Maps Symbolizer CapiIn CapiSpec CapiOut CapiCalls CapiCallsSpec CapiNorm CapiNormSpec CapiDisp.
Local Open Scope N_scope.
Local Notation length := List.length.

(** ** The answer *)

(** [choice] is what the program wants for a file of a process: another file,
    or what is done by default. *)
Definition dispatched {R} (open : list N -> outcome R) (choice : list N -> list N -> option (list N)) (name : path_name) : outcome (option R) :=
  match name with
  | PComponent _ => Good None
  | PPath maps_file symbolic_path =>
      if in_dec N.eq_dec 0 (maps_file ++ symbolic_path) then Bad EInvalidData
      else
        match choice maps_file symbolic_path with
        | None => Good None
        | Some path => match open path with Good r => Good (Some r) | Bad k => Bad k end
        end
  end.

(** ** What programs have to do *)

Definition string_lay (p : N) (s : list N) : lay := Lay p (nlen s + 1) 1.
(** The string is returned in an allocation of [malloc]. *)
Definition returns (fuel : nat) (path : option (list N)) (result : N) (h : heap) (block : list lay) : Prop :=
  match path with
  | None => result = 0 /\ block = []
  | Some t => result <> 0 /\ string (hp_get h) result t /\ (length t < fuel)%nat /\
      exists n, 0 < n /\ block = [Lay result n 16]
  end.
(** The function reads its arguments and returns what it wants, [NULL] perhaps if
    there is no memory. It does not free what was lent to it, and its string is
    its own. [does] is what else it does: to the memory, and to the [others]
    that are allocated. *)
Definition effect := heap -> heap -> list lay -> list lay -> list lay -> Prop.
Definition obeys (fuel : nat) (ctx : N) (wants : list N -> list N -> option (list N) -> Prop) (does : effect) (cb : callback) : Prop :=
  forall p q s t h others, string (hp_get h) p s -> string (hp_get h) q t ->
  Permutation (hp_live h) (string_lay q t :: string_lay p s :: others) ->
  exists path result h' block others', wants s t path /\ cb p q ctx h = Ok (result, h') /\ returns fuel path result h' block /\
    Permutation (hp_live h') (block ++ string_lay q t :: string_lay p s :: others') /\
    Forall (fun x => Forall (fun y => apart (region_of x) (region_of y)) (string_lay q t :: string_lay p s :: others')) block /\
    does h h' others block others'.
Definition anything : effect := fun _ _ _ _ _ => True.
(** It allocates nothing else, frees nothing, and writes nothing else. *)
Definition nothing_else : effect := fun h h' others block others' =>
  others' = others /\ forall i, ~ covered block i -> hp_get h' i = hp_get h i.

(** ** Memory *)

(** Some allocations are gone, nothing else happened. *)
Definition released (h h' : heap) (bs : list lay) : Prop :=
  Permutation (hp_live h) (bs ++ hp_live h') /\ forall i, ~ covered bs i -> hp_get h' i = hp_get h i.
(** Everything that was allocated still is, with the same contents. *)
Definition kept (h h' : heap) : Prop :=
  Permutation (hp_live h') (hp_live h) /\ forall i, covered (hp_live h) i -> hp_get h' i = hp_get h i.
