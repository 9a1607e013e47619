(** * What calls of the C API do: independent of the code

    capi/include/blazesym.h: lines 22-84 for numbers, and the comments of the
    functions. *)

From Coq Require Import ZArith.
From Verif Require Import Base Util UtilProofs Text Inspect Sym Symbolizer Normalize CapiIn CapiSpec CapiCalls.
Local Open Scope N_scope.

(** [BLAZE_ERR_*] *)
Definition code_of (k : ekind) : Z :=
  match k with
  | ENone => 0
  | EPermissionDenied => -1
  | ENotFound => -2
  | EWouldBlock => -11
  | EOutOfMemory => -12
  | EAlreadyExists => -17
  | EInvalidData => -22
  | EUnsupported => -95
  | ETimedOut => -110
  | EInvalidInput => -256
  | EWriteZero => -257
  | EUnexpectedEof => -258
  | EInvalidDwarf => -259
  | EOther => -260
  end.

(** ** Arguments *)

(** A structure with the members the library knows: what the program's header
    does not have is zero. *)
Definition as_known (size : N) (c : list N) : list N :=
  map (fun i => byte c (N.of_nat i)) (seq 0 (N.to_nat size)).
(** The program's structure, possibly followed by other memory. *)
Definition struct_at (c m : list N) : Prop := declares c /\ exists rest, m = c ++ rest.
(** An array of addresses or pointers at any address; [NULL] if there are none *)
Definition array (g : mem) (p : N) (l : list N) : Prop :=
  (p = 0 -> l = []) /\ forall i v, nth_error l i = Some v -> num g (p + 8 * N.of_nat i) 8 v.
Definition string (g : mem) (p : N) (s : list N) : Prop := ~ In 0 s /\ has g p (s ++ [0]).

(** ** What becomes of a call *)
Inductive verdict := Fails (k : ekind) | Does (a : answer).

(** Errors of the library are passed on. *)
Definition passes {A} (r : res A) (ok : A -> verdict) (v : verdict) : Prop :=
  (exists x, r = Ok x /\ v = ok x) \/ (exists k, r = Err k /\ k <> ENone /\ v = Fails k).
Definition or_no_memory (room : bool) (v : verdict) : verdict := if room then v else Fails EOutOfMemory.
(** Structures with members unknown to the library that are not zero are
    rejected. *)
Definition with_struct (t : input_ty) (m : list N) (v : verdict) (go : list N -> Prop) : Prop :=
  exists c, struct_at c m /\
    ((unknown_zero (it_effective t) c /\ go (as_known (it_size t) c)) \/
     (~ unknown_zero (it_effective t) c /\ v = Fails EInvalidInput)).

Definition does (g : mem) (fuel : nat) (c : call) (v : verdict) : Prop :=
  match c with
  | KNew => v = Does (APtr GObject)
  | KNewOpts t m => In t input_tys /\ with_struct t m v (fun _ => v = Does (APtr GObject))
  | KCache t m lib => In t input_tys /\ with_struct t m v (fun o => passes (lib o) (fun _ => Does ANone) v)
  | KSymbolize t m p cnt lib room =>
      In t input_tys /\ with_struct t m v (fun o =>
        exists addrs, array g p addrs /\ cnt = length addrs /\
          passes (lib o addrs)
            (fun l => match l with [] => Does ANull | _ => or_no_memory room (Does (APtr (GSyms l))) end) v)
  | KInspect m p cnt lib room =>
      with_struct blaze_inspect_elf_src m v (fun o =>
        exists ps names, array g p ps /\ cnt = length ps /\ Forall2 (string g) ps names /\
          Forall (fun s => utf8_valid s = true /\ (length s < fuel)%nat) names /\
          passes (lib o names) (fun l => or_no_memory room (Does (APtr (GInfos l)))) v)
  | KNormalize p cnt lib =>
      exists addrs, array g p addrs /\ cnt = length addrs /\ passes (lib addrs) (fun o => Does (APtr (GOutput o))) v
  | KNormalizeOpts m p cnt lib =>
      with_struct blaze_normalize_opts m v (fun o =>
        exists addrs, array g p addrs /\ cnt = length addrs /\ passes (lib o addrs) (fun x => Does (APtr (GOutput x))) v)
  | KBuildId p lib room =>
      exists path, string g p path /\ (length path < fuel)%nat /\
        passes (lib path) (fun id => match id with Some id => or_no_memory room (Does (APtr (GBytes id))) | None => Does ANull end) v
  | KProcmapQuery lib => passes lib (fun b => Does (ABool b)) v
  | KTrace already => v = (if already then Fails EAlreadyExists else Does ANone)
  end.

(** What is returned on errors: [NULL], nothing, or [false], by the function's
    type *)
Definition on_error (c : call) : answer :=
  match c with
  | KCache _ _ _ | KTrace _ => ANone
  | KProcmapQuery _ => ABool false
  | _ => ANull
  end.
Definition returned (c : call) (v : verdict) : answer := match v with Fails _ => on_error c | Does a => a end.
Definition code (v : verdict) : Z := match v with Fails k => code_of k | Does _ => 0%Z end.

(** ** Threads: the last error is that of the last call of the same thread *)
Fixpoint last_code (t : N) (past : list (N * verdict)) : Z :=
  match past with
  | [] => 0%Z
  | (t', v) :: past => if t' =? t then code v else last_code t past
  end.
(** [past] is the list of calls so far, the last one first. *)
Inductive seen : list (N * verdict) -> list (N * event) -> list reply -> Prop :=
| Seen_end : forall past, seen past [] []
| Seen_last : forall past t l rs, seen past l rs -> seen past ((t, ErrLast) :: l) (Code (last_code t past) :: rs)
| Seen_call : forall past t g fuel c v l rs, does g fuel c v -> seen ((t, v) :: past) l rs ->
    seen past ((t, Call g fuel c) :: l) (Answer (returned c v) :: rs).

(** ** What callers have to see to *)
Definition answers {A} (r : res A) : Prop := (exists x, r = Ok x) \/ (exists k, r = Err k /\ k <> ENone).
Definition ready (g : mem) (fuel : nat) (c : call) : Prop :=
  let struct t m := In t input_tys /\ exists s, struct_at s m in
  let addrs p cnt := exists l, array g p l /\ cnt = length l in
  match c with
  | KNew | KTrace _ => True
  | KNewOpts t m => struct t m
  | KCache t m lib => struct t m /\ forall o, answers (lib o)
  | KSymbolize t m p cnt lib _ => struct t m /\ addrs p cnt /\ forall o l, answers (lib o l)
  | KInspect m p cnt lib _ =>
      struct blaze_inspect_elf_src m /\
      (exists ps names, array g p ps /\ cnt = length ps /\ Forall2 (string g) ps names /\
         Forall (fun s => utf8_valid s = true /\ (length s < fuel)%nat) names) /\
      forall o l, answers (lib o l)
  | KNormalize p cnt lib => addrs p cnt /\ forall l, answers (lib l)
  | KNormalizeOpts m p cnt lib => struct blaze_normalize_opts m /\ addrs p cnt /\ forall o l, answers (lib o l)
  | KBuildId p lib _ => (exists path, string g p path /\ (length path < fuel)%nat) /\ forall s, answers (lib s)
  | KProcmapQuery lib => answers lib
  end.
