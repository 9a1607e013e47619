(** * Base: results, machine arithmetic, small list toolkit.

    Nothing here models a specific piece of blazesym; these are the building
    blocks the model files share. *)

From Coq Require Export List NArith ZArith Lia Bool Permutation Sorted Arith.
From Coq Require Export ZifyBool ZifyNat ZifyN.
Export ListNotations.

Global Arguments N.add : simpl never.
Global Arguments N.mul : simpl never.
Global Arguments N.sub : simpl never.
Global Arguments N.pow : simpl never.
Global Arguments N.div : simpl never.
Global Arguments N.modulo : simpl never.
Global Arguments N.eqb : simpl never.
Global Arguments N.leb : simpl never.
Global Arguments N.ltb : simpl never.
Global Arguments N.compare : simpl never.
Global Arguments N.of_nat : simpl never.
Global Arguments N.to_nat : simpl never.
Global Arguments Z.add : simpl never.
Global Arguments Z.mul : simpl never.
Global Arguments Z.sub : simpl never.
Global Arguments Z.pow : simpl never.

Local Open Scope N_scope.

(** ** Results

    [Err k] is an [Err(_)] of the crate's error kind [k] (src/error.rs,
    [ErrorKind]); [ENone] stands for a plain [None] of an [Option] returning
    helper.  [Panic] is a Rust panic, [NoFuel] marks a loop of the model that
    ran out of its fuel. *)
Inductive ekind : Type :=
| ENone
| ENotFound | EPermissionDenied | EAlreadyExists | EWouldBlock
| EInvalidInput | EInvalidData | ETimedOut | EWriteZero
| EUnexpectedEof | EUnsupported | EOutOfMemory | EInvalidDwarf | EOther.

Inductive res (A : Type) : Type :=
| Ok (a : A)
| Err (k : ekind)
| Panic
| NoFuel.
Arguments Ok {A} a.
Arguments Err {A} k.
Arguments Panic {A}.
Arguments NoFuel {A}.

Definition bind {A B} (r : res A) (f : A -> res B) : res B :=
  match r with
  | Ok a => f a
  | Err k => Err k
  | Panic => Panic
  | NoFuel => NoFuel
  end.

Notation "'let*' x ':=' a 'in' b" := (bind a (fun x => b))
  (at level 200, x name, a at level 100, b at level 200, right associativity).
Notation "'let*' ' p ':=' a 'in' b" := (bind a (fun p => b))
  (at level 200, p pattern, a at level 100, b at level 200, right associativity).

(** [Option::ok_or*] applied to an [Option] returning helper. *)
Definition ok_or {A} (k : ekind) (r : res A) : res A :=
  match r with
  | Err ENone => Err k
  | r => r
  end.

Definition of_option {A} (k : ekind) (o : option A) : res A :=
  match o with Some a => Ok a | None => Err k end.

(** [Option::unwrap] / slice indexing. *)
Definition unwrap {A} (o : option A) : res A :=
  match o with Some a => Ok a | None => Panic end.

(** A result a well-behaved program may have: a value or an error, but
    neither a panic nor endless looping. *)
Definition safe {A} (r : res A) : Prop := r <> Panic /\ r <> NoFuel.

Lemma safe_ok : forall A (a : A), safe (Ok a).
Proof. split; discriminate. Qed.
Lemma safe_err : forall A k, safe (@Err A k).
Proof. split; discriminate. Qed.
Global Hint Resolve safe_ok safe_err : core.

Lemma safe_bind : forall A B (r : res A) (f : A -> res B),
  safe r -> (forall a, r = Ok a -> safe (f a)) -> safe (bind r f).
Proof. intros A B [a|k| |] f [H1 H2] Hf; simpl; auto; congruence. Qed.

Lemma safe_ok_or : forall A k (r : res A), safe r -> safe (ok_or k r).
Proof. intros A k [a|[]| |]; simpl; auto. Qed.

Lemma safe_of_option : forall A k (o : option A), safe (of_option k o).
Proof. intros A k [a|]; simpl; auto. Qed.

Lemma bind_ok_inv : forall A B (r : res A) (f : A -> res B) b,
  bind r f = Ok b -> exists a, r = Ok a /\ f a = Ok b.
Proof. intros A B [a|k| |] f b H; simpl in H; try discriminate; eauto. Qed.

Lemma ok_or_ok_inv : forall A k (r : res A) a, ok_or k r = Ok a -> r = Ok a.
Proof. intros A k [x|[]| |] a H; simpl in *; congruence. Qed.

Lemma of_option_ok_inv : forall A k (o : option A) a,
  of_option k o = Ok a -> o = Some a.
Proof. intros A k [x|] a H; simpl in *; congruence. Qed.

Lemma unwrap_ok_inv : forall A (o : option A) a,
  unwrap o = Ok a -> o = Some a.
Proof. intros A [x|] a H; simpl in *; congruence. Qed.

Ltac inv_bind H :=
  let a := fresh "a" in let H1 := fresh H in let H2 := fresh H in
  apply bind_ok_inv in H; destruct H as (a & H1 & H2).
(** Same with explicit names; the continuation keeps the name [H]. *)
Tactic Notation "ib" ident(H) simple_intropattern(a) ident(E) :=
  apply bind_ok_inv in H; destruct H as (a & E & H).

(** ** Machine arithmetic

    [Checked] is a build with overflow checks (a debug build): overflow
    panics.  [Wrapping] is a build without (the release profile of
    /repo/Cargo.toml lines 166-170 does not turn them on). *)
Inductive mode : Type := Checked | Wrapping.

Definition two64 : N := 2 ^ 64.
Definition two32 : N := 2 ^ 32.

Definition wrap (m : mode) (w : N) (v : N) : res N :=
  if v <? w then Ok v
  else match m with Checked => Panic | Wrapping => Ok (v mod w) end.

Definition uadd (m : mode) (w a b : N) : res N := wrap m w (a + b).
Definition umul (m : mode) (w a b : N) : res N := wrap m w (a * b).
Definition usub (m : mode) (w a b : N) : res N :=
  if b <=? a then Ok (a - b)
  else match m with Checked => Panic | Wrapping => Ok (w - (b - a) mod w) end.

Definition add64 m := uadd m two64.
Definition mul64 m := umul m two64.
Definition sub64 m := usub m two64.

(** [a << s] on [u64]: in debug builds [s >= 64] panics, in release builds
    the shift amount is taken modulo 64. *)
Definition shl64 (m : mode) (a s : N) : res N :=
  if s <? 64 then Ok ((a * 2 ^ s) mod two64)
  else match m with
       | Checked => Panic
       | Wrapping => Ok ((a * 2 ^ (s mod 64)) mod two64)
       end.

(** [checked_add], [checked_sub], [checked_mul]: [None] on overflow. *)
Definition chk_add (w a b : N) : option N :=
  if a + b <? w then Some (a + b) else None.
Definition chk_sub (a b : N) : option N :=
  if b <=? a then Some (a - b) else None.
Definition chk_mul (w a b : N) : option N :=
  if a * b <? w then Some (a * b) else None.
(** [saturating_sub], [saturating_add]. *)
Definition sat_sub (a b : N) : N := a - b.
Definition sat_add (w a b : N) : N := if a + b <? w then a + b else w - 1.

Lemma wrap_small : forall m w v, v < w -> wrap m w v = Ok v.
Proof. intros. unfold wrap. destruct (N.ltb_spec v w); [reflexivity|lia]. Qed.

Lemma uadd_small : forall m w a b, a + b < w -> uadd m w a b = Ok (a + b).
Proof. intros. apply wrap_small; auto. Qed.

Lemma umul_small : forall m w a b, a * b < w -> umul m w a b = Ok (a * b).
Proof. intros. apply wrap_small; auto. Qed.

Lemma usub_small : forall m w a b, b <= a -> usub m w a b = Ok (a - b).
Proof. intros. unfold usub. destruct (N.leb_spec b a); [reflexivity|lia]. Qed.

Lemma safe_wrap_wrapping : forall w v, safe (wrap Wrapping w v).
Proof. intros. unfold wrap. destruct (v <? w); auto. Qed.
Lemma safe_uadd : forall w a b, safe (uadd Wrapping w a b).
Proof. intros. apply safe_wrap_wrapping. Qed.
Lemma safe_umul : forall w a b, safe (umul Wrapping w a b).
Proof. intros. apply safe_wrap_wrapping. Qed.
Lemma safe_usub : forall w a b, safe (usub Wrapping w a b).
Proof. intros. unfold usub. destruct (b <=? a); auto. Qed.
Lemma safe_shl64 : forall a b, safe (shl64 Wrapping a b).
Proof. intros. unfold shl64. destruct (b <? 64); auto. Qed.

(** ** Lists *)

(** Bytes. *)
Definition is_bytes (l : list N) : Prop := Forall (fun b => b < 256) l.

Definition nlen {A} (l : list A) : N := N.of_nat (length l).

Lemma nlen_app : forall A (a b : list A), nlen (a ++ b) = nlen a + nlen b.
Proof. intros. unfold nlen. rewrite app_length. lia. Qed.
Lemma nlen_cons : forall A (a : A) b, nlen (a :: b) = nlen b + 1.
Proof. intros. unfold nlen. simpl length. lia. Qed.
Lemma nlen_nil : forall A, nlen (@nil A) = 0.
Proof. reflexivity. Qed.

(** [firstn]/[skipn] by an [N] count that never converts a huge number to
    [nat]. *)
Fixpoint ntake {A} (n : N) (l : list A) : list A :=
  match l with
  | [] => []
  | x :: l' => if n =? 0 then [] else x :: ntake (n - 1) l'
  end.
Fixpoint ndrop {A} (n : N) (l : list A) : list A :=
  match l with
  | [] => []
  | x :: l' => if n =? 0 then l else ndrop (n - 1) l'
  end.
Fixpoint nnth {A} (n : N) (l : list A) : option A :=
  match l with
  | [] => None
  | x :: l' => if n =? 0 then Some x else nnth (n - 1) l'
  end.

Lemma ntake_firstn : forall A (l : list A) n, ntake n l = firstn (N.to_nat n) l.
Proof.
  induction l as [|x l IH]; intros n; simpl.
  - now rewrite firstn_nil.
  - destruct (N.eqb_spec n 0) as [->|Hn]; [reflexivity|].
    rewrite IH. replace (N.to_nat n) with (S (N.to_nat (n - 1))) by lia.
    reflexivity.
Qed.
Lemma ndrop_skipn : forall A (l : list A) n, ndrop n l = skipn (N.to_nat n) l.
Proof.
  induction l as [|x l IH]; intros n; simpl.
  - now rewrite skipn_nil.
  - destruct (N.eqb_spec n 0) as [->|Hn]; [reflexivity|].
    rewrite IH. replace (N.to_nat n) with (S (N.to_nat (n - 1))) by lia.
    reflexivity.
Qed.
Lemma nnth_nth_error : forall A (l : list A) n,
  nnth n l = nth_error l (N.to_nat n).
Proof.
  induction l as [|x l IH]; intros n; simpl.
  - now destruct (N.to_nat n).
  - destruct (N.eqb_spec n 0) as [->|Hn]; [reflexivity|].
    rewrite IH. replace (N.to_nat n) with (S (N.to_nat (n - 1))) by lia.
    reflexivity.
Qed.

Lemma ntake_app_exact : forall A (a b : list A) n, n = nlen a -> ntake n (a ++ b) = a.
Proof.
  intros A a b n ->. rewrite ntake_firstn. unfold nlen. rewrite Nat2N.id.
  rewrite firstn_app, Nat.sub_diag, firstn_O, firstn_all, app_nil_r. reflexivity.
Qed.
Lemma ndrop_app_exact : forall A (a b : list A) n, n = nlen a -> ndrop n (a ++ b) = b.
Proof.
  intros A a b n ->. rewrite ndrop_skipn. unfold nlen. rewrite Nat2N.id.
  rewrite skipn_app, Nat.sub_diag, skipn_all. reflexivity.
Qed.
Lemma ntake_ndrop : forall A (l : list A) n, ntake n l ++ ndrop n l = l.
Proof. intros. rewrite ntake_firstn, ndrop_skipn. apply firstn_skipn. Qed.
Lemma nlen_ntake : forall A (l : list A) n, nlen (ntake n l) = N.min n (nlen l).
Proof. intros. rewrite ntake_firstn. unfold nlen. rewrite firstn_length. lia. Qed.
Lemma nlen_ndrop : forall A (l : list A) n, nlen (ndrop n l) = nlen l - n.
Proof. intros. rewrite ndrop_skipn. unfold nlen. rewrite skipn_length. lia. Qed.

Lemma nnth_some_lt : forall A (l : list A) n x, nnth n l = Some x -> n < nlen l.
Proof.
  intros A l n x H. rewrite nnth_nth_error in H.
  assert (nth_error l (N.to_nat n) <> None) by congruence.
  apply nth_error_Some in H0. unfold nlen. lia.
Qed.
Lemma nnth_none_ge : forall A (l : list A) n, nnth n l = None <-> nlen l <= n.
Proof.
  intros A l n. rewrite nnth_nth_error, nth_error_None. unfold nlen. lia.
Qed.
Lemma nnth_lt_some : forall A (l : list A) n, n < nlen l -> exists x, nnth n l = Some x.
Proof.
  intros A l n H. destruct (nnth n l) eqn:E; eauto.
  apply nnth_none_ge in E. lia.
Qed.

(** Byte string equality. *)
Fixpoint beq (a b : list N) : bool :=
  match a, b with
  | [], [] => true
  | x :: a', y :: b' => (x =? y) && beq a' b'
  | _, _ => false
  end.
Lemma beq_eq : forall a b, beq a b = true <-> a = b.
Proof.
  induction a as [|x a IH]; intros [|y b]; simpl; split; intros H;
    try reflexivity; try discriminate.
  - apply andb_true_iff in H. destruct H as [H1 H2].
    apply N.eqb_eq in H1. apply IH in H2. congruence.
  - injection H as -> ->. rewrite N.eqb_refl. simpl. now apply IH.
Qed.
Lemma beq_refl : forall a, beq a a = true.
Proof. intros. now apply beq_eq. Qed.
Lemma beq_spec : forall a b, reflect (a = b) (beq a b).
Proof.
  intros. apply iff_reflect. symmetry. apply beq_eq.
Qed.

(** Lexicographic order on byte strings (Rust's [Ord] for [[u8]]/[str]). *)
Fixpoint bcmp (a b : list N) : comparison :=
  match a, b with
  | [], [] => Eq
  | [], _ :: _ => Lt
  | _ :: _, [] => Gt
  | x :: a', y :: b' =>
      match x ?= y with Eq => bcmp a' b' | c => c end
  end.
Lemma bcmp_eq : forall a b, bcmp a b = Eq <-> a = b.
Proof.
  induction a as [|x a IH]; intros [|y b]; simpl; split; intros H;
    try reflexivity; try discriminate.
  - destruct (N.compare_spec x y); try discriminate. subst.
    apply IH in H. congruence.
  - injection H as -> ->. rewrite N.compare_refl. now apply IH.
Qed.
Lemma bcmp_refl : forall a, bcmp a a = Eq.
Proof. intros. now apply bcmp_eq. Qed.
Lemma bcmp_antisym : forall a b, bcmp b a = CompOpp (bcmp a b).
Proof.
  induction a as [|x a IH]; intros [|y b]; simpl; auto.
  rewrite (N.compare_antisym x y).
  destruct (x ?= y); simpl; auto.
Qed.
Lemma bcmp_lt_trans : forall a b c, bcmp a b = Lt -> bcmp b c = Lt -> bcmp a c = Lt.
Proof.
  induction a as [|x a IH]; intros [|y b] [|z c]; simpl; intros H1 H2;
    auto; try discriminate.
  destruct (N.compare_spec x y); destruct (N.compare_spec y z);
    destruct (N.compare_spec x z); try discriminate; try lia; auto; subst.
  eapply IH; eauto.
Qed.
Definition bleb (a b : list N) : bool :=
  match bcmp a b with Gt => false | _ => true end.
Lemma bleb_total : forall a b, bleb a b = true \/ bleb b a = true.
Proof.
  intros. unfold bleb. rewrite (bcmp_antisym a b).
  destruct (bcmp a b); simpl; auto.
Qed.
Lemma bleb_trans : forall a b c, bleb a b = true -> bleb b c = true -> bleb a c = true.
Proof.
  intros a b c. unfold bleb. intros H1 H2.
  destruct (bcmp a b) eqn:E1; try discriminate;
  destruct (bcmp b c) eqn:E2; try discriminate.
  - apply bcmp_eq in E1, E2. subst. now rewrite bcmp_refl.
  - apply bcmp_eq in E1. subst. now rewrite E2.
  - apply bcmp_eq in E2. subst. now rewrite E1.
  - now rewrite (bcmp_lt_trans _ _ _ E1 E2).
Qed.
Lemma bleb_antisym : forall a b, bleb a b = true -> bleb b a = true -> a = b.
Proof.
  intros a b. unfold bleb. rewrite (bcmp_antisym a b).
  destruct (bcmp a b) eqn:E; simpl; intros; try discriminate.
  now apply bcmp_eq.
Qed.

(** Stable insertion sort: the contract of [slice::sort_by]. *)
Section Sort.
  Context {A : Type} (leb : A -> A -> bool).
  Fixpoint insert (x : A) (l : list A) : list A :=
    match l with
    | [] => [x]
    | y :: l' => if leb x y then x :: l else y :: insert x l'
    end.
  Fixpoint isort (l : list A) : list A :=
    match l with
    | [] => []
    | x :: l' => insert x (isort l')
    end.

  Definition sorted (l : list A) : Prop := StronglySorted (fun a b => leb a b = true) l.

  Lemma insert_perm : forall x l, Permutation (x :: l) (insert x l).
  Proof.
    intros x l. induction l as [|y l IH]; simpl; auto.
    destruct (leb x y); auto.
    etransitivity; [apply perm_swap|]. now constructor.
  Qed.
  Lemma isort_perm : forall l, Permutation l (isort l).
  Proof.
    induction l as [|x l IH]; simpl; auto.
    etransitivity; [|apply insert_perm]. now constructor.
  Qed.
  Lemma isort_length : forall l, length (isort l) = length l.
  Proof. intros. symmetry. apply Permutation_length, isort_perm. Qed.

  Hypothesis leb_total : forall a b, leb a b = true \/ leb b a = true.
  Hypothesis leb_trans : forall a b c, leb a b = true -> leb b c = true -> leb a c = true.

  Lemma insert_sorted : forall x l, sorted l -> sorted (insert x l).
  Proof.
    intros x l. induction l as [|y l IH]; intros H; simpl.
    - repeat constructor.
    - inversion H as [|? ? H1 H2]; subst.
      destruct (leb x y) eqn:E.
      + constructor; auto. constructor; auto.
        eapply Forall_impl; [|exact H2]. intros a Ha. eapply leb_trans; eauto.
      + constructor; [now apply IH|].
        assert (Hyx : leb y x = true) by (destruct (leb_total x y); congruence).
        apply (Permutation_Forall (insert_perm x l)). now constructor.
  Qed.
  Lemma isort_sorted : forall l, sorted (isort l).
  Proof.
    induction l as [|x l IH]; simpl; [constructor|]. now apply insert_sorted.
  Qed.
End Sort.
Arguments sorted {A} leb l.

Lemma Forall2_nth_error : forall A B (P : A -> B -> Prop) l1 l2,
  (length l1 = length l2) ->
  (forall i a b, nth_error l1 i = Some a -> nth_error l2 i = Some b -> P a b) ->
  Forall2 P l1 l2.
Proof.
  induction l1 as [|a l1 IH]; intros [|b l2] Hl H; simpl in *; try discriminate; constructor.
  - now apply (H O).
  - apply IH; [lia|]. intros i x y Hx Hy. now apply (H (S i)).
Qed.

Lemma Forall2_nth_l : forall A B (P : A -> B -> Prop) l1 l2, Forall2 P l1 l2 ->
  forall i a, nth_error l1 i = Some a -> exists b, nth_error l2 i = Some b /\ P a b.
Proof.
  intros A B P l1 l2 H. induction H as [|a b l1 l2 H1 H2 IH]; intros i x E; [destruct i; discriminate|].
  destruct i as [|i]; simpl in *; [|auto]. injection E as <-. eauto.
Qed.
Lemma Forall2_nth : forall A B (P : A -> B -> Prop) l1 l2 i a b,
  Forall2 P l1 l2 -> nth_error l1 i = Some a -> nth_error l2 i = Some b -> P a b.
Proof.
  intros A B P l1 l2 i a b H. revert i.
  induction H; intros [|i] Ha Hb; simpl in *; try discriminate; try congruence.
  eapply IHForall2; eauto.
Qed.

Lemma StronglySorted_nth : forall A (R : A -> A -> Prop) l i j a b,
  StronglySorted R l -> (i < j)%nat ->
  nth_error l i = Some a -> nth_error l j = Some b -> R a b.
Proof.
  intros A R l i j a b H. revert i j. induction H as [|x l H IH Hx]; intros i j Hij Ha Hb.
  - destruct i; discriminate.
  - destruct j as [|j]; [lia|]. simpl in Hb. destruct i as [|i]; simpl in Ha.
    + injection Ha as <-. rewrite Forall_forall in Hx. apply Hx.
      eapply nth_error_In; eauto.
    + apply (IH i j); auto. lia.
Qed.

Lemma nth_error_lt : forall A (l : list A) i x, nth_error l i = Some x -> (i < length l)%nat.
Proof. intros. apply nth_error_Some. congruence. Qed.

Lemma nth_error_ge_none : forall A (l : list A) i, (length l <= i)%nat -> nth_error l i = None.
Proof. intros. now apply nth_error_None. Qed.

Lemma nth_error_lt_some : forall A (l : list A) i, (i < length l)%nat -> exists x, nth_error l i = Some x.
Proof.
  intros. destruct (nth_error l i) eqn:E; eauto. apply nth_error_None in E. lia.
Qed.

Lemma Forall2_length : forall A B (P : A -> B -> Prop) l1 l2,
  Forall2 P l1 l2 -> length l1 = length l2.
Proof. induction 1; simpl; auto. Qed.

Lemma Forall2_impl : forall A B (P Q : A -> B -> Prop) l1 l2,
  (forall a b, P a b -> Q a b) -> Forall2 P l1 l2 -> Forall2 Q l1 l2.
Proof. induction 2; constructor; auto. Qed.
Lemma Forall2_map_r : forall A B C (f : B -> C) (P : A -> C -> Prop) l1 l2,
  Forall2 (fun a b => P a (f b)) l1 l2 -> Forall2 P l1 (map f l2).
Proof. induction 1; constructor; auto. Qed.

(** The outcome of a call into the environment: a value or an error. *)
Inductive outcome (A : Type) : Type := Good (a : A) | Bad (k : ekind).
Arguments Good {A} a.
Arguments Bad {A} k.
Definition of_outcome {A} (o : outcome A) : res A :=
  match o with Good a => Ok a | Bad k => Err k end.
Lemma safe_of_outcome : forall A (o : outcome A), safe (of_outcome o).
Proof. intros A [a|k]; simpl; auto. Qed.
