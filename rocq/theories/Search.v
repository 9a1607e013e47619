(** * Binary search and unstable sorting of slices (core) *)

From Verif Require Import Base Util UtilProofs.
From Coq Require Import Permutation Sorted.
Local Open Scope N_scope.

(** ** [binary_search_by]

    On a slice that is ordered as the comparison function sees it, the result
    is the index of some element that compares equal, or the index at which
    one could be inserted. Which one of several equal elements is found is not
    specified: [pick] decides, given the length of their run. On any other slice
    the result is unspecified, but what is found always compares equal. *)
Definition is_gt (c : comparison) : bool := match c with Gt => true | _ => false end.
Definition binary_search_by {A} (pick : N -> N) (l : list A) (f : A -> comparison) : nat + nat :=
  let lo := partition_point (fun x => is_lt (f x)) l in
  let hi := partition_point (fun x => negb (is_gt (f x))) l in
  if (lo <? hi)%nat then
    let i := (lo + N.to_nat (pick (N.of_nat (hi - lo)) mod N.of_nat (hi - lo)))%nat in
    match nth_error l i with
    | Some x => if is_eq (f x) then inl i else inr lo
    | None => inr lo
    end
  else inr lo.

Lemma bsearch_found : forall A pick (l : list A) f i,
  binary_search_by pick l f = inl i -> exists x, nth_error l i = Some x /\ f x = Eq.
Proof.
  intros A pick l f i H. unfold binary_search_by in H.
  destruct (_ <? _)%nat; [|discriminate].
  destruct (nth_error l _) as [x|] eqn:E; [|discriminate].
  destruct (f x) eqn:Ef; simpl in H; try discriminate. injection H as <-. eauto.
Qed.

Lemma bsearch_le : forall A pick (l : list A) f n,
  binary_search_by pick l f = inr n -> (n <= length l)%nat.
Proof.
  intros A pick l f n H. unfold binary_search_by in H.
  pose proof (partition_point_bound _ (fun x => is_lt (f x)) l).
  destruct (_ <? _)%nat; [|injection H as <-; auto].
  destruct (nth_error l _) as [x|]; [destruct (is_eq (f x)); [discriminate|]|]; injection H as <-; auto.
Qed.
Lemma cmp_sorted_lt : forall A (l : list A) f, cmp_sorted f l -> partitioned (fun x => is_lt (f x)) l.
Proof.
  intros A l f Hs i j a b Hij Ha Hb H. destruct (Hs _ _ _ _ Hij Ha Hb) as [H1 _].
  unfold is_lt in *. destruct (f b); try discriminate. now rewrite H1.
Qed.
Lemma cmp_sorted_le : forall A (l : list A) f, cmp_sorted f l -> partitioned (fun x => negb (is_gt (f x))) l.
Proof.
  intros A l f Hs i j a b Hij Ha Hb H. destruct (Hs _ _ _ _ Hij Ha Hb) as [_ H1].
  unfold is_gt in *. destruct (f a) eqn:E; auto. now rewrite H1 in H.
Qed.

Lemma bsearch_spec : forall A pick (l : list A) f, cmp_sorted f l ->
  match binary_search_by pick l f with
  | inl i => exists x, nth_error l i = Some x /\ f x = Eq
  | inr n =>
      (n <= length l)%nat /\
      (forall j x, nth_error l j = Some x -> (j < n)%nat -> f x = Lt) /\
      (forall j x, nth_error l j = Some x -> (n <= j)%nat -> f x = Gt)
  end.
Proof.
  intros A pick l f Hs.
  pose proof (cmp_sorted_lt _ _ _ Hs) as Plt. pose proof (cmp_sorted_le _ _ _ Hs) as Ple.
  pose proof (partitioned_cnt _ _ _ Plt) as Clt. pose proof (partitioned_cnt _ _ _ Ple) as Cle.
  destruct (binary_search_by pick l f) as [i|n] eqn:E; [now apply bsearch_found in E|].
  unfold binary_search_by in E.
  rewrite (partition_point_cnt _ _ _ Plt), (partition_point_cnt _ _ _ Ple) in E.
  set (lo := cnt_lt (fun x => is_lt (f x)) l) in *.
  set (hi := cnt_lt (fun x => negb (is_gt (f x))) l) in *.
  pose proof (cnt_lt_le _ (fun x => is_lt (f x)) l) as Llo. fold lo in Llo.
  pose proof (cnt_lt_le _ (fun x => negb (is_gt (f x))) l) as Lhi. fold hi in Lhi.
  destruct (Nat.ltb_spec lo hi) as [H|H].
  - exfalso. set (k := pick (N.of_nat (hi - lo)) mod N.of_nat (hi - lo)) in E.
    assert (Hk : k < N.of_nat (hi - lo)) by (apply N.mod_lt; lia).
    destruct (nth_error_lt_some _ l (lo + N.to_nat k)) as [x Hx]; [lia|]. rewrite Hx in E.
    specialize (Clt _ _ Hx). specialize (Cle _ _ Hx). cbv beta in Clt, Cle.
    destruct (Nat.ltb_spec (lo + N.to_nat k) lo); [lia|].
    destruct (Nat.ltb_spec (lo + N.to_nat k) hi); [|lia].
    destruct (f x); simpl in *; discriminate.
  - injection E as <-. split; auto. split; intros j x Hj Hn.
    + specialize (Clt _ _ Hj). cbv beta in Clt. destruct (Nat.ltb_spec j lo); [|lia].
      destruct (f x); simpl in *; congruence.
    + specialize (Cle _ _ Hj). cbv beta in Cle. destruct (Nat.ltb_spec j hi); [lia|].
      destruct (f x); simpl in *; congruence.
Qed.

(** ** [sort_unstable_by]: any ordering function will do *)
Definition sorter := forall A : Type, (A -> A -> bool) -> list A -> list A.
Definition sorter_ok (s : sorter) : Prop :=
  forall (A : Type) (leb : A -> A -> bool) l,
    (forall a b, leb a b = true \/ leb b a = true) ->
    (forall a b c, leb a b = true -> leb b c = true -> leb a c = true) ->
    Permutation l (s A leb l) /\ sorted leb (s A leb l).
Definition by_key {A} (f : A -> N) (a b : A) : bool := f a <=? f b.
Lemma sorts_by_key : forall s A (f : A -> N) l, sorter_ok s ->
  Permutation l (s A (by_key f) l) /\ StronglySorted (fun a b => f a <= f b) (s A (by_key f) l).
Proof.
  intros s A f l H. destruct (H A (by_key f) l) as [H1 H2].
  - intros a b. unfold by_key. destruct (N.leb_spec (f a) (f b)), (N.leb_spec (f b) (f a)); auto; lia.
  - intros a b c. unfold by_key. rewrite !N.leb_le. lia.
  - split; auto. clear H1. unfold sorted in H2. induction H2 as [|a l' H2 IH Hf]; constructor; auto.
    eapply Forall_impl; [|exact Hf]. intros b Hb. unfold by_key in Hb. now apply N.leb_le.
Qed.

(** One such function *)
Definition stable : sorter := fun A leb l => isort leb l.
Lemma stable_ok : sorter_ok stable.
Proof.
  intros A leb l Ht Htr. split; [apply isort_perm|]. now apply isort_sorted.
Qed.
