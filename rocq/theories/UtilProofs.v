(** * Proofs about the model of src/util.rs *)

From Verif Require Import Base Util.
Local Open Scope N_scope.
Ltac Zify.zify_post_hook ::= Z.div_mod_to_equations.

(** ** Binary search *)

Section PP.
  Context {A : Type} (pred : A -> bool) (l : list A) (k : nat).
  Hypothesis Hpart : forall i x, nth_error l i = Some x -> pred x = Nat.ltb i k.

  Lemma pp_loop_spec : forall fuel base size,
    (1 <= size)%nat -> (size <= S fuel)%nat ->
    (base + size <= length l)%nat -> (base <= k <= base + size)%nat ->
    let b := pp_loop fuel pred l base size in
    (b < length l)%nat /\ (b <= k <= S b)%nat.
  Proof.
    induction fuel as [|fuel IH]; intros base size H1 H2 H3 H4; simpl.
    - assert (size = 1)%nat by lia. lia.
    - destruct (Nat.leb_spec size 1) as [Hs|Hs]; [lia|].
      pose proof (Nat.div2_odd size) as Hd.
      assert (Hh : (1 <= Nat.div2 size)%nat /\ (2 * Nat.div2 size <= size)%nat).
      { destruct (Nat.odd size); simpl Nat.b2n in Hd; lia. }
      destruct (nth_error_lt_some _ l (base + Nat.div2 size)) as [x Hx]; [lia|].
      rewrite Hx. rewrite (Hpart _ _ Hx).
      destruct (Nat.ltb_spec (base + Nat.div2 size) k); apply IH; lia.
  Qed.

  Lemma partition_point_spec : (k <= length l)%nat -> partition_point pred l = k.
  Proof.
    intros Hk. unfold partition_point. destruct l as [|a l0] eqn:El.
    - simpl in Hk. lia.
    - rewrite <- El in *.
      assert (Hlen : (1 <= length l)%nat) by (rewrite El; simpl; lia).
      destruct (pp_loop_spec (length l) 0 (length l)) as [H1 H2]; try lia.
      set (b := pp_loop _ _ _ _ _) in *.
      destruct (nth_error_lt_some _ l b H1) as [x Hx]. rewrite Hx.
      rewrite (Hpart _ _ Hx). destruct (Nat.ltb_spec b k); lia.
  Qed.
End PP.

(** Whatever the predicate, the result is a valid insertion point. *)
Lemma pp_loop_bound : forall A (pred : A -> bool) l fuel base size,
  (1 <= size)%nat -> (base + size <= length l)%nat ->
  (pp_loop fuel pred l base size < length l)%nat.
Proof.
  induction fuel as [|fuel IH]; intros base size H1 H2; simpl; [lia|].
  destruct (Nat.leb_spec size 1); [lia|].
  pose proof (Nat.div2_odd size) as Hd.
  assert (Hh : (1 <= Nat.div2 size)%nat /\ (2 * Nat.div2 size <= size)%nat).
  { destruct (Nat.odd size); simpl Nat.b2n in Hd; lia. }
  apply IH; [lia|].
  destruct (nth_error l (base + Nat.div2 size)) as [x|]; [destruct (pred x)|]; lia.
Qed.
Lemma partition_point_bound : forall A (pred : A -> bool) l,
  (partition_point pred l <= length l)%nat.
Proof.
  intros. unfold partition_point. destruct l as [|a l0] eqn:El; [simpl; lia|].
  rewrite <- El.
  assert (1 <= length l)%nat by (rewrite El; simpl; lia).
  pose proof (pp_loop_bound _ pred l (length l) 0 (length l)) as Hb.
  set (b := pp_loop _ _ _ _ _) in *. 
  destruct (nth_error l b) as [x|]; [destruct (pred x)|]; lia.
Qed.

(** ** Searching sorted lists *)

(** Sorted by an [N] key. *)
Definition ksorted {A} (f : A -> N) (l : list A) : Prop :=
  forall i j a b, (i <= j)%nat -> nth_error l i = Some a -> nth_error l j = Some b -> f a <= f b.

Lemma StronglySorted_ksorted : forall A (f : A -> N) l,
  StronglySorted (fun a b => f a <= f b) l -> ksorted f l.
Proof.
  intros A f l H i j a b Hij Ha Hb.
  destruct (Nat.eq_dec i j) as [->|]; [assert (a = b) by congruence; subst; lia|].
  apply (StronglySorted_nth _ _ l i j a b H); auto; lia.
Qed.

Lemma ksorted_tail : forall A (f : A -> N) a l, ksorted f (a :: l) -> ksorted f l.
Proof. intros A f a l H i j x y Hij Hx Hy. apply (H (S i) (S j)); auto; lia. Qed.

Lemma ksorted_StronglySorted : forall A (f : A -> N) l,
  ksorted f l -> StronglySorted (fun a b => f a <= f b) l.
Proof.
  induction l as [|a l IH]; intros H; constructor.
  - apply IH. eapply ksorted_tail; eauto.
  - apply Forall_forall. intros x Hx. apply In_nth_error in Hx. destruct Hx as [n Hn].
    apply (H O (S n)); auto; lia.
Qed.

(** Number of elements with a key below [x]. *)
Fixpoint cnt_lt {A} (p : A -> bool) (l : list A) : nat :=
  match l with
  | [] => O
  | a :: l' => if p a then S (cnt_lt p l') else O
  end.
Lemma cnt_lt_le : forall A (p : A -> bool) l, (cnt_lt p l <= length l)%nat.
Proof. induction l as [|a l IH]; simpl; [lia|]. destruct (p a); lia. Qed.

(** [p] is a downward closed predicate along [l]. *)
Definition partitioned {A} (p : A -> bool) (l : list A) : Prop :=
  forall i j a b, (i <= j)%nat -> nth_error l i = Some a -> nth_error l j = Some b ->
    p b = true -> p a = true.
Lemma partitioned_cnt : forall A (p : A -> bool) l, partitioned p l ->
  forall i x, nth_error l i = Some x -> p x = Nat.ltb i (cnt_lt p l).
Proof.
  induction l as [|a l IH]; intros H i x Hi; [destruct i; discriminate|].
  simpl. destruct (p a) eqn:Ea.
  - destruct i as [|i]; simpl in Hi.
    + injection Hi as <-. rewrite Ea. reflexivity.
    + assert (Hp : partitioned p l).
      { intros i0 j0 a0 b0 Hij H1 H2. apply (H (S i0) (S j0)); auto; lia. }
      rewrite (IH Hp i x Hi). reflexivity.
  - destruct (p x) eqn:Ex; [|reflexivity].
    rewrite (H O i a x) in Ea; auto; try discriminate; lia.
Qed.
Lemma partition_point_cnt : forall A (p : A -> bool) l, partitioned p l ->
  partition_point p l = cnt_lt p l.
Proof.
  intros. apply partition_point_spec.
  - intros. now apply partitioned_cnt.
  - apply cnt_lt_le.
Qed.

(** A list along which [f] is first [Lt], then [Eq], then [Gt]. *)
Definition cmp_sorted {A} (f : A -> comparison) (l : list A) : Prop :=
  forall i j a b, (i <= j)%nat -> nth_error l i = Some a -> nth_error l j = Some b ->
    (f b = Lt -> f a = Lt) /\ (f a = Gt -> f b = Gt).

Lemma find_lowest_match_by_some : forall A (l : list A) f i,
  cmp_sorted f l -> find_lowest_match_by l f = Some i ->
  (exists x, nth_error l i = Some x /\ f x = Eq) /\
  (forall j y, (j < i)%nat -> nth_error l j = Some y -> f y = Lt).
Proof.
  intros A l f i Hs H. unfold find_lowest_match_by in H.
  assert (Hp : partitioned (fun e => is_lt (f e)) l).
  { intros i0 j0 a b Hij Ha Hb Hlt. destruct (Hs _ _ _ _ Hij Ha Hb) as [H1 _].
    unfold is_lt in *. destruct (f b); try discriminate. now rewrite H1. }
  rewrite (partition_point_cnt _ _ _ Hp) in H.
  destruct (nth_error l _) as [e|] eqn:Ee; [|discriminate].
  destruct (f e) eqn:Efe; simpl in H; try discriminate. injection H as <-.
  split; [eauto|].
  intros j y Hj Hy. pose proof (partitioned_cnt _ _ _ Hp _ _ Hy) as E.
  destruct (Nat.ltb_spec j (cnt_lt (fun e => is_lt (f e)) l)); [|lia].
  unfold is_lt in E. destruct (f y); congruence.
Qed.
Lemma find_lowest_match_by_none : forall A (l : list A) f,
  cmp_sorted f l -> find_lowest_match_by l f = None ->
  forall x, In x l -> f x <> Eq.
Proof.
  intros A l f Hs H x Hin Hx. unfold find_lowest_match_by in H.
  assert (Hp : partitioned (fun e => is_lt (f e)) l).
  { intros i0 j0 a b Hij Ha Hb Hlt. destruct (Hs _ _ _ _ Hij Ha Hb) as [H1 _].
    unfold is_lt in *. destruct (f b); try discriminate. now rewrite H1. }
  rewrite (partition_point_cnt _ _ _ Hp) in H.
  apply In_nth_error in Hin. destruct Hin as [n Hn].
  pose proof (partitioned_cnt _ _ _ Hp _ _ Hn) as E. cbv beta in E. rewrite Hx in E. simpl in E.
  destruct (Nat.ltb_spec n (cnt_lt (fun e => is_lt (f e)) l)) as [|Hle]; [discriminate|].
  destruct (nth_error l (cnt_lt (fun e => is_lt (f e)) l)) as [e|] eqn:Ee.
  - pose proof (partitioned_cnt _ _ _ Hp _ _ Ee) as E2.
    rewrite Nat.ltb_irrefl in E2.
    destruct (Hs _ _ _ _ Hle Ee Hn) as [_ H2].
    unfold is_lt in E2. unfold is_eq in H.
    destruct (f e); try discriminate. rewrite H2 in Hx; congruence.
  - apply nth_error_None in Ee. apply nth_error_lt in Hn. lia.
Qed.

(** Specification of the lookup: [i] is in the run of the best match. *)
Definition best_run {A} (f : A -> N) (l : list A) (x : N) (i : nat) : Prop :=
  exists e, nth_error l i = Some e /\ f e <= x /\
    forall j y, nth_error l j = Some y -> f y <= x -> f y <= f e.
(** [i] is the first index of the run. *)
Definition first_of_run {A} (f : A -> N) (l : list A) (i : nat) : Prop :=
  forall j e y, (j < i)%nat -> nth_error l i = Some e -> nth_error l j = Some y -> f y <> f e.
Definition last_of_run {A} (f : A -> N) (l : list A) (i : nat) : Prop :=
  forall j e y, (i < j)%nat -> nth_error l i = Some e -> nth_error l j = Some y -> f y <> f e.

Lemma flb_scan_spec : forall A (f : A -> N) l c n idx,
  (n <= length l)%nat ->
  exists r, flb_scan f l c n idx = Some r /\
   ((r = idx /\ forall j y, (j < n)%nat -> nth_error l j = Some y -> f y = c) \/
    (exists i y, r = S i /\ (i < n)%nat /\ nth_error l i = Some y /\ f y <> c /\
       forall j z, (i < j < n)%nat -> nth_error l j = Some z -> f z = c)).
Proof.
  induction n as [|n IH]; intros idx Hn; simpl.
  - exists idx. split; auto. left. split; auto. intros; lia.
  - destruct (nth_error_lt_some _ l n) as [e He]; [lia|]. rewrite He.
    destruct (N.eqb_spec (f e) c) as [E|E].
    + destruct (IH idx) as (r & Hr & Hc); [lia|]. exists r. split; auto.
      destruct Hc as [[-> Hc]|(i & y & -> & Hi & Hy & Hne & Hc)].
      * left. split; auto. intros j y Hj Hy.
        destruct (Nat.eq_dec j n) as [->|]; [congruence|]. apply (Hc j); auto; lia.
      * right. exists i, y. repeat split; auto; try lia.
        intros j z Hj Hz. destruct (Nat.eq_dec j n) as [->|]; [congruence|].
        apply (Hc j); auto; lia.
    + exists (S n). split; auto. right. exists n, e. repeat split; auto; try lia.
Qed.

Section FLB.
  Context {A : Type} (f : A -> N) (l : list A) (x : N).
  Hypothesis Hs : ksorted f l.
  Let p := fun e => f e <? x.

  Lemma flb_partitioned : partitioned p l.
  Proof.
    intros i j a b Hij Ha Hb Hlt. specialize (Hs _ _ _ _ Hij Ha Hb).
    unfold p in *. lia.
  Qed.
  Let k := cnt_lt p l.
  Lemma flb_k : forall i y, nth_error l i = Some y -> (f y < x <-> (i < k)%nat).
  Proof.
    intros i y Hi. pose proof (partitioned_cnt _ _ _ flb_partitioned _ _ Hi) as E.
    unfold p in E at 1. fold k in E. lia.
  Qed.

  Lemma flb_cases :
    (find_match_or_lower_bound_by_key l x f = None /\ forall y, In y l -> x < f y) \/
    (exists i e, find_match_or_lower_bound_by_key l x f = Some i /\ nth_error l i = Some e /\
       f e = x /\ first_of_run f l i) \/
    (exists i e, find_match_or_lower_bound_by_key l x f = Some i /\ nth_error l i = Some e /\
       f e < x /\ (forall y, In y l -> f y <= x -> f y <= f e) /\
       ((exists h, nth_error l 0 = Some h /\ f h <> f e) /\ first_of_run f l i \/
        (exists h, nth_error l 0 = Some h /\ f h = f e) /\ last_of_run f l i)).
  Proof.
    unfold find_match_or_lower_bound_by_key.
    change (fun e : A => f e <? x) with p.
    rewrite (partition_point_cnt _ _ _ flb_partitioned). fold k.
    assert (Hkl : (k <= length l)%nat) by apply cnt_lt_le.
    set (lower := match k with O => None | S _ => _ end).
    assert (Hlow : (forall y, nth_error l k = Some y -> x < f y) ->
      (lower = None /\ forall y, In y l -> x < f y) \/
      (exists i e, lower = Some i /\ nth_error l i = Some e /\
       f e < x /\ (forall y, In y l -> f y <= x -> f y <= f e) /\
       ((exists h, nth_error l 0 = Some h /\ f h <> f e) /\ first_of_run f l i \/
        (exists h, nth_error l 0 = Some h /\ f h = f e) /\ last_of_run f l i))).
    { intros Hgt.
      assert (Hge : forall j y, nth_error l j = Some y -> (k <= j)%nat -> x < f y).
      { intros j y Hy Hj. destruct (nth_error_lt_some _ l k) as [e0 He0].
        { apply nth_error_lt in Hy. lia. }
        specialize (Hs _ _ _ _ Hj He0 Hy). specialize (Hgt _ He0). lia. }
      unfold lower. destruct k as [|k'] eqn:Ek.
      - left. split; auto. intros y Hy. apply In_nth_error in Hy. destruct Hy as [n Hn].
        apply (Hge n); auto. lia.
      - right.
        destruct (nth_error_lt_some _ l k') as [e He]; [lia|]. rewrite He.
        assert (Hex : f e < x). { apply (flb_k _ _ He). fold k. lia. }
        assert (Hbest : forall y, In y l -> f y <= x -> f y <= f e).
        { intros y Hy Hle. apply In_nth_error in Hy. destruct Hy as [n Hn].
          destruct (Nat.le_gt_cases (S k') n) as [Hge'|Hlt].
          - specialize (Hge _ _ Hn Hge'). lia.
          - apply (Hs n k'); auto; lia. }
        destruct (flb_scan_spec _ f l (f e) k' k') as (r & Hr & Hc); [lia|].
        rewrite Hr.
        destruct Hc as [[-> Hc]|(i & y & -> & Hi & Hy & Hne & Hc)].
        + exists k', e. repeat split; auto. right. split.
          * destruct k' as [|k''].
            -- exists e. auto.
            -- destruct (nth_error_lt_some _ l 0) as [h Hh]; [lia|].
               exists h. split; auto. apply (Hc 0%nat); auto; lia.
          * intros j e' z Hj He' Hz. assert (e' = e) by congruence. subst e'.
            specialize (Hge _ _ Hz). lia.
        + assert (exists e', nth_error l (S i) = Some e' /\ f e' = f e) as (e' & He' & Hfe').
          { destruct (Nat.eq_dec (S i) k') as [E|E].
            - exists e. rewrite E. auto.
            - destruct (nth_error_lt_some _ l (S i)) as [e' He']; [lia|].
              exists e'. split; auto. apply (Hc (S i)); auto; lia. }
          exists (S i), e'. rewrite Hfe'. repeat split; auto. left. split.
          * destruct (nth_error_lt_some _ l 0) as [h Hh]; [lia|].
            exists h. split; auto.
            assert (f h <= f y) by (apply (Hs 0%nat i); auto; lia).
            assert (f y <= f e) by (apply (Hs i k'); auto; lia). lia.
          * intros j e'' z Hj He'' Hz. assert (e'' = e') by congruence. subst e''.
            assert (f z <= f y) by (apply (Hs j i); auto; lia).
            assert (f y <= f e) by (apply (Hs i k'); auto; lia). lia. }
    destruct (nth_error l k) as [e|] eqn:Ee.
    - assert (Hge : x <= f e). { pose proof (flb_k _ _ Ee). lia. }
      destruct (N.eqb_spec (f e) x) as [E|E].
      + right. left. exists k, e. repeat split; auto.
        intros j e' y Hj He' Hy. assert (e' = e) by congruence. subst e'.
        apply (flb_k _ _ Hy) in Hj. lia.
      + destruct Hlow as [H|H]; auto.
        intros y Hy. injection Hy as <-. lia.
    - destruct Hlow as [H|H]; auto. intros y Hy. discriminate.
  Qed.
End FLB.

(** ** LEB128 *)

(** The encoding of [v] in exactly [k+1] groups, least significant first. *)
Fixpoint uleb_enc (k : nat) (v : N) : list N :=
  match k with
  | O => [v]
  | S k' => (v mod 128 + 128) :: uleb_enc k' (v / 128)
  end.

Lemma land_128 : forall b, b < 256 -> (N.land b 128 =? 0) = (b <? 128).
Proof.
  intros b H.
  assert (Hall : forallb (fun b => Bool.eqb (N.land (N.of_nat b) 128 =? 0) (N.of_nat b <? 128)) (seq 0 256) = true)
    by (vm_compute; reflexivity).
  rewrite forallb_forall in Hall.
  specialize (Hall (N.to_nat b)). rewrite N2Nat.id in Hall.
  apply Bool.eqb_prop. apply Hall. apply in_seq. lia.
Qed.
Lemma land_64 : forall b, b < 128 -> (N.land b 64 =? 0) = (b <? 64).
Proof.
  intros b H.
  assert (Hall : forallb (fun b => Bool.eqb (N.land (N.of_nat b) 64 =? 0) (N.of_nat b <? 64)) (seq 0 128) = true)
    by (vm_compute; reflexivity).
  rewrite forallb_forall in Hall.
  specialize (Hall (N.to_nat b)). rewrite N2Nat.id in Hall.
  apply Bool.eqb_prop. apply Hall. apply in_seq. lia.
Qed.
Lemma land_127 : forall b, N.land b 127 = b mod 128.
Proof. intros. change 127 with (N.ones 7). now rewrite N.land_ones. Qed.

(** [lor] of numbers with disjoint bits is addition. *)
Lemma testbit_high : forall a s n, a < 2 ^ s -> s <= n -> N.testbit a n = false.
Proof.
  intros a s n Ha Hn. destruct (N.eq_dec a 0) as [->|]; [apply N.bits_0|].
  apply N.bits_above_log2. apply N.log2_lt_pow2; [lia|].
  apply N.lt_le_trans with (2 ^ s); auto. apply N.pow_le_mono_r; lia.
Qed.
Lemma land_disjoint : forall a b s, a < 2 ^ s -> N.land a (b * 2 ^ s) = 0.
Proof.
  intros a b s Ha. apply N.bits_inj_0. intros n. rewrite N.land_spec.
  destruct (N.lt_ge_cases n s).
  - rewrite N.mul_pow2_bits_low by auto. apply andb_false_r.
  - now rewrite (testbit_high a s n).
Qed.
Lemma lor_disjoint : forall a b s, a < 2 ^ s -> N.lor a (b * 2 ^ s) = a + b * 2 ^ s.
Proof.
  intros a b s Ha. rewrite <- N.lxor_lor by now apply land_disjoint.
  symmetry. apply N.add_nocarry_lxor. now apply land_disjoint.
Qed.

Lemma shl64_0 : forall s, shl64 Wrapping 0 s = Ok 0.
Proof. intros. unfold shl64. destruct (s <? 64); rewrite N.mul_0_l; reflexivity. Qed.

(** Value of the loop: the accumulator holds the bits below [shift]. *)
Lemma uleb_loop_enc : forall k m v acc shift rest,
  v < 2 ^ (7 * N.of_nat (S k)) ->
  acc < 2 ^ shift ->
  acc + v * 2 ^ shift < two64 ->
  (m = Wrapping \/ shift + 7 * N.of_nat k < 64) ->
  uleb_loop m acc shift (uleb_enc k v ++ rest) = Ok (acc + v * 2 ^ shift, rest).
Proof.
  induction k as [|k IH]; intros m v acc shift rest Hv Hacc Hfit Hm; simpl.
  - change (7 * N.of_nat 1) with 7 in Hv. change (2 ^ 7) with 128 in Hv.
    rewrite land_128 by lia. destruct (N.ltb_spec v 128); [|lia].
    destruct (N.lt_ge_cases shift 64) as [Hs|Hs].
    + unfold shl64. destruct (N.ltb_spec shift 64); [|lia]. simpl bind.
      rewrite N.mod_small by lia. rewrite lor_disjoint by auto. reflexivity.
    + assert (v = 0).
      { destruct (N.eq_dec v 0); auto. exfalso.
        assert (2 ^ 64 <= 2 ^ shift) by (apply N.pow_le_mono_r; lia).
        assert (1 * 2 ^ shift <= v * 2 ^ shift) by (apply N.mul_le_mono_r; lia).
        unfold two64 in Hfit. lia. }
      subst v. destruct Hm as [->|Hm]; [|lia].
      rewrite shl64_0. simpl bind. rewrite N.lor_0_r, N.mul_0_l, N.add_0_r. reflexivity.
  - assert (Hb : v mod 128 < 128) by (apply N.mod_lt; lia).
    rewrite land_128 by lia. destruct (N.ltb_spec (v mod 128 + 128) 128); [lia|].
    rewrite land_127.
    replace ((v mod 128 + 128) mod 128) with (v mod 128) by (clear - Hb; lia).
    assert (Hv128 : v / 128 < 2 ^ (7 * N.of_nat (S k))).
    { apply N.div_lt_upper_bound; [lia|].
      replace (7 * N.of_nat (S (S k))) with (7 + 7 * N.of_nat (S k)) in Hv by lia.
      rewrite N.pow_add_r in Hv. exact Hv. }
    assert (Hdm : v = 128 * (v / 128) + v mod 128) by (apply N.div_mod; lia).
    assert (Hpow : 2 ^ (shift + 7) = 128 * 2 ^ shift).
    { rewrite N.pow_add_r. change (2 ^ 7) with 128. lia. }
    assert (Hsum : acc + v mod 128 * 2 ^ shift + v / 128 * 2 ^ (shift + 7)
                   = acc + v * 2 ^ shift).
    { rewrite Hpow. rewrite Hdm at 3. lia. }
    assert (Hstep : exists s, shl64 m (v mod 128) shift = Ok s /\
              N.lor acc s = acc + v mod 128 * 2 ^ shift).
    { destruct (N.lt_ge_cases shift 64) as [Hs|Hs].
      - unfold shl64. destruct (N.ltb_spec shift 64); [|lia].
        eexists. split; [reflexivity|].
        rewrite N.mod_small by (clear - Hfit Hsum; lia).
        now rewrite lor_disjoint.
      - assert (v = 0).
        { destruct (N.eq_dec v 0); auto. exfalso.
          assert (2 ^ 64 <= 2 ^ shift) by (apply N.pow_le_mono_r; lia).
          assert (1 * 2 ^ shift <= v * 2 ^ shift) by (apply N.mul_le_mono_r; lia).
          unfold two64 in Hfit. lia. }
        subst v. destruct Hm as [->|Hm]; [|lia].
        change (0 mod 128) with 0. rewrite shl64_0. eexists. split; [reflexivity|].
        rewrite N.lor_0_r. lia. }
    destruct Hstep as (s & Hs1 & Hs2). rewrite Hs1. simpl bind. rewrite Hs2.
    rewrite IH; [now rewrite Hsum| auto | | |].
    + rewrite Hpow.
      assert (v mod 128 * 2 ^ shift <= 127 * 2 ^ shift) by (apply N.mul_le_mono_r; lia).
      lia.
    + rewrite Hsum. exact Hfit.
    + destruct Hm; [auto|right; lia].
Qed.

Lemma read_u64_leb128_enc : forall k m v rest,
  v < two64 -> v < 2 ^ (7 * N.of_nat (S k)) ->
  (m = Wrapping \/ (k <= 9)%nat) ->
  read_u64_leb128 m (uleb_enc k v ++ rest) = Ok (v, rest).
Proof.
  intros [|k] m v rest Hv Hk Hm; simpl.
  - change (7 * N.of_nat 1) with 7 in Hk. change (2 ^ 7) with 128 in Hk.
    rewrite land_128 by lia. destruct (N.ltb_spec v 128); [reflexivity|lia].
  - assert (Hb : v mod 128 < 128) by (apply N.mod_lt; lia).
    rewrite land_128 by lia. destruct (N.ltb_spec (v mod 128 + 128) 128); [lia|].
    rewrite land_127.
    replace ((v mod 128 + 128) mod 128) with (v mod 128) by (clear - Hb; lia).
    assert (Hv128 : v / 128 < 2 ^ (7 * N.of_nat (S k))).
    { apply N.div_lt_upper_bound; [lia|].
      replace (7 * N.of_nat (S (S k))) with (7 + 7 * N.of_nat (S k)) in Hk by lia.
      rewrite N.pow_add_r in Hk. exact Hk. }
    assert (Hdm : v = 128 * (v / 128) + v mod 128) by (apply N.div_mod; lia).
    change (2 ^ 7) with 128 in *.
    rewrite uleb_loop_enc; auto.
    + change (2 ^ 7) with 128. do 2 f_equal. lia.
    + change (2 ^ 7) with 128. lia.
    + destruct Hm; [auto|right; lia].
Qed.

(** A successful read consumes exactly the bytes up to the first one without
    continuation bit. *)
Lemma uleb_loop_consumes : forall m r acc shift v r',
  uleb_loop m acc shift r = Ok (v, r') ->
  exists pre b, r = pre ++ b :: r' /\
    Forall (fun x => N.land x 128 <> 0) pre /\ N.land b 128 = 0.
Proof.
  induction r as [|b r IH]; intros acc shift v r' H; simpl in H; [discriminate|].
  destruct (N.eqb_spec (N.land b 128) 0) as [E|E].
  - inv_bind H. injection H1 as <- <-. exists [], b. repeat split; auto.
  - inv_bind H. apply IH in H1. destruct H1 as (pre & c & -> & Hp & Hc).
    exists (b :: pre), c. repeat split; auto.
Qed.
Lemma read_u64_leb128_consumes : forall m r v r',
  read_u64_leb128 m r = Ok (v, r') ->
  exists pre b, r = pre ++ b :: r' /\
    Forall (fun x => N.land x 128 <> 0) pre /\ N.land b 128 = 0.
Proof.
  intros m [|b r] v r' H; simpl in H; [discriminate|].
  destruct (N.eqb_spec (N.land b 128) 0) as [E|E].
  - injection H as <- <-. exists [], b. repeat split; auto.
  - apply uleb_loop_consumes in H. destruct H as (pre & c & -> & Hp & Hc).
    exists (b :: pre), c. repeat split; auto.
Qed.
Lemma uleb_loop_none : forall r acc shift,
  (uleb_loop Wrapping acc shift r = Err ENone) <-> Forall (fun x => N.land x 128 <> 0) r.
Proof.
  induction r as [|b r IH]; intros acc shift; simpl; [split; auto|].
  destruct (N.eqb_spec (N.land b 128) 0) as [E|E].
  - split; intros H.
    + unfold shl64 in H. destruct (shift <? 64); discriminate.
    + inversion H. congruence.
  - destruct (safe_shl64 (N.land b 127) shift) as [S1 S2].
    destruct (shl64 Wrapping (N.land b 127) shift) as [a|e| |] eqn:Es; try congruence.
    + simpl. rewrite IH. split; intros H; [now constructor|now inversion H].
    + unfold shl64 in Es. destruct (shift <? 64); discriminate.
Qed.
Lemma read_u64_leb128_none : forall r,
  read_u64_leb128 Wrapping r = Err ENone <-> Forall (fun x => N.land x 128 <> 0) r.
Proof.
  intros [|b r]; simpl; [split; auto|].
  destruct (N.eqb_spec (N.land b 128) 0) as [E|E].
  - split; intros H; [discriminate|]. inversion H. congruence.
  - rewrite uleb_loop_none. split; intros H; [now constructor|now inversion H].
Qed.

Lemma lor_lt_pow2 : forall a b n, a < 2 ^ n -> b < 2 ^ n -> N.lor a b < 2 ^ n.
Proof.
  intros a b n Ha Hb.
  destruct (N.eq_dec a 0) as [->|Ha0]; [now rewrite N.lor_0_l|].
  destruct (N.eq_dec b 0) as [->|Hb0]; [now rewrite N.lor_0_r|].
  apply N.log2_lt_pow2.
  - destruct (N.eq_dec (N.lor a b) 0) as [E|]; [|lia].
    apply N.lor_eq_0_iff in E. lia.
  - rewrite N.log2_lor. apply N.max_lub_lt; apply N.log2_lt_pow2; lia.
Qed.
Lemma shl64_lt : forall m a s v, shl64 m a s = Ok v -> v < two64.
Proof.
  intros m a s v H. unfold shl64 in H.
  destruct (s <? 64); [|destruct m]; try discriminate; injection H as <-;
    apply N.mod_lt; unfold two64; lia.
Qed.
Lemma uleb_loop_lt : forall m r acc shift v r',
  acc < two64 -> uleb_loop m acc shift r = Ok (v, r') -> v < two64.
Proof.
  induction r as [|b r IH]; intros acc shift v r' Hacc H; simpl in H; [discriminate|].
  destruct (N.land b 128 =? 0).
  - inv_bind H. injection H1 as <- <-. apply shl64_lt in H0. now apply lor_lt_pow2.
  - inv_bind H. apply shl64_lt in H0. eapply IH; [|exact H1]. now apply lor_lt_pow2.
Qed.
Lemma read_u64_leb128_lt : forall m r v r',
  is_bytes r -> read_u64_leb128 m r = Ok (v, r') -> v < two64.
Proof.
  intros m [|b r] v r' Hb H; simpl in H; [discriminate|].
  inversion Hb; subst. assert (256 < two64) by reflexivity.
  destruct (N.land b 128 =? 0).
  - injection H as <- <-. lia.
  - eapply uleb_loop_lt; [|exact H]. rewrite land_127.
    assert (b mod 128 < 128) by (apply N.mod_lt; lia). lia.
Qed.
Lemma safe_uleb_loop : forall r acc shift, safe (uleb_loop Wrapping acc shift r).
Proof.
  induction r as [|b r IH]; intros; simpl; auto.
  destruct (N.land b 128 =? 0); apply safe_bind; auto using safe_shl64.
Qed.
Lemma safe_read_u64_leb128 : forall r, safe (read_u64_leb128 Wrapping r).
Proof.
  intros [|b r]; simpl; auto. destruct (N.land b 128 =? 0); auto using safe_uleb_loop.
Qed.
Lemma safe_sleb_loop : forall r acc shift, safe (sleb_loop Wrapping acc shift r).
Proof.
  induction r as [|b r IH]; intros; simpl; auto.
  apply safe_bind; [apply safe_shl64|]. intros a _.
  destruct (N.land b 128 =? 0); auto.
  destruct ((shift + 7 <? 64) && negb (N.land b 64 =? 0)); auto.
  apply safe_bind; auto using safe_shl64.
Qed.
Lemma safe_read_i64_leb128 : forall r, safe (read_i64_leb128 Wrapping r).
Proof.
  intros r. unfold read_i64_leb128. apply safe_bind; [apply safe_sleb_loop|].
  intros [v r'] _. auto.
Qed.
Lemma sleb_loop_shorter : forall m r acc shift v r',
  sleb_loop m acc shift r = Ok (v, r') -> (length r' < length r)%nat /\
  exists pre, r = pre ++ r'.
Proof.
  induction r as [|b r IH]; intros acc shift v r' H; simpl in H; [discriminate|].
  inv_bind H. destruct (N.land b 128 =? 0).
  - destruct ((shift + 7 <? 64) && negb (N.land b 64 =? 0)).
    + inv_bind H1. injection H3 as <- <-. split; [simpl; lia|]. now exists [b].
    + injection H1 as <- <-. split; [simpl; lia|]. now exists [b].
  - apply IH in H1. destruct H1 as [H1 [pre ->]]. split; [simpl; lia|].
    now exists (b :: pre).
Qed.

(** Signed encoding of [v] in exactly [k+1] groups. *)
Local Open Scope Z_scope.
Fixpoint sleb_enc (k : nat) (v : Z) : list N :=
  match k with
  | O => [Z.to_N (v mod 128)]
  | S k' => (Z.to_N (v mod 128) + 128)%N :: sleb_enc k' (v / 128)
  end.

(** The two's complement pattern. *)
Definition pat (v : Z) : N := Z.to_N (v mod 2 ^ 64).
Lemma to_i64_pat : forall v, - 2 ^ 63 <= v < 2 ^ 63 -> to_i64 (pat v) = v.
Proof.
  intros v H. unfold to_i64, pat.
  change (2 ^ 64) with 18446744073709551616 in *.
  change (2 ^ 63) with 9223372036854775808 in *.
  change (2 ^ 63)%N with 9223372036854775808%N.
  destruct (N.ltb_spec (Z.to_N (v mod 18446744073709551616)) 9223372036854775808); lia.
Qed.


Definition spow (n : nat) : Z := 2 ^ (7 * Z.of_nat n).
Lemma spow_pos : forall n, 0 < spow n.
Proof. intros. apply Z.pow_pos_nonneg; lia. Qed.
Lemma spow_S : forall n, spow (S n) = 128 * spow n.
Proof.
  intros. unfold spow. replace (7 * Z.of_nat (S n)) with (7 + 7 * Z.of_nat n) by lia.
  rewrite Z.pow_add_r by lia. reflexivity.
Qed.

(** OR-ing a group into the accumulator, for a group that still fits. *)
Lemma sleb_or : forall n m acc b,
  (n <= 9)%nat -> (acc < 2 ^ (7 * N.of_nat n))%N -> (b < 128)%N ->
  exists x, shl64 m b (7 * N.of_nat n) = Ok x /\
    N.lor acc x = (acc + (b mod 2 ^ (64 - 7 * N.of_nat n)) * 2 ^ (7 * N.of_nat n))%N.
Proof.
  intros n m acc b Hn Hacc Hb. unfold shl64.
  destruct (N.ltb_spec (7 * N.of_nat n) 64); [|lia].
  eexists. split; [reflexivity|].
  rewrite <- lor_disjoint by auto. f_equal.
  unfold two64. rewrite <- N.mul_mod_distr_r by (apply N.pow_nonzero; lia).
  rewrite <- N.pow_add_r. do 2 f_equal. lia.
Qed.

Lemma pow_N_spow : forall n, (2 ^ (7 * N.of_nat n))%N = Z.to_N (spow n).
Proof. intros. unfold spow. rewrite Z2N.inj_pow by lia. f_equal; lia. Qed.

(** Plain arithmetic facts, stated without div/mod to keep [nia] quick. *)
Ltac Zify.zify_post_hook ::= idtac.
Lemma sleb_arith_pos : forall S v r, 0 < S -> 0 <= r < S -> 0 <= v ->
  (Z.to_N r + Z.to_N v * Z.to_N S)%N = Z.to_N (S * v + r).
Proof.
  intros S v r HS Hr Hv. rewrite <- Z2N.inj_mul by lia.
  rewrite <- Z2N.inj_add by nia. f_equal. lia.
Qed.
Lemma sleb_arith_neg : forall S T v r, 0 < S -> 0 < T -> 0 <= r < S -> -64 <= v < 0 ->
  (Z.to_N r + Z.to_N (v + 128) * Z.to_N S + (Z.to_N T - 1) * Z.to_N (128 * S))%N
  = Z.to_N (S * v + r + T * (128 * S)).
Proof.
  intros S T v r HS HT Hr Hv. apply N2Z.inj.
  assert (0 <= S * v + r + T * (128 * S)) by nia.
  rewrite !N2Z.inj_add, !N2Z.inj_mul, N2Z.inj_sub by lia.
  rewrite !Z2N.id by lia. change (Z.of_N 1) with 1. ring.
Qed.
Lemma sleb_neg_bound : forall S T v r, 0 < S -> 0 < T -> 0 <= r < S -> -64 <= v < 0 ->
  0 <= S * v + r + T * (128 * S) < T * (128 * S).
Proof. intros. nia. Qed.

Lemma sleb_loop_enc : forall k n m v0 rest,
  (n + k <= 9)%nat ->
  - 2 ^ 63 <= v0 < 2 ^ 63 ->
  - 64 * spow k <= v0 / spow n < 64 * spow k ->
  sleb_loop m (Z.to_N (v0 mod spow n)) (7 * N.of_nat n) (sleb_enc k (v0 / spow n) ++ rest)
  = Ok (pat v0, rest).
Proof.
  induction k as [|k IH]; intros n m v0 rest Hn Hv0 Hv.
  - change (spow 0) with 1 in Hv. simpl sleb_enc. cbn [app sleb_loop].
    remember (v0 / spow n) as v eqn:Ev.
    pose proof (spow_pos n) as Hpos.
    pose proof (Z.mod_pos_bound v0 (spow n) Hpos) as Hr.
    pose proof (Z.div_mod v0 (spow n) ltac:(lia)) as Hdm.
    rewrite <- Ev in Hdm.
    remember (v0 mod spow n) as r eqn:Er.
    assert (Hacc : (Z.to_N r < 2 ^ (7 * N.of_nat n))%N) by (rewrite pow_N_spow; lia).
    assert (Hvm : v mod 128 = if v <? 0 then v + 128 else v).
    { destruct (Z.ltb_spec v 0).
      - symmetry. apply Z.mod_unique with (-1); lia.
      - apply Z.mod_small. lia. }
    assert (Hb : (Z.to_N (v mod 128) < 128)%N) by (rewrite Hvm; destruct (Z.ltb_spec v 0); lia).
    rewrite land_127, (N.mod_small (Z.to_N (v mod 128))) by auto.
    destruct (sleb_or n m _ _ ltac:(lia) Hacc Hb) as (x & Hx & Hor).
    rewrite Hx. simpl bind. rewrite Hor.
    rewrite land_128 by lia.
    destruct (N.ltb_spec (Z.to_N (v mod 128)) 128); [|lia].
    rewrite land_64 by lia. clear Hx Hor x.
    destruct (N.ltb_spec (7 * N.of_nat n + 7) 64) as [Hs|Hs]; simpl andb.
    + assert (Hn8 : (n <= 8)%nat) by lia.
      rewrite (N.mod_small (Z.to_N (v mod 128))).
      2:{ apply N.lt_le_trans with (2 ^ 7)%N; [change (2 ^ 7)%N with 128%N; exact Hb|].
        clear - Hn8. apply N.pow_le_mono_r; lia. }
      rewrite Hvm in *. rewrite pow_N_spow.
      destruct (Z.ltb_spec v 0) as [Hneg|Hnn].
      * destruct (N.ltb_spec (Z.to_N (v + 128)) 64) as [Hlt|Hge]; [lia|].
        simpl negb; cbv iota.
        unfold shl64. destruct (N.ltb_spec (7 * N.of_nat n + 7) 64); [|lia]. simpl bind.
        f_equal. f_equal.
        assert (Hsh : exists t, (64 = t + (7 * N.of_nat n + 7))%N)
          by (exists (64 - (7 * N.of_nat n + 7))%N; lia).
        destruct Hsh as [t Ht].
        assert (EN : (2 ^ (7 * N.of_nat n + 7) = Z.to_N (128 * spow n))%N).
        { rewrite <- spow_S, <- pow_N_spow. f_equal. lia. }
        assert (EN3 : (2 ^ t = Z.to_N (2 ^ Z.of_N t))%N).
        { rewrite Z2N.inj_pow by lia. f_equal; lia. }
        assert (Pt : 0 < 2 ^ Z.of_N t) by (apply Z.pow_pos_nonneg; lia).
        assert (E : 2 ^ 64 = 2 ^ Z.of_N t * (128 * spow n)).
        { rewrite <- spow_S. unfold spow. rewrite <- Z.pow_add_r by lia. f_equal. lia. }
        assert (E2 : two64 = (2 ^ t * 2 ^ (7 * N.of_nat n + 7))%N)
          by (rewrite <- N.pow_add_r, <- Ht; reflexivity).
        assert (Hmod : (((two64 - 1) * 2 ^ (7 * N.of_nat n + 7)) mod two64 =
                        (2 ^ t - 1) * 2 ^ (7 * N.of_nat n + 7))%N).
        { rewrite E2. rewrite N.mul_mod_distr_r by (apply N.pow_nonzero; lia). f_equal.
          assert (P : (0 < 2 ^ t)%N) by (apply N.neq_0_lt_0, N.pow_nonzero; lia).
          assert (P2 : (0 < 2 ^ (7 * N.of_nat n + 7))%N) by (apply N.neq_0_lt_0, N.pow_nonzero; lia).
          symmetry. apply N.mod_unique with (2 ^ (7 * N.of_nat n + 7) - 1)%N; [lia|].
          clear - P P2. nia. }
        rewrite Hmod.
        rewrite lor_disjoint.
        2:{ rewrite EN. rewrite <- Z2N.inj_mul by lia.
            rewrite <- Z2N.inj_add by (clear - Hr Hpos Hv Hneg; nia).
            apply Z2N.inj_lt; clear - Hr Hpos Hv Hneg; nia. }
        rewrite EN, EN3. rewrite sleb_arith_neg by (auto; lia).
        unfold pat. f_equal. rewrite E, Hdm.
        apply Z.mod_unique with (-1); [left; apply sleb_neg_bound; auto; lia|].
        ring.
      * destruct (N.ltb_spec (Z.to_N v) 64) as [Hlt|Hge]; [|lia].
        simpl negb; cbv iota. f_equal. f_equal. unfold pat.
        rewrite sleb_arith_pos by auto. rewrite <- Hdm. f_equal. symmetry.
        apply Z.mod_small. split; [clear - Hdm Hpos Hr Hnn; nia|].
        change (2 ^ 64) with (2 * 2 ^ 63). lia.
    + assert (n = 9)%nat by lia. subst n. unfold pat.
      change (2 ^ (64 - 7 * N.of_nat 9))%N with 2%N.
      change (2 ^ (7 * N.of_nat 9))%N with 9223372036854775808%N.
      change (spow 9) with 9223372036854775808 in *.
      change (2 ^ 63) with 9223372036854775808 in *.
      change (2 ^ 64) with 18446744073709551616 in *.
      f_equal. f_equal. rewrite Hvm.
      assert (Hv2 : v = 0 \/ v = -1) by lia.
      destruct Hv2 as [-> | ->].
      * change (Z.to_N (if (0 <? 0)%Z then (0 + 128)%Z else 0%Z) mod 2)%N with 0%N.
        rewrite Z.mod_small by lia. lia.
      * change (Z.to_N (if (-1 <? 0)%Z then (-1 + 128)%Z else (-1)%Z) mod 2)%N with 1%N.
        replace (v0 mod 18446744073709551616) with (v0 + 18446744073709551616); [lia|].
        apply Z.mod_unique with (-1); lia.
  - cbn [sleb_enc app sleb_loop].
    pose proof (spow_pos n) as Hpos.
    pose proof (Z.mod_pos_bound v0 (spow n) Hpos) as Hmb.
    assert (Hdiv : v0 / spow n / 128 = v0 / spow (S n)).
    { rewrite spow_S, Z.mul_comm. apply Z.div_div; lia. }
    assert (Hacc2 : v0 mod spow (S n) = v0 mod spow n + spow n * ((v0 / spow n) mod 128)).
    { rewrite spow_S, Z.mul_comm, Z.rem_mul_r by lia. reflexivity. }
    remember (v0 / spow n) as v eqn:Ev.
    pose proof (Z.mod_pos_bound v 128 ltac:(lia)) as Hvb.
    pose proof (Z.div_mod v 128 ltac:(lia)) as Hvd.
    assert (Hacc : (Z.to_N (v0 mod spow n) < 2 ^ (7 * N.of_nat n))%N) by (rewrite pow_N_spow; lia).
    assert (Hb : (Z.to_N (v mod 128) < 128)%N) by lia.
    rewrite land_127.
    assert (Hm128 : ((Z.to_N (v mod 128) + 128) mod 128 = Z.to_N (v mod 128))%N).
    { symmetry. apply N.mod_unique with 1%N; lia. }
    rewrite Hm128.
    destruct (sleb_or n m _ _ ltac:(lia) Hacc Hb) as (x & Hx & Hor).
    rewrite Hx. simpl bind. rewrite Hor.
    rewrite land_128 by (clear - Hb; lia).
    destruct (N.ltb_spec (Z.to_N (v mod 128) + 128) 128) as [Hbad|_]; [exfalso; clear - Hbad; lia|].
    rewrite (N.mod_small (Z.to_N (v mod 128))).
    2:{ apply N.lt_le_trans with (2 ^ 7)%N; [change (2 ^ 7)%N with 128%N; exact Hb|].
        clear - Hn. apply N.pow_le_mono_r; lia. }
    rewrite Hdiv.
    replace (7 * N.of_nat n + 7)%N with (7 * N.of_nat (S n))%N by (clear; lia).
    replace (Z.to_N (v0 mod spow n) + Z.to_N (v mod 128) * 2 ^ (7 * N.of_nat n))%N
      with (Z.to_N (v0 mod spow (S n))).
    + apply IH; auto; [clear - Hn; lia|]. rewrite <- Hdiv. rewrite spow_S in Hv. clear - Hv Hvd Hvb. lia.
    + rewrite pow_N_spow, Hacc2. symmetry.
      rewrite sleb_arith_pos by (auto; clear - Hvb; lia). f_equal. ring.
Qed.
Ltac Zify.zify_post_hook ::= Z.div_mod_to_equations.

Lemma read_i64_leb128_enc : forall k m v rest,
  (k <= 9)%nat -> - 2 ^ 63 <= v < 2 ^ 63 ->
  - 2 ^ (7 * Z.of_nat k + 6) <= v < 2 ^ (7 * Z.of_nat k + 6) ->
  read_i64_leb128 m (sleb_enc k v ++ rest) = Ok (v, rest).
Proof.
  intros k m v rest Hk Hv Hr. unfold read_i64_leb128.
  pose proof (sleb_loop_enc k 0 m v rest ltac:(lia) Hv) as H.
  change (spow 0) with 1 in H. rewrite Z.div_1_r, Z.mod_1_r in H.
  change (Z.to_N 0) with 0%N in H. change (7 * N.of_nat 0)%N with 0%N in H.
  rewrite H.
  - simpl bind. now rewrite to_i64_pat.
  - unfold spow. rewrite Z.pow_add_r in Hr by lia. change (2 ^ 6) with 64 in Hr. lia.
Qed.
Local Close Scope Z_scope.

(** ** Reordering *)

Lemma set_nth_length : forall A (l : list A) i x, length (set_nth i x l) = length l.
Proof. induction l as [|a l IH]; intros [|i] x; simpl; auto. Qed.
Lemma nth_set_nth_eq : forall A (l : list A) i x,
  (i < length l)%nat -> nth_error (set_nth i x l) i = Some x.
Proof. induction l as [|a l IH]; intros [|i] x H; simpl in *; auto; try lia. apply IH. lia. Qed.
Lemma nth_set_nth_neq : forall A (l : list A) i j x,
  i <> j -> nth_error (set_nth i x l) j = nth_error l j.
Proof. induction l as [|a l IH]; intros [|i] [|j] x H; simpl; auto; congruence || lia. Qed.

Lemma swap_ok : forall A (l : list A) i j x y,
  nth_error l i = Some x -> nth_error l j = Some y ->
  exists l', swap l i j = Ok l' /\ length l' = length l /\
    nth_error l' j = Some x /\ (i <> j -> nth_error l' i = Some y) /\
    (forall k, k <> i -> k <> j -> nth_error l' k = nth_error l k).
Proof.
  intros A l i j x y Hx Hy. unfold swap. rewrite Hx, Hy. eexists. split; [reflexivity|].
  assert (i < length l)%nat by (eapply nth_error_lt; eauto).
  assert (j < length l)%nat by (eapply nth_error_lt; eauto).
  repeat split.
  - now rewrite !set_nth_length.
  - apply nth_set_nth_eq. now rewrite set_nth_length.
  - intros Hij. rewrite nth_set_nth_neq by auto. now apply nth_set_nth_eq.
  - intros k Hi Hj. rewrite !nth_set_nth_neq; auto.
Qed.

(** A swap of both lists permutes the pairs: (element, target) pairs are kept. *)
Definition pairs {A} (arr : list A) (idx : list nat) (x : A) (t : nat) : Prop :=
  exists k, nth_error arr k = Some x /\ nth_error idx k = Some t.

(** How many positions are not yet in place. *)
Fixpoint misplaced (i : nat) (idx : list nat) : nat :=
  match idx with
  | [] => O
  | t :: idx' => ((if Nat.eqb t i then 0 else 1) + misplaced (S i) idx')%nat
  end.
Lemma misplaced_le : forall idx i, (misplaced i idx <= length idx)%nat.
Proof. induction idx as [|t idx IH]; intros i; simpl; [lia|]. specialize (IH (S i)). destruct (Nat.eqb t i); lia. Qed.

Lemma misplaced_pointwise : forall a b s,
  length a = length b ->
  (forall k x y, nth_error a k = Some x -> nth_error b k = Some y -> x = (s + k)%nat -> y = (s + k)%nat) ->
  (misplaced s b <= misplaced s a)%nat.
Proof.
  induction a as [|x a IH]; intros [|y b] s Hl H; simpl in *; try lia.
  assert (misplaced (S s) b <= misplaced (S s) a)%nat.
  { apply IH; [lia|]. intros k u v Hu Hv Hk. replace (S s + k)%nat with (s + S k)%nat in * by lia.
    apply (H (S k) u v); auto. }
  specialize (H O x y eq_refl eq_refl). rewrite Nat.add_0_r in H.
  destruct (Nat.eqb_spec x s); destruct (Nat.eqb_spec y s); try lia.
Qed.
Lemma misplaced_strict : forall a b s j u v,
  length a = length b ->
  (forall k x y, nth_error a k = Some x -> nth_error b k = Some y -> x = (s + k)%nat -> y = (s + k)%nat) ->
  nth_error a j = Some u -> u <> (s + j)%nat ->
  nth_error b j = Some v -> v = (s + j)%nat ->
  (misplaced s b < misplaced s a)%nat.
Proof.
  induction a as [|x a IH]; intros [|y b] s j u v Hl H Hu Hne Hv Heq; simpl in *; try lia;
    try (destruct j; discriminate).
  assert (Hshift : forall k x0 y0, nth_error a k = Some x0 -> nth_error b k = Some y0 ->
     x0 = (S s + k)%nat -> y0 = (S s + k)%nat).
  { intros k u' v' Hu' Hv' Hk. replace (S s + k)%nat with (s + S k)%nat in * by lia.
    apply (H (S k) u' v'); auto. }
  destruct j as [|j]; simpl in *.
  - injection Hu as ->. injection Hv as ->. rewrite Nat.add_0_r in *.
    assert (misplaced (S s) b <= misplaced (S s) a)%nat by (apply misplaced_pointwise; auto; lia).
    destruct (Nat.eqb_spec u s); destruct (Nat.eqb_spec v s); lia.
  - assert (misplaced (S s) b < misplaced (S s) a)%nat.
    { apply (IH b (S s) j u v); auto; lia. }
    specialize (H O x y eq_refl eq_refl). rewrite Nat.add_0_r in H.
    destruct (Nat.eqb_spec x s); destruct (Nat.eqb_spec y s); try lia.
Qed.

(** What we need of an index list: a permutation of [0..n). *)
Definition idx_ok (n : nat) (idx : list nat) : Prop :=
  length idx = n /\ NoDup idx /\ (forall t, In t idx -> (t < n)%nat).

Lemma nth_error_NoDup_inj : forall A (l : list A) i j x,
  NoDup l -> nth_error l i = Some x -> nth_error l j = Some x -> i = j.
Proof.
  intros A l i j x H Hi Hj. rewrite NoDup_nth_error in H. apply H.
  - eapply nth_error_lt; eauto.
  - congruence.
Qed.

Lemma swap_pairs : forall A (arr arr' : list A) idx idx' i j,
  swap arr i j = Ok arr' -> swap idx i j = Ok idx' -> i <> j ->
  length arr = length idx ->
  forall x t, pairs arr' idx' x t <-> pairs arr idx x t.
Proof.
  intros A arr arr' idx idx' i j Ha Hi Hij Hl x t.
  unfold swap in Ha, Hi.
  destruct (nth_error arr i) as [ai|] eqn:Eai; [|discriminate].
  destruct (nth_error arr j) as [aj|] eqn:Eaj; [|discriminate].
  destruct (nth_error idx i) as [ii|] eqn:Eii; [|discriminate].
  destruct (nth_error idx j) as [ij|] eqn:Eij; [|discriminate].
  destruct (swap_ok _ arr i j _ _ Eai Eaj) as (a2 & Ha2 & _ & A1 & A2 & A3).
  destruct (swap_ok _ idx i j _ _ Eii Eij) as (i2 & Hi2 & _ & I1 & I2 & I3).
  unfold swap in Ha2, Hi2. rewrite Eai, Eaj in Ha2. rewrite Eii, Eij in Hi2.
  assert (a2 = arr') by congruence. assert (i2 = idx') by congruence. subst a2 i2.
  specialize (A2 Hij). specialize (I2 Hij).
  split; intros (k & Hk1 & Hk2).
  - destruct (Nat.eq_dec k i) as [->|Hki]; [exists j; split; congruence|].
    destruct (Nat.eq_dec k j) as [->|Hkj]; [exists i; split; congruence|].
    exists k. rewrite <- A3, <- I3; auto.
  - destruct (Nat.eq_dec k i) as [->|Hki]; [exists j; split; congruence|].
    destruct (Nat.eq_dec k j) as [->|Hkj]; [exists i; split; congruence|].
    exists k. rewrite A3, I3; auto.
Qed.

Lemma reorder_while_ok : forall A fuel i (arr : list A) idx n,
  length arr = n -> idx_ok n idx -> (i < n)%nat -> (misplaced 0 idx <= fuel)%nat ->
  exists arr' idx', reorder_while fuel i arr idx = Ok (arr', idx') /\
    length arr' = n /\ idx_ok n idx' /\ (misplaced 0 idx' <= misplaced 0 idx)%nat /\
    nth_error idx' i = Some i /\
    (forall k, nth_error idx k = Some k -> nth_error idx' k = Some k) /\
    (forall x t, pairs arr' idx' x t <-> pairs arr idx x t).
Proof.
  induction fuel as [|fuel IH]; intros i arr idx n Hl Hok Hi Hf;
    pose proof Hok as (Hlen & Hnd & Hrng); simpl;
    destruct (nth_error_lt_some _ idx i) as [j Hj]; try lia; rewrite Hj;
    destruct (Nat.eqb_spec j i) as [E|E].
  - subst j. exists arr, idx. repeat split; auto; apply Hrng.
  - exfalso. assert (misplaced 0 (seq 0 n) < misplaced 0 idx)%nat; [|lia].
    apply (misplaced_strict idx (seq 0 n) 0 i j i); auto; try lia.
    + now rewrite seq_length.
    + intros k x y Hx Hy _. rewrite (nth_error_nth' _ O) in Hy.
      * injection Hy as <-. rewrite seq_nth; [reflexivity|]. apply nth_error_lt in Hx. lia.
      * rewrite seq_length. apply nth_error_lt in Hx. lia.
    + rewrite (nth_error_nth' _ O) by (rewrite seq_length; lia). rewrite seq_nth by lia. reflexivity.
  - subst j. exists arr, idx. repeat split; auto; apply Hrng.
  - assert (Hjn : (j < n)%nat) by (apply Hrng; eapply nth_error_In; eauto).
    destruct (nth_error_lt_some _ idx j) as [t Ht]; [lia|].
    destruct (nth_error_lt_some _ arr i) as [ai Hai]; [lia|].
    destruct (nth_error_lt_some _ arr j) as [aj Haj]; [lia|].
    destruct (swap_ok _ arr i j _ _ Hai Haj) as (arr1 & Ha1 & Hla1 & _).
    destruct (swap_ok _ idx i j _ _ Hj Ht) as (idx1 & Hi1 & Hli1 & I1 & I2 & I3).
    rewrite Ha1. simpl bind. rewrite Hi1. simpl bind.
    specialize (I2 (not_eq_sym E)).
    assert (Htj : t <> j).
    { intros ->. apply E. symmetry. eapply nth_error_NoDup_inj; eauto. }
    assert (Hfix : forall k, nth_error idx k = Some k -> nth_error idx1 k = Some k).
    { intros k Hk. destruct (Nat.eq_dec k j) as [->|Hkj]; [auto|].
      destruct (Nat.eq_dec k i) as [->|Hki]; [congruence|]. rewrite I3; auto. }
    assert (Hok1 : idx_ok n idx1).
    { assert (Hval : forall k x, nth_error idx1 k = Some x ->
         nth_error idx (if Nat.eqb k i then j else if Nat.eqb k j then i else k) = Some x).
      { intros k x Hk. destruct (Nat.eqb_spec k i) as [->|Hki]; [congruence|].
        destruct (Nat.eqb_spec k j) as [->|Hkj]; [congruence|]. rewrite <- I3; auto. }
      repeat split; [lia| |].
      - rewrite NoDup_nth_error. intros k1 k2 Hk1 Heq.
        destruct (nth_error_lt_some _ idx1 k1 Hk1) as [x Hx].
        pose proof (Hval _ _ Hx) as V1. rewrite Hx in Heq. symmetry in Heq.
        pose proof (Hval _ _ Heq) as V2.
        pose proof (nth_error_NoDup_inj _ _ _ _ _ Hnd V1 V2) as V.
        destruct (Nat.eqb_spec k1 i); destruct (Nat.eqb_spec k2 i);
        destruct (Nat.eqb_spec k1 j); destruct (Nat.eqb_spec k2 j); congruence.
      - intros x Hx. apply In_nth_error in Hx. destruct Hx as [k Hk].
        apply Hrng. eapply nth_error_In. apply (Hval _ _ Hk). }
    assert (Hdec : (misplaced 0 idx1 < misplaced 0 idx)%nat).
    { apply (misplaced_strict idx idx1 0 j t j); auto.
      intros k x y Hx Hy Heq. simpl in *. subst x. specialize (Hfix _ Hx). congruence. }
    destruct (IH i arr1 idx1 n) as (arr2 & idx2 & H1 & H2 & H3 & H4 & H5 & H6 & H7); auto; try lia.
    exists arr2, idx2. split; auto. split; auto. split; auto. split; [lia|]. split; auto.
    split.
    + intros k Hk. auto.
    + intros x u. rewrite H7. eapply swap_pairs; eauto. lia.
Qed.

Lemma reorder_for_ok : forall A fuel m i (arr : list A) idx n,
  length arr = n -> idx_ok n idx -> (i + m = n)%nat -> (misplaced 0 idx <= fuel)%nat ->
  (forall k, (k < i)%nat -> nth_error idx k = Some k) ->
  exists arr', reorder_for fuel m i arr idx = Ok arr' /\ length arr' = n /\
    forall x t, nth_error arr' t = Some x <-> pairs arr idx x t.
Proof.
  induction m as [|m IH]; intros i arr idx n Hl Hok Him Hf Hfix; simpl.
  - exists arr. split; auto. split; auto. intros x t. split.
    + intros Hx. exists t. split; auto. apply Hfix. apply nth_error_lt in Hx. lia.
    + intros (k & Hk1 & Hk2).
      rewrite Hfix in Hk2 by (apply nth_error_lt in Hk1; lia). congruence.
  - destruct (reorder_while_ok _ fuel i arr idx n) as (arr1 & idx1 & H1 & H2 & H3 & H4 & H5 & H6 & H7); auto; try lia.
    rewrite H1. simpl bind.
    destruct (IH (S i) arr1 idx1 n) as (arr2 & R1 & R2 & R3); auto; try lia.
    { intros k Hk. destruct (Nat.eq_dec k i) as [->|]; auto. apply H6, Hfix. lia. }
    exists arr2. split; auto. split; auto. intros x t. now rewrite R3, H7.
Qed.

Lemma reorder_ok : forall A (arr : list A) idx,
  idx_ok (length arr) idx ->
  exists arr', reorder arr idx = Ok arr' /\ length arr' = length arr /\
    forall k x t, nth_error arr k = Some x -> nth_error idx k = Some t ->
      nth_error arr' t = Some x.
Proof.
  intros A arr idx Hok. unfold reorder.
  destruct (reorder_for_ok A (length idx) (length arr) 0 arr idx (length arr)) as (arr' & H1 & H2 & H3); auto.
  - apply misplaced_le.
  - intros; lia.
  - exists arr'. split; auto. split; auto. intros k x t Hx Ht. apply H3. now exists k.
Qed.

Lemma pair_leb_total : forall a b, pair_leb a b = true \/ pair_leb b a = true.
Proof.
  intros [a i] [b j]. unfold pair_leb. simpl.
  destruct (N.compare_spec a b); destruct (N.compare_spec b a); auto; try lia.
Qed.
Lemma pair_leb_trans : forall a b c, pair_leb a b = true -> pair_leb b c = true -> pair_leb a c = true.
Proof.
  intros [a i] [b j] [c k]. unfold pair_leb. simpl.
  destruct (N.compare_spec a b); destruct (N.compare_spec b c); destruct (N.compare_spec a c);
    intros; auto; try lia; try discriminate.
Qed.

Lemma enumerate_nth : forall T (l : list T) i x t,
  nth_error (enumerate l) i = Some (x, t) <-> (nth_error l i = Some x /\ t = i).
Proof.
  intros T l. unfold enumerate.
  assert (H : forall s i x t, nth_error (combine l (seq s (length l))) i = Some (x, t) <->
                (nth_error l i = Some x /\ t = (s + i)%nat)).
  { induction l as [|a l IH]; intros s i x t; simpl.
    - destruct i; simpl; split; intros H; try discriminate; destruct H; discriminate.
    - destruct i as [|i]; simpl.
      + split; [intros H; injection H as -> ->|intros [H ->]; injection H as ->]; auto.
        f_equal. f_equal. lia.
      + rewrite IH. replace (S s + i)%nat with (s + S i)%nat by lia. reflexivity. }
  intros. rewrite H. reflexivity.
Qed.
Lemma enumerate_length : forall T (l : list T), length (enumerate l) = length l.
Proof. intros. unfold enumerate. rewrite combine_length, seq_length. lia. Qed.
Lemma enumerate_fst : forall T (l : list T), map fst (enumerate l) = l.
Proof.
  intros T l. unfold enumerate. generalize 0%nat.
  induction l as [|a l IH]; intros s; simpl; auto. now rewrite IH.
Qed.
Lemma enumerate_snd : forall T (l : list T), map snd (enumerate l) = seq 0 (length l).
Proof.
  intros T l. unfold enumerate. generalize 0%nat.
  induction l as [|a l IH]; intros s; simpl; auto. now rewrite IH.
Qed.

(** The elements handed to [handle]: the inputs, sorted. *)
Lemma sorted_elems : forall slice,
  let ts := map fst (isort pair_leb (enumerate slice)) in
  Permutation slice ts /\ StronglySorted N.le ts.
Proof.
  intros slice. simpl. split.
  - rewrite <- (enumerate_fst _ slice) at 1. apply Permutation_map, isort_perm.
  - pose proof (isort_sorted pair_leb pair_leb_total pair_leb_trans (enumerate slice)) as H.
    unfold sorted in H. induction H as [|a l H IH Hf]; simpl; constructor; auto.
    rewrite Forall_forall in *. intros x Hx. apply in_map_iff in Hx. destruct Hx as (y & <- & Hy).
    specialize (Hf _ Hy). unfold pair_leb in Hf. destruct (N.compare_spec (fst a) (fst y)); lia || discriminate.
Qed.

Lemma with_ordered_elems_ok : forall U R slice (extract : R -> list U) put handle
    (P : N -> U -> Prop) r,
  handle (map fst (isort pair_leb (enumerate slice))) = Ok r ->
  Forall2 P (map fst (isort pair_leb (enumerate slice))) (extract r) ->
  exists out, with_ordered_elems slice extract put handle = Ok (put r out) /\
    Forall2 P slice out.
Proof.
  intros U R slice extract put handle P r Hh HP. unfold with_ordered_elems.
  rewrite Hh. simpl bind.
  set (vec := isort pair_leb (enumerate slice)) in *.
  assert (Hperm : Permutation (enumerate slice) vec) by apply isort_perm.
  assert (Hlv : length vec = length slice).
  { unfold vec. now rewrite isort_length, enumerate_length. }
  pose proof (Forall2_length _ _ _ _ _ HP) as Hlen. rewrite map_length in Hlen.
  assert (Hok : idx_ok (length (extract r)) (map snd vec)).
  { assert (Hp2 : Permutation (seq 0 (length slice)) (map snd vec)).
    { rewrite <- enumerate_snd. now apply Permutation_map. }
    repeat split.
    - rewrite map_length. lia.
    - eapply Permutation_NoDup; [exact Hp2|apply seq_NoDup].
    - intros t Ht. eapply Permutation_in in Ht; [|symmetry; exact Hp2].
      apply in_seq in Ht. lia. }
  destruct (reorder_ok _ _ _ Hok) as (out & Hout & Hlo & Hval).
  rewrite Hout. simpl bind. exists out. split; auto.
  apply Forall2_nth_error; [lia|].
  intros i a b Ha Hb.
  assert (Hin : In (a, i) vec).
  { eapply Permutation_in; [exact Hperm|]. eapply nth_error_In with (n := i). now apply enumerate_nth. }
  apply In_nth_error in Hin. destruct Hin as [k Hk].
  assert (Hk1 : nth_error (map fst vec) k = Some a) by now rewrite nth_error_map, Hk.
  assert (Hk2 : nth_error (map snd vec) k = Some i) by now rewrite nth_error_map, Hk.
  destruct (nth_error_lt_some _ (extract r) k) as [u Hu].
  { apply nth_error_lt in Hk1. rewrite map_length in Hk1. lia. }
  specialize (Hval _ _ _ Hu Hk2). assert (u = b) by congruence. subst u.
  eapply Forall2_nth; eauto.
Qed.

(** ** Hexadecimal *)

(** Specification: value of a digit string, most significant digit first. *)
Fixpoint hex_val (ds : list N) : N :=
  match ds with
  | [] => 0
  | d :: ds' => d * 16 ^ nlen ds' + hex_val ds'
  end.

Lemma from_radix_16_loop_ok : forall text m acc ds,
  Forall2 (fun c d => ascii_to_hexdigit c = Some d) text ds ->
  acc * 16 ^ nlen ds + hex_val ds < two64 ->
  from_radix_16_loop m acc text = Ok (acc * 16 ^ nlen ds + hex_val ds).
Proof.
  induction text as [|c text IH]; intros m acc ds H Hfit; inversion H as [|? d ? ds' Hd H']; subst; simpl.
  - change (nlen []) with 0. f_equal. lia.
  - rewrite Hd. simpl bind. rewrite nlen_cons in *. simpl hex_val in Hfit.
    rewrite N.pow_add_r in *. change (16 ^ 1) with 16 in *.
    assert (P : 1 <= 16 ^ nlen ds') by (assert (16 ^ nlen ds' <> 0) by (apply N.pow_nonzero; discriminate); lia).
    assert (acc * 16 + d < two64) by nia.
    unfold mul64, add64. rewrite umul_small by nia. simpl bind.
    rewrite uadd_small by nia. simpl bind.
    rewrite (IH m _ ds'); auto; [f_equal|]; nia.
Qed.
Lemma hex_val_bound : forall ds, Forall (fun d => d < 16) ds -> hex_val ds < 16 ^ nlen ds.
Proof.
  induction 1 as [|d ds Hd H IH]; simpl; [reflexivity|].
  rewrite nlen_cons, N.pow_add_r. change (16 ^ 1) with 16.
  nia.
Qed.
Lemma ascii_to_hexdigit_lt : forall c d, ascii_to_hexdigit c = Some d -> d < 16.
Proof.
  intros c d H. unfold ascii_to_hexdigit in H.
  destruct (N.leb_spec 48 c); destruct (N.leb_spec c 57); simpl in H; try (injection H as <-; lia);
  destruct (N.leb_spec 97 c); destruct (N.leb_spec c 102); simpl in H; try (injection H as <-; lia);
  destruct (N.leb_spec 65 c); destruct (N.leb_spec c 70); simpl in H; try (injection H as <-; lia); try discriminate.
Qed.

Lemma from_radix_16_ok : forall m text ds,
  Forall2 (fun c d => ascii_to_hexdigit c = Some d) text ds ->
  (length text <= 16)%nat ->
  from_radix_16 m text = Ok (hex_val ds).
Proof.
  intros m text ds H Hlen. unfold from_radix_16.
  assert (Hds : Forall (fun d => d < 16) ds).
  { clear Hlen. induction H; constructor; auto. eapply ascii_to_hexdigit_lt; eauto. }
  pose proof (hex_val_bound _ Hds) as Hb.
  pose proof (Forall2_length _ _ _ _ _ H) as Hl.
  assert (16 ^ nlen ds <= 16 ^ 16) by (apply N.pow_le_mono_r; unfold nlen; lia).
  change (16 ^ 16) with two64 in *.
  rewrite (from_radix_16_loop_ok _ _ _ ds H); [f_equal|]; lia.
Qed.
Lemma from_radix_16_bad : forall text acc c,
  In c text -> ascii_to_hexdigit c = None -> from_radix_16_loop Wrapping acc text = Err ENone.
Proof.
  intros text acc c Hin Hc. revert acc. induction text as [|b text IH]; intros acc; [destruct Hin|].
  simpl. destruct (ascii_to_hexdigit b) as [d|] eqn:Eb; simpl; auto.
  assert (Hin' : In c text) by (destruct Hin; [congruence|auto]).
  unfold mul64, umul, wrap.
  destruct (acc * 16 <? two64); simpl; unfold add64, uadd, wrap;
    match goal with |- context [if ?b then _ else _] => destruct b end; simpl; auto.
Qed.
Lemma from_radix_16_not_ok : forall text m acc c v,
  In c text -> ascii_to_hexdigit c = None -> from_radix_16_loop m acc text <> Ok v.
Proof.
  intros text m acc c v Hin Hc. revert acc. induction text as [|b text IH]; intros acc H; [destruct Hin|].
  simpl in H. inv_bind H. inv_bind H1. inv_bind H3.
  destruct Hin as [->|Hin]; [rewrite Hc in H0; discriminate|]. eapply IH; eauto.
Qed.
Lemma from_radix_16_loop_checked : forall text acc v,
  acc < two64 -> from_radix_16_loop Checked acc text = Ok v ->
  exists ds, Forall2 (fun c d => ascii_to_hexdigit c = Some d) text ds /\
    v = acc * 16 ^ nlen ds + hex_val ds.
Proof.
  induction text as [|c text IH]; intros acc v Hacc H; simpl in H.
  - injection H as <-. exists []. split; auto. change (nlen []) with 0. simpl. lia.
  - inv_bind H. inv_bind H1. inv_bind H3.
    destruct (ascii_to_hexdigit c) as [d|] eqn:Ed; [|discriminate]. injection H0 as <-.
    unfold mul64, umul, wrap in H2. destruct (N.ltb_spec (acc * 16) two64) as [L1|]; [|discriminate].
    injection H2 as <-. unfold add64, uadd, wrap in H1.
    destruct (N.ltb_spec (acc * 16 + d) two64) as [L2|]; [|discriminate]. injection H1 as <-.
    destruct (IH _ _ L2 H4) as (ds & Hds & ->). exists (d :: ds). split; auto.
    rewrite nlen_cons, N.pow_add_r. change (16 ^ 1) with 16. simpl hex_val.
    set (p := 16 ^ nlen ds). lia.
Qed.

(** ** Reading primitives *)

Lemma read_slice_ok : forall n r d r',
  read_slice n r = Ok (d, r') -> r = d ++ r' /\ nlen d = n /\ n <= nlen r.
Proof.
  intros n r d r' H. unfold read_slice in H.
  destruct (N.ltb_spec (nlen r) n) as [|Hn]; [discriminate|]. injection H as <- <-.
  split; [symmetry; apply ntake_ndrop|]. split; [rewrite nlen_ntake; lia|auto].
Qed.
Lemma read_slice_app : forall n a b, nlen a = n -> read_slice n (a ++ b) = Ok (a, b).
Proof.
  intros n a b H. unfold read_slice. rewrite nlen_app.
  destruct (N.ltb_spec (nlen a + nlen b) n); [lia|].
  rewrite ntake_app_exact, ndrop_app_exact; auto.
Qed.
Lemma safe_read_slice : forall n r, safe (read_slice n r).
Proof. intros. unfold read_slice. destruct (nlen r <? n); auto. Qed.
Lemma safe_advance : forall n r, safe (advance n r).
Proof. intros. unfold advance. apply safe_bind; [apply safe_read_slice|]. intros [d r'] _. auto. Qed.
Lemma safe_read_le : forall n r, safe (read_le n r).
Proof. intros. unfold read_le. apply safe_bind; [apply safe_read_slice|]. intros [d r'] _. auto. Qed.
Lemma safe_align : forall p a r, safe (align p a r).
Proof. intros. apply safe_advance. Qed.
Lemma safe_read_cstr : forall r, safe (read_cstr r).
Proof. intros. apply safe_of_option. Qed.

Lemma split_once_some : forall p l a b, split_once p l = Some (a, b) ->
  exists c, l = a ++ c :: b /\ p c = true /\ Forall (fun x => p x = false) a.
Proof.
  induction l as [|x l IH]; intros a b H; simpl in H; [discriminate|].
  destruct (p x) eqn:Ep.
  - injection H as <- <-. exists x. repeat split; auto.
  - destruct (split_once p l) as [[u v]|]; [|discriminate]. injection H as <- <-.
    destruct (IH _ _ eq_refl) as (c & -> & Hc & Hf). exists c. repeat split; auto.
Qed.
Lemma split_once_app : forall p a c b, Forall (fun x => p x = false) a -> p c = true ->
  split_once p (a ++ c :: b) = Some (a, b).
Proof.
  induction a as [|x a IH]; intros c b Ha Hc; simpl; [now rewrite Hc|].
  inversion Ha; subst. rewrite H1. rewrite IH; auto.
Qed.
Lemma split_once_none : forall p l, split_once p l = None <-> Forall (fun x => p x = false) l.
Proof.
  induction l as [|x l IH]; simpl; [split; auto|].
  destruct (p x) eqn:Ep.
  - split; [discriminate|]. intros H. inversion H. congruence.
  - destruct (split_once p l) as [[u v]|].
    + split; [discriminate|]. intros H. inversion H; subst. apply IH in H3. discriminate.
    + split; auto. intros _. constructor; auto. now apply IH.
Qed.

(** Little endian encoding of [v] in [n] bytes. *)
Fixpoint le_bytes (n : nat) (v : N) : list N :=
  match n with
  | O => []
  | S n' => v mod 256 :: le_bytes n' (v / 256)
  end.
Lemma le_bytes_length : forall n v, length (le_bytes n v) = n.
Proof. induction n as [|n IH]; intros; simpl; auto. Qed.
Lemma le_bytes_nlen : forall n v, nlen (le_bytes n v) = N.of_nat n.
Proof. intros. unfold nlen. now rewrite le_bytes_length. Qed.
Lemma le_val_bytes : forall n v, v < 256 ^ N.of_nat n -> le_val (le_bytes n v) = v.
Proof.
  induction n as [|n IH]; intros v H; simpl.
  - change (256 ^ N.of_nat 0) with 1 in H. lia.
  - replace (N.of_nat (S n)) with (1 + N.of_nat n) in H by lia.
    rewrite N.pow_add_r in H. change (256 ^ 1) with 256 in H.
    rewrite IH by (apply N.div_lt_upper_bound; lia).
    rewrite (N.div_mod v 256) at 3 by lia. lia.
Qed.
Lemma le_bytes_is_bytes : forall n v, is_bytes (le_bytes n v).
Proof.
  induction n as [|n IH]; intros v; simpl; constructor; [|apply IH].
  apply N.mod_lt. lia.
Qed.
Lemma le_val_lt : forall l, is_bytes l -> le_val l < 256 ^ nlen l.
Proof.
  induction 1 as [|b l Hb H IH]; simpl; [reflexivity|].
  rewrite nlen_cons, N.pow_add_r. change (256 ^ 1) with 256. lia.
Qed.
Lemma read_le_bytes : forall n v rest, v < 256 ^ N.of_nat n ->
  read_le (N.of_nat n) (le_bytes n v ++ rest) = Ok (v, rest).
Proof.
  intros. unfold read_le. rewrite read_slice_app by apply le_bytes_nlen.
  simpl bind. now rewrite le_val_bytes.
Qed.

(** ** Alignment *)

Lemma align_up_spec : forall m w value k,
  w = 2 ^ 32 \/ w = 2 ^ 64 ->
  2 ^ k < w -> value + (2 ^ k - 1) < w ->
  exists r, align_up m w value (2 ^ k) = Ok r /\
    (2 ^ k | r) /\ value <= r /\ (forall q, (2 ^ k | q) -> value <= q -> r <= q).
Proof.
  intros m w value k Hw Hk Hfit. unfold align_up.
  assert (P : 0 < 2 ^ k) by (apply N.neq_0_lt_0, N.pow_nonzero; lia).
  rewrite usub_small by lia. simpl bind. rewrite uadd_small by lia. simpl bind.
  assert (Hb : exists b, w = 2 ^ b /\ k < b).
  { destruct Hw as [-> | ->]; eexists; (split; [reflexivity|]);
      apply (N.pow_lt_mono_r_iff 2); auto; lia. }
  destruct Hb as (b & -> & Hkb).
  set (v := value + (2 ^ k - 1)) in *.
  assert (Hland : N.land v (2 ^ b - 1 - (2 ^ k - 1)) = v / 2 ^ k * 2 ^ k).
  { assert (Hmask : 2 ^ b - 1 - (2 ^ k - 1) = N.shiftl (N.ones (b - k)) k).
    { rewrite N.shiftl_mul_pow2, N.ones_equiv, <- N.sub_1_r.
      rewrite N.mul_sub_distr_r, <- N.pow_add_r. replace (b - k + k) with b by lia.
      rewrite N.mul_1_l. lia. }
    rewrite Hmask. rewrite <- N.shiftr_div_pow2, <- N.shiftl_mul_pow2.
    apply N.bits_inj. intros n. rewrite N.land_spec.
    destruct (N.lt_ge_cases n k).
    - rewrite !N.shiftl_spec_low by auto. apply andb_false_r.
    - rewrite !N.shiftl_spec_high' by auto. rewrite N.shiftr_spec'.
      replace (n - k + k) with n by lia.
      destruct (N.lt_ge_cases n b).
      + rewrite N.ones_spec_low by lia. apply andb_true_r.
      + rewrite N.ones_spec_high by lia. rewrite andb_false_r. symmetry.
        apply (testbit_high v b); auto. }
  rewrite Hland. eexists. split; [reflexivity|].
  pose proof (N.div_mod v (2 ^ k)) as Hdm. pose proof (N.mod_lt v (2 ^ k)) as Hml.
  split; [exists (v / 2 ^ k); reflexivity|].
  split; [lia|].
  intros q [c ->] Hq.
  apply N.mul_le_mono_r. 
  apply N.lt_succ_r. apply N.div_lt_upper_bound; [lia|]. nia.
Qed.

(** ** One-time initialisation *)

(** Run a history of initialisation attempts. *)
Fixpoint once_run {T} (cell : option T) (fs : list (res T)) : list (res T * bool) * option T :=
  match fs with
  | [] => ([], cell)
  | f :: fs' =>
      let '(r, cell', ran) := get_or_try_init cell f in
      let '(rs, c) := once_run cell' fs' in
      ((r, ran) :: rs, c)
  end.
Lemma once_run_set : forall T (v : T) fs rs c,
  once_run (Some v) fs = (rs, c) ->
  c = Some v /\ Forall (fun x => x = (Ok v, false)) rs.
Proof.
  induction fs as [|f fs IH]; intros rs c H; simpl in H.
  - injection H as <- <-. auto.
  - destruct (once_run (Some v) fs) as [rs' c'] eqn:E. injection H as <- <-.
    destruct (IH _ _ eq_refl). auto.
Qed.
