(** * C38: units and their ranges *)

From Verif Require Import Base Util UtilProofs Search Depmod Dwarf DwarfSpec Lists Sym PropDwLines.
From Coq Require Import Permutation Sorted.
Local Open Scope N_scope.

(** ** Attributes about ranges *)
Fixpoint range_attrs (b : body) (l : list (option attr)) (ra : rattrs) : res rattrs :=
  match l with
  | [] => Ok ra
  | a :: l => let* a := g a in let* ra := range_attr b ra a in range_attrs b l ra
  end.

Lemma g_ok : forall A (o : option A) x, g o = Ok x -> o = Some x.
Proof. intros A [y|] x H; [injection H as <-; auto|discriminate]. Qed.

(** Fields stay as they are if there is no attribute about them. *)
Definition field_of (n : aname) (ra : rattrs) : option N * option N :=
  match n with
  | ALow => (ra_low ra, None)
  | AHigh => (ra_high ra, ra_size ra)
  | ARanges => (ra_ranges ra, None)
  | _ => (None, None)
  end.
Lemma aname_dec : forall a b : aname, {a = b} + {a <> b}.
Proof. decide equality. Defined.
Lemma range_attr_keep : forall b ra a ra' n, range_attr b ra a = Ok ra' -> a_name a <> n -> field_of n ra' = field_of n ra.
Proof.
  intros b ra [n' v] ra' n H Hn. cbn [a_name] in Hn. unfold range_attr in H. cbn [a_name a_value] in H.
  destruct n'; try (injection H as <-; reflexivity).
  - destruct v; try (injection H as <-; destruct n; try congruence; reflexivity).
    ib H x E. injection H as <-. destruct n; try congruence; reflexivity.
  - destruct v; try (injection H as <-; destruct n; try congruence; reflexivity).
    ib H x E. injection H as <-. destruct n; try congruence; reflexivity.
  - ib H x E. injection H as <-. destruct n; try congruence; reflexivity.
Qed.
Lemma range_attrs_keep : forall b n l ra ra', range_attrs b l ra = Ok ra' -> (forall v, ~ has l n v) ->
  field_of n ra' = field_of n ra.
Proof.
  intros b n. induction l as [|a l IH]; intros ra ra' H Hn; cbn [range_attrs] in H; [now injection H as <-|].
  ib H x Ex. apply g_ok in Ex. subst a. ib H ra1 E1. rewrite (IH _ _ H).
  - apply (range_attr_keep _ _ _ _ _ E1). destruct x as [n' v]. intros <-. apply (Hn v). now left.
  - intros v Hv. apply (Hn v). now right.
Qed.
Lemma range_attrs_app : forall b l1 l2 ra, range_attrs b (l1 ++ l2) ra =
  let* ra := range_attrs b l1 ra in range_attrs b l2 ra.
Proof.
  intros b. induction l1 as [|a l1 IH]; intros l2 ra; cbn [app range_attrs bind]; [reflexivity|].
  destruct (g a) as [x| | |]; cbn [bind]; auto.
  destruct (range_attr b ra x) as [ra1| | |]; cbn [bind]; auto.
Qed.

(** The one attribute of a name, if there is any *)
Lemma has_split : forall attrs n, unique attrs n -> (forall v, ~ has attrs n v) \/
  exists l1 v l2, attrs = l1 ++ Some (Attr n v) :: l2 /\ (forall v', ~ has l1 n v') /\ (forall v', ~ has l2 n v') /\
    forall v', has attrs n v' -> v' = v.
Proof.
  intros attrs n Hu.
  assert (D : forall l, (forall v, ~ has l n v) \/ exists l1 v l2, l = l1 ++ Some (Attr n v) :: l2 /\ forall v', ~ has l1 n v').
  { induction l as [|a l IH]; [left; intros v []|].
    destruct a as [[n' v]|].
    - destruct (aname_dec n' n) as [->|Hn].
      + right. exists [], v, l. split; [reflexivity|intros v' []].
      + destruct IH as [IH|(l1 & v1 & l2 & -> & H1)].
        * left. intros v' [H|H]; [congruence|]. now apply (IH v').
        * right. exists (Some (Attr n' v) :: l1), v1, l2. split; [reflexivity|]. intros v' [H|H]; [congruence|]. now apply (H1 v').
    - destruct IH as [IH|(l1 & v1 & l2 & -> & H1)].
      + left. intros v' [H|H]; [congruence|]. now apply (IH v').
      + right. exists (None :: l1), v1, l2. split; [reflexivity|]. intros v' [H|H]; [congruence|]. now apply (H1 v'). }
  destruct (D attrs) as [H|(l1 & v & l2 & E & H1)]; [auto|right]. exists l1, v, l2. split; auto. split; auto.
  assert (Hl1 : nth_error attrs (length l1) = Some (Some (Attr n v))).
  { rewrite E, nth_error_app2, Nat.sub_diag by lia. reflexivity. }
  assert (Huniq : forall v', has attrs n v' -> v' = v).
  { intros v' Hv'. apply In_nth_error in Hv'. destruct Hv' as [k Hk].
    assert (k = length l1) by (apply (Hu k (length l1) _ _ Hk Hl1); eexists; reflexivity). subst k. congruence. }
  split; auto. intros v' Hv'. apply In_nth_error in Hv'. destruct Hv' as [k Hk].
  assert (Hk' : nth_error attrs (length l1 + S k) = Some (Some (Attr n v'))).
  { rewrite E, nth_error_app2 by lia. now replace (length l1 + S k - length l1)%nat with (S k) by lia. }
  assert (length l1 + S k = length l1)%nat by (apply (Hu _ _ _ _ Hk' Hl1); eexists; reflexivity). lia.
Qed.

(** What is known about the result *)
Lemma range_attrs_at : forall b n l1 v l2 ra ra', (forall v', ~ has l2 n v') ->
  range_attrs b (l1 ++ Some (Attr n v) :: l2) ra = Ok ra' ->
  exists ra1 ra2, range_attrs b l1 ra = Ok ra1 /\ range_attr b ra1 (Attr n v) = Ok ra2 /\ field_of n ra' = field_of n ra2.
Proof.
  intros b n l1 v l2 ra ra' Hn H. rewrite range_attrs_app in H. ib H ra1 E1. cbn [range_attrs g of_option bind] in H.
  ib H ra2 E2. exists ra1, ra2. split; auto. split; auto. now apply (range_attrs_keep _ _ _ _ _ H).
Qed.
Lemma fold_low : forall b attrs ra, unique attrs ALow -> range_attrs b attrs no_rattrs = Ok ra ->
  forall lo, ra_low ra = Some lo <-> low_of b attrs lo.
Proof.
  intros b attrs ra Hu H lo. destruct (has_split attrs ALow Hu) as [Hn|(l1 & v & l2 & E & H1 & H2 & Hv)].
  - apply (range_attrs_keep _ ALow) in H; auto. cbn [field_of] in H. injection H as H. rewrite H. cbn [no_rattrs ra_low].
    split; [discriminate|]. intros (v & Hv & _). exfalso. now apply (Hn v).
  - rewrite E in H. destruct (range_attrs_at _ _ _ _ _ _ _ H2 H) as (ra1 & ra2 & E1 & E2 & E3).
    cbn [field_of] in E3. injection E3 as E3. rewrite E3.
    apply (range_attrs_keep _ ALow) in E1; auto. cbn [field_of] in E1. injection E1 as E1.
    assert (Hlow : low_of b attrs lo <-> is_address b v lo).
    { split; [intros (v' & Hv' & Ha); now rewrite <- (Hv v' Hv')|]. intros Ha. exists v. split; auto. rewrite E. apply in_elt. }
    rewrite Hlow. unfold range_attr in E2. cbn [a_name a_value] in E2. unfold is_address.
    destruct v; try (injection E2 as <-; rewrite E1; cbn [no_rattrs ra_low]; split; [discriminate|]; intros [Ha|(i' & Ha & _)]; discriminate).
    + injection E2 as <-. cbn [ra_low]. split; [intros H'; injection H' as <-; auto|].
      intros [Ha|(i' & Ha & _)]; [injection Ha as <-; auto|discriminate].
    + ib E2 x Ex. apply g_ok in Ex. injection E2 as <-. cbn [ra_low]. split; [intros H'; injection H' as <-; eauto|].
      intros [Ha|(i' & Ha & Hb)]; [discriminate|]. injection Ha as <-. congruence.
Qed.
Lemma fold_high : forall b attrs ra, unique attrs AHigh -> range_attrs b attrs no_rattrs = Ok ra ->
  (forall hi, ra_high ra = Some hi <-> exists v, has attrs AHigh v /\ is_address b v hi) /\
  (forall n, ra_size ra = Some n <-> has attrs AHigh (VUdata n)).
Proof.
  intros b attrs ra Hu H. destruct (has_split attrs AHigh Hu) as [Hn|(l1 & v & l2 & E & H1 & H2 & Hv)].
  - apply (range_attrs_keep _ AHigh) in H; auto. cbn [field_of] in H. injection H as H H'. rewrite H, H'. cbn [no_rattrs ra_high ra_size].
    split; intros x; (split; [discriminate|]).
    + intros (v & Hv & _). exfalso. now apply (Hn v).
    + intros Hx. exfalso. now apply (Hn (VUdata x)).
  - rewrite E in H. destruct (range_attrs_at _ _ _ _ _ _ _ H2 H) as (ra1 & ra2 & E1 & E2 & E3).
    cbn [field_of] in E3. injection E3 as E3 E3'. rewrite E3, E3'.
    apply (range_attrs_keep _ AHigh) in E1; auto. cbn [field_of] in E1. injection E1 as E1 E1'.
    assert (Hh : forall hi, (exists v, has attrs AHigh v /\ is_address b v hi) <-> is_address b v hi).
    { intros hi. split; [intros (v' & Hv' & Ha); now rewrite <- (Hv v' Hv')|]. intros Ha. exists v. split; auto. rewrite E. apply in_elt. }
    assert (Hs : forall n, has attrs AHigh (VUdata n) <-> v = VUdata n).
    { intros n. split; [intros Hx; symmetry; auto|]. intros ->. unfold has. rewrite E. apply in_elt. }
    unfold range_attr in E2. cbn [a_name a_value] in E2.
    split; [intros hi; rewrite Hh; unfold is_address|intros n; rewrite Hs].
    + destruct v; try (injection E2 as <-; cbn [ra_high]; rewrite E1; cbn [no_rattrs ra_high]; split; [discriminate|]; intros [Ha|(i' & Ha & _)]; discriminate).
      * injection E2 as <-. cbn [ra_high]. split; [intros H'; injection H' as <-; auto|].
        intros [Ha|(i' & Ha & _)]; [injection Ha as <-; auto|discriminate].
      * ib E2 x Ex. apply g_ok in Ex. injection E2 as <-. cbn [ra_high]. split; [intros H'; injection H' as <-; eauto|].
        intros [Ha|(i' & Ha & Hb)]; [discriminate|]. injection Ha as <-. congruence.
    + destruct v; try (injection E2 as <-; cbn [ra_size]; rewrite E1'; cbn [no_rattrs ra_size]; split; discriminate).
      * ib E2 x Ex. injection E2 as <-. cbn [ra_size]. rewrite E1'. split; discriminate.
      * injection E2 as <-. cbn [ra_size]. split; congruence.
Qed.
Lemma fold_ranges : forall b attrs ra, unique attrs ARanges -> range_attrs b attrs no_rattrs = Ok ra ->
  forall off, ra_ranges ra = Some off <-> list_of attrs off.
Proof.
  intros b attrs ra Hu H off. unfold list_of. destruct (has_split attrs ARanges Hu) as [Hn|(l1 & v & l2 & E & H1 & H2 & Hv)].
  - apply (range_attrs_keep _ ARanges) in H; auto. cbn [field_of] in H. injection H as H. rewrite H. cbn [no_rattrs ra_ranges].
    split; [discriminate|]. intros Hx. exfalso. eapply Hn; eauto.
  - rewrite E in H. destruct (range_attrs_at _ _ _ _ _ _ _ H2 H) as (ra1 & ra2 & E1 & E2 & E3).
    cbn [field_of] in E3. injection E3 as E3. rewrite E3.
    assert (Hl : has attrs ARanges (VRanges (Some (Some off))) <-> v = VRanges (Some (Some off))).
    { split; [intros Hx; symmetry; auto|]. intros ->. unfold has. rewrite E. apply in_elt. }
    rewrite Hl. unfold range_attr in E2. cbn [a_name a_value] in E2. ib E2 o Eo. apply g_ok in Eo. injection E2 as <-.
    cbn [ra_ranges]. unfold attr_ranges_offset in Eo. destruct v; try (injection Eo as <-; split; discriminate).
    subst o0. split; [intros ->; auto|]. intros H'. injection H' as ->. reflexivity.
Qed.

Lemma filter_nonempty : forall r l, In r (filter nonempty l) <-> In r l /\ r_begin r < r_end r.
Proof. intros. rewrite filter_In. unfold nonempty. now rewrite N.ltb_lt. Qed.

Lemma Ok_eq : forall A (a b : A), Ok a = Ok b -> b = a.
Proof. congruence. Qed.

(** The ranges passed on are the declared ones that are not empty. *)
Theorem ranges_declared : forall m b attrs ra rs, ranges_wf b attrs ->
  range_attrs b attrs no_rattrs = Ok ra -> for_each_range m b ra = Ok rs ->
  forall r, In r rs <-> declares b attrs r /\ r_begin r < r_end r.
Proof.
  intros m b attrs ra rs (U1 & U2 & U3 & Hfit) H Hf r.
  pose proof (fold_low _ _ _ U1 H) as Flo. destruct (fold_high _ _ _ U2 H) as [Fhi Fsz].
  pose proof (fold_ranges _ _ _ U3 H) as Frg. unfold for_each_range in Hf. unfold declares.
  destruct (ra_ranges ra) as [off|] eqn:Er.
  - ib Hf rs' Ers. apply g_ok in Ers. injection Hf as <-. rewrite filter_nonempty.
    assert (Hoff : list_of attrs off) by now apply Frg.
    assert (Honly : forall off', list_of attrs off' -> off' = off).
    { intros off' Ho. apply Frg in Ho. congruence. }
    split; intros [Hin Hne]; split; auto.
    + left. eauto.
    + destruct Hin as [(off' & rs'' & Ho & Hb & Hin)|(Hno & _)]; [|exfalso; now apply (Hno off)].
      rewrite (Honly _ Ho) in Hb. congruence.
  - assert (Hno : forall off, ~ list_of attrs off) by (intros off Ho; apply Frg in Ho; discriminate).
    assert (Hdecl : (exists off rs, list_of attrs off /\ b_ranges b off = Some rs /\ In r rs) \/
       (forall off, ~ list_of attrs off) /\ (exists lo hi, low_of b attrs lo /\ high_of b attrs lo hi /\ r = Range lo hi) <->
       exists lo hi, low_of b attrs lo /\ high_of b attrs lo hi /\ r = Range lo hi).
    { split; [intros [(off & _ & Ho & _)|(_ & Hx)]; auto; exfalso; eapply Hno; eauto|auto]. }
    rewrite Hdecl. clear Hdecl.
    destruct (ra_low ra) as [lo|] eqn:El.
    2:{ injection Hf as <-. split; [intros []|]. intros [(lo & hi & Hl & _) _]. apply Flo in Hl. discriminate. }
    assert (Hlo : low_of b attrs lo) by now apply Flo.
    assert (Hlo' : forall lo', low_of b attrs lo' -> lo' = lo) by (intros lo' Hx; apply Flo in Hx; congruence).
    destruct (ra_high ra) as [hi|] eqn:Eh.
    + apply Ok_eq in Hf. subst rs. rewrite filter_nonempty. cbn [In].
      assert (Hhi : high_of b attrs lo hi) by (destruct (proj1 (Fhi hi) eq_refl) as (v & Hv & Ha); exists v; auto).
      split; intros [Hin Hne]; split; auto.
      * destruct Hin as [<-|[]]. eauto.
      * destruct Hin as (lo' & hi' & Hl & (v & Hv & Hh) & ->). rewrite (Hlo' _ Hl). left. f_equal.
        destruct Hh as [Ha|(n & -> & _)].
        { assert (Hx : Some hi = Some hi') by (apply Fhi; eauto). now injection Hx. }
        { exfalso. destruct (proj1 (Fhi hi) eq_refl) as (v' & Hv' & Ha').
          destruct (has_split attrs AHigh U2) as [Hn|(l1 & v1 & l2 & _ & _ & _ & Hu)]; [now apply (Hn v')|].
          rewrite (Hu _ Hv') in Ha'. rewrite <- (Hu _ Hv) in Ha'. destruct Ha' as [Ha'|(i & Ha' & _)]; discriminate. }
    + destruct (ra_size ra) as [sz|] eqn:Es.
      * ib Hf hi Ehi. apply Ok_eq in Hf. subst rs. rewrite filter_nonempty. cbn [In].
        assert (Hsz : has attrs AHigh (VUdata sz)) by now apply Fsz.
        assert (Hhi : high_of b attrs lo (lo + sz)) by (exists (VUdata sz); eauto).
        assert (hi = lo + sz).
        { unfold add64 in Ehi. rewrite uadd_small in Ehi by (eapply Hfit; eauto). congruence. }
        subst hi. split; intros [Hin Hne]; split; auto.
        { destruct Hin as [<-|[]]. eauto. }
        { destruct Hin as (lo' & hi' & Hl & (v & Hv & Hh) & ->). rewrite (Hlo' _ Hl) in *. left. f_equal.
          destruct Hh as [Ha|(n & -> & ->)].
          - exfalso. assert (Hx : None = Some hi') by (apply Fhi; eauto). discriminate.
          - apply Fsz in Hv. congruence. }
      * injection Hf as <-. split; [intros []|]. intros [(lo' & hi' & Hl & (v & Hv & Hh) & _) _]. exfalso.
        destruct Hh as [Ha|(n & -> & ->)].
        { assert (Hx : None = Some hi') by (apply Fhi; eauto). discriminate. }
        { apply Fsz in Hv. discriminate. }
Qed.

(** ** The table of sets *)
Lemma key_cmp_sorted : forall A (f : A -> N) k l, StronglySorted (fun a b => f a <= f b) l -> cmp_sorted (fun x => f x ?= k) l.
Proof.
  intros A f k l H i j a b Hij Ha Hb.
  assert (f a <= f b).
  { apply Nat.lt_eq_cases in Hij. destruct Hij as [Hlt|<-]; [|assert (a = b) by congruence; subst; lia].
    now apply (StronglySorted_nth _ _ _ _ _ _ _ H Hlt Ha Hb). }
  rewrite !N.compare_lt_iff, !N.compare_gt_iff. lia.
Qed.
Lemma first_set_spec : forall l off i, (exists a, nth_error l i = Some a /\ as_unit a = off) ->
  StronglySorted (fun a b => as_unit a <= as_unit b) l ->
  (exists a, nth_error l (first_set l off i) = Some a /\ as_unit a = off) /\
  forall j a, (j < first_set l off i)%nat -> nth_error l j = Some a -> as_unit a <> off.
Proof.
  intros l off i Hi Hs. induction i as [|i IH]; cbn [first_set].
  - split; auto. intros j a Hj. lia.
  - destruct (nth_error l i) as [a|] eqn:E.
    + destruct (N.eqb_spec (as_unit a) off) as [Ha|Ha].
      * apply IH. eauto.
      * split; auto. intros j x Hj Hx Hxo. destruct Hi as (y & Hy & Hyo).
        pose proof (StronglySorted_nth _ _ _ _ _ _ _ Hs (Nat.lt_succ_diag_r i) E Hy) as H1. cbv beta in H1.
        destruct (Nat.eq_dec j i) as [->|]; [congruence|].
        pose proof (StronglySorted_nth _ _ _ j i _ _ Hs ltac:(lia) Hx E) as H2. cbv beta in H2. lia.
    + exfalso. destruct Hi as (y & Hy & _). apply nth_error_None in E. apply nth_error_lt in Hy. lia.
Qed.
Lemma entries_in : forall (es : list (option (range * N))) r, In r (flat_map (fun e => match e with
                               | Some (r, len) => if len =? 0 then [] else [r]
                               | None => []
                               end) es) <-> exists len, In (Some (r, len)) es /\ len <> 0.
Proof.
  intros es r. rewrite in_flat_map. split.
  - intros ([[r' len]|] & Hin & Hr); [|destruct Hr]. destruct (N.eqb_spec len 0); [destruct Hr|].
    destruct Hr as [<-|[]]. eauto.
  - intros (len & Hin & Hl). exists (Some (r, len)). split; auto. destruct (N.eqb_spec len 0); [congruence|now left].
Qed.
Lemma sets_ranges_in : forall l off rs, StronglySorted (fun a b => as_unit a <= as_unit b) l ->
  Forall (fun a => off <= as_unit a) l -> sets_ranges l off = Ok rs -> forall r, In r rs <-> listed l off r.
Proof.
  intros l off rs Hs. revert rs. induction Hs as [|a l Hs IH Hf]; intros rs Hge H r; cbn [sets_ranges] in H.
  - injection H as <-. split; [intros []|]. intros (a & es & len & [] & _).
  - destruct (N.eqb_spec (as_unit a) off) as [Ha|Ha].
    + ib H es Ees. apply g_ok in Ees. ib H rs' Ers. injection H as <-. inversion Hge; subst.
      rewrite in_app_iff, entries_in, (IH _ H2 Ers). split.
      * intros [(len & Hin & Hl)|(a' & es' & len & H' & Hx)].
        { exists a, es, len. split; [now left|auto]. }
        { exists a', es', len. split; [now right|auto]. }
      * intros (a' & es' & len & [<-|Hin] & Hu & He & Hr & Hl).
        { left. exists len. split; auto. congruence. }
        { right. exists a', es', len. auto. }
    + injection H as <-. inversion Hge; subst. split; [intros []|].
      intros (a' & es' & len & [<-|Hin] & Hu & _); [congruence|].
      rewrite Forall_forall in Hf. specialize (Hf _ Hin). lia.
Qed.
Lemma skipn_sorted : forall A (R : A -> A -> Prop) n l, StronglySorted R l -> StronglySorted R (skipn n l).
Proof.
  intros A R. induction n as [|n IH]; intros l H; [exact H|]. destruct l as [|x l]; [constructor|]. cbn [skipn].
  inversion H; auto.
Qed.
Lemma skipn_nth : forall A n (l : list A) i, nth_error (skipn n l) i = nth_error l (n + i).
Proof.
  intros A. induction n as [|n IH]; intros l i; [reflexivity|]. destruct l as [|x l]; cbn [skipn].
  - now destruct i.
  - apply IH.
Qed.
Lemma arange_ranges_in : forall pick sets srt off rs, sorter_ok srt ->
  arange_ranges pick (srt _ (by_key as_unit) sets) off = Ok rs -> forall r, In r rs <-> listed sets off r.
Proof.
  intros pick sets srt off rs Hsrt H r.
  destruct (sorts_by_key srt _ as_unit sets Hsrt) as [Hp Hs].
  set (l := srt aset (by_key as_unit) sets) in *.
  assert (Hl : listed sets off r <-> listed l off r).
  { split; intros (a & es & len & Hin & Hx); exists a, es, len; split; auto.
    - now apply (Permutation_in _ Hp).
    - now apply (Permutation_in _ (Permutation_sym Hp)). }
  rewrite Hl. unfold arange_ranges in H.
  pose proof (bsearch_spec _ pick l (fun a => as_unit a ?= off) (key_cmp_sorted _ _ _ _ Hs)) as B.
  destruct (binary_search_by pick l (fun a => as_unit a ?= off)) as [i|n].
  - destruct B as (x & Hx & Ex). apply N.compare_eq in Ex.
    destruct (first_set_spec l off i) as [(y & Hy & Ey) Hbefore]; [eauto|auto|].
    set (k := first_set l off i) in *.
    assert (Hge : Forall (fun a => off <= as_unit a) (skipn k l)).
    { apply Forall_forall. intros a Hin. apply In_nth_error in Hin. destruct Hin as [j Hj]. rewrite skipn_nth in Hj.
      destruct j as [|j]; [rewrite Nat.add_0_r in Hj; assert (a = y) by congruence; subst; lia|].
      pose proof (StronglySorted_nth _ _ _ k (k + S j)%nat _ _ Hs ltac:(lia) Hy Hj) as Hle. cbv beta in Hle. lia. }
    rewrite (sets_ranges_in _ _ rs (skipn_sorted _ _ k _ Hs) Hge H).
    split; intros (a & es & len & Hin & Ha & Hr).
    + exists a, es, len. split; auto. rewrite <- (firstn_skipn k l). apply in_app_iff. now right.
    + exists a, es, len. split; auto. apply In_nth_error in Hin. destruct Hin as [j Hj].
      destruct (Nat.lt_ge_cases j k) as [Hlt|Hge']; [exfalso; eapply Hbefore; eauto|].
      apply (nth_error_In _ (j - k)). rewrite skipn_nth. now replace (k + (j - k))%nat with j by lia.
  - injection H as <-. destruct B as (Hn & Hlt & Hgt). split; [intros []|].
    intros (a & es & len & Hin & Ha & _). exfalso. apply In_nth_error in Hin. destruct Hin as [j Hj].
    destruct (Nat.lt_ge_cases j n) as [H|H].
    + specialize (Hlt _ _ Hj H). cbv beta in Hlt. rewrite N.compare_lt_iff in Hlt. lia.
    + specialize (Hgt _ _ Hj H). cbv beta in Hgt. rewrite N.compare_gt_iff in Hgt. lia.
Qed.

(** ** The loop over units *)
Definition unit_of (h : uheader) (off : N) (u : dunit) : Prop :=
  u_offset u = off /\ u_main u = h_unit h /\ u_dwo u = h_dwo h.

Lemma unit_attrs_ranges : forall b l ra lang ra' lang', unit_attrs b l ra lang = Ok (ra', lang') -> range_attrs b l ra = Ok ra'.
Proof.
  intros b. induction l as [|a l IH]; intros ra lang ra' lang' H; cbn [unit_attrs range_attrs] in *.
  - now injection H as <- <-.
  - ib H x Ex. ib H ra1 E1. rewrite Ex. cbn [bind]. rewrite E1. cbn [bind]. eapply IH; eauto.
Qed.

Lemma lines_parse_files : forall srt b p ls, lines_parse srt b p = Ok ls -> files_wf b p.
Proof.
  intros srt b p ls H. unfold lines_parse in H. ib H rows Er. ib H f0 E0. ib H fs Ef.
  assert (H1 : forall f x, render_file b f = Ok x -> f_name f <> None /\ (f_dir_index f = 0 \/ f_dir f <> Some None)).
  { intros f x Hf. unfold render_file in Hf. ib Hf dir Ed. ib Hf name En. apply g_ok in En. split; [congruence|].
    destruct (N.eqb_spec (f_dir_index f) 0); [auto|]. right. cbn [negb] in Ed.
    destruct (f_dir f) as [[d|]|]; [congruence|discriminate Ed|congruence]. }
  intros f [Hf|Hf].
  - rewrite Hf in E0. eauto.
  - clear - Ef Hf H1. revert fs Ef. induction (lp_files p) as [|y l IH]; [destruct Hf|].
    intros fs Ef. cbn [render_files] in Ef. ib Ef x Ex. ib Ef xs Exs. destruct Hf as [->|Hf]; eauto.
Qed.
Lemma seq_range_of : forall srt rows r, sorter_ok srt ->
  (In r (map (fun s => Range (s_start s) (s_end s)) (seqs_of srt rows)) <->
   exists body e, sequence rows body e /\ seq_range body e r).
Proof.
  intros srt rows r Hsrt. rewrite in_map_iff. split.
  - intros (s & <- & Hin). apply seqs_of_in in Hin; auto. destruct Hin as (body & e & Hq & ->).
    exists body, e. split; auto. now apply (has_range rows).
  - intros (body & e & Hq & Hr). exists (conv_seq (body, e)). split.
    + symmetry. now apply seq_range_conv.
    + apply seqs_of_in; eauto.
Qed.

(** One unit's ranges *)
Lemma unit_ranges_in : forall m srt pick sets h off rs, sorter_ok srt -> h_offset h = Some off -> unit_wf h ->
  arange_ranges pick (srt _ (by_key as_unit) sets) off = Ok rs ->
  (rs <> [] -> forall r, In r rs <-> unit_range sets h r) /\
  (rs = [] -> forall b s d s' z ra lang rs', h_unit h = Some b -> b_entries b = Some s ->
     read_abbreviation s 0%Z = Ok (Some d, s', z) -> unit_attrs b (d_attrs d) no_rattrs None = Ok (ra, lang) ->
     for_each_range m b ra = Ok rs' ->
     let rs2 := match rs' with
                | _ :: _ => rs'
                | [] =>
                    match b_lines b with
                    | Some p =>
                        match lines_parse srt b p with
                        | Ok ls => map (fun s => Range (s_start s) (s_end s)) (ls_seqs ls)
                        | _ => []
                        end
                    | None => []
                    end
                end in
     (forall r, In r rs2 -> unit_range sets h r) /\
     (forall r, unit_range sets h r -> r_begin r < r_end r -> In r rs2)).
Proof.
  intros m srt pick sets h off rs Hsrt Hoff Hwf Ha.
  pose proof (arange_ranges_in _ _ _ _ _ Hsrt Ha) as HL. split.
  - intros Hne r. rewrite HL. split.
    + intros H. now apply (RangeListed sets h off).
    + assert (Hex : exists r, listed sets off r) by (destruct rs as [|r0 rs]; [congruence|]; exists r0; apply HL; now left).
      destruct Hex as [r0 H0]. intros H. inversion H; subst.
      * congruence.
      * exfalso. assert (off0 = off) by congruence. subst. now apply (H2 r0).
      * exfalso. assert (off0 = off) by congruence. subst. now apply (H2 r0).
  - intros -> b s d s' z ra lang rs' Hb He Hd Hat Hf rs2.
    assert (Hno : forall r, ~ listed sets off r) by (intros r Hr; now apply HL in Hr).
    destruct s as [|[o [| |]] s0]; cbn [read_abbreviation] in Hd; try discriminate. injection Hd as -> _ _.
    assert (Hroot : root_attrs b (d_attrs d)).
    { destruct d as [tag ch attrs]. exists o, tag, ch, s0. exact He. }
    assert (Hroot' : forall attrs, root_attrs b attrs -> attrs = d_attrs d).
    { intros attrs (o' & tag & ch & s1 & E). rewrite He in E. injection E as -> -> ->. reflexivity. }
    pose proof (ranges_declared m b (d_attrs d) ra rs' (Hwf _ _ Hb Hroot) (unit_attrs_ranges _ _ _ _ _ _ Hat) Hf) as HD.
    assert (Hcase : (exists x l, rs' = x :: l) \/ rs' = []) by (destruct rs'; eauto).
    destruct Hcase as [(x & l & E)|E].
    + assert (rs2 = rs') by (unfold rs2; now rewrite E). rewrite H. clear H rs2. split.
      * intros r Hr. apply HD in Hr. destruct Hr as [Hr _]. now apply (RangeDeclared sets h off b (d_attrs d)).
      * intros r Hr Hne. inversion Hr; subst.
        { exfalso. assert (off0 = off) by congruence. subst. now apply (Hno r). }
        { assert (b0 = b) by congruence. subst. rewrite (Hroot' _ H2) in H3. apply HD. auto. }
        { exfalso. assert (b0 = b) by congruence. subst. rewrite (Hroot' _ H2) in H3.
          assert (Hx : declares b (d_attrs d) x /\ r_begin x < r_end x) by (apply HD; now left).
          destruct Hx as [Hx Hlt]. apply (H3 x (r_begin x) Hx). unfold covers. lia. }
    + assert (Hnone : forall r a, declares b (d_attrs d) r -> ~ covers r a).
      { intros r a Hr Hc. assert (Hin : In r rs') by (apply HD; split; auto; unfold covers in Hc; lia).
        rewrite E in Hin. destruct Hin. }
      assert (Hlines : forall p rows, b_lines b = Some p -> files_wf b p -> lp_rows p = Some rows ->
        rs2 = map (fun s => Range (s_start s) (s_end s)) (seqs_of srt rows)).
      { intros p rows Hp Hfw Hrows. unfold rs2. rewrite E, Hp.
        destruct (C40_accepted srt b p rows Hrows Hfw) as [ls Hls]. rewrite Hls.
        destruct (lines_parse_inv _ _ _ _ Hls) as (rows' & Hr' & -> & _). congruence. }
      split.
      * intros r Hr. unfold rs2 in Hr. rewrite E in Hr. destruct (b_lines b) as [p|] eqn:Ep; [|destruct Hr].
        destruct (lines_parse srt b p) as [ls| | |] eqn:El; try destruct Hr.
        destruct (lines_parse_inv _ _ _ _ El) as (rows & Hrows & Hls & _). rewrite Hls in Hr.
        apply seq_range_of in Hr; auto. destruct Hr as (body & e & Hq & Hr).
        apply (RangeLines sets h off b (d_attrs d) p rows body e); auto. eapply lines_parse_files; eauto.
      * intros r Hr Hne. inversion Hr; subst.
        { exfalso. assert (off0 = off) by congruence. subst. now apply (Hno r). }
        { exfalso. assert (b0 = b) by congruence. subst. rewrite (Hroot' _ H2) in H3.
          apply (Hnone r (r_begin r) H3). unfold covers. lia. }
        { assert (b0 = b) by congruence. subst. rewrite (Hlines _ _ H4 H5 H6). apply seq_range_of; eauto. }
Qed.

(** Indices of units are those of the units they were made for. *)
Definition ranges_ok (sets : list aset) (hs : list uheader) (ranges : list urange) (us : list dunit) : Prop :=
  (forall x, In x ranges -> exists u h off, nnth (ur_unit x) us = Some u /\ In h hs /\ h_offset h = Some off /\
     h_kind h = KOther /\ unit_of h off u /\ unit_range sets h (ur_range x)) /\
  (forall h off r, In h hs -> h_offset h = Some off -> h_kind h = KOther -> unit_range sets h r ->
     r_begin r < r_end r -> exists x u, In x ranges /\ ur_range x = r /\ nnth (ur_unit x) us = Some u /\ unit_of h off u).
(** The same with units in reverse order *)
Definition loop_inv (sets : list aset) (done : list uheader) (ranges : list urange) (us : list dunit) : Prop :=
  ranges_ok sets done (rev ranges) (rev us).

Lemma nnth_snoc_old : forall A (l : list A) x i y, nnth i l = Some y -> nnth i (l ++ [x]) = Some y.
Proof.
  intros A l x i y. rewrite !nnth_nth. intros H. rewrite nth_error_app1; auto. eapply nth_error_lt; eauto.
Qed.
Lemma nnth_snoc_new : forall A (l : list A) x, nnth (nlen l) (l ++ [x]) = Some x.
Proof.
  intros A l x. rewrite nnth_nth. unfold nlen. rewrite Nat2N.id, nth_error_app2, Nat.sub_diag by lia. reflexivity.
Qed.
Lemma nlen_rev : forall A (l : list A), nlen (rev l) = nlen l.
Proof. intros. unfold nlen. now rewrite rev_length. Qed.

(** A unit that is skipped or has no ranges *)
Lemma inv_skip : forall sets done ranges us h, loop_inv sets done ranges us ->
  (forall off r, h_offset h = Some off -> h_kind h = KOther -> unit_range sets h r -> r_begin r < r_end r -> False) ->
  loop_inv sets (done ++ [h]) ranges us.
Proof.
  intros sets done ranges us h [H1 H2] Hn. split.
  - intros x Hx. destruct (H1 x Hx) as (u & h' & off & E1 & E2 & E3). exists u, h', off. split; auto. split; auto.
    apply in_app_iff. now left.
  - intros h' off r Hin Ho Hk Hr Hne. apply in_app_iff in Hin. destruct Hin as [Hin|[<-|[]]]; [eauto|].
    exfalso. eauto.
Qed.
Lemma inv_unit : forall sets done ranges us u, loop_inv sets done ranges us -> loop_inv sets done ranges (u :: us).
Proof.
  intros sets done ranges us u [H1 H2]. split.
  - intros x Hx. destruct (H1 x Hx) as (u' & h' & off & E1 & E2). exists u', h', off. cbn [rev]. split; auto.
    now apply nnth_snoc_old.
  - intros h' off r Hin Ho Hk Hr Hne. destruct (H2 h' off r Hin Ho Hk Hr Hne) as (x & u' & E1 & E2 & E3 & E4).
    exists x, u'. cbn [rev]. split; auto. split; auto. split; auto. now apply nnth_snoc_old.
Qed.
(** A unit with ranges *)
Lemma inv_push : forall sets done ranges us h off u rs, loop_inv sets done ranges us -> h_offset h = Some off ->
  h_kind h = KOther -> unit_of h off u -> (forall r, In r rs -> unit_range sets h r) ->
  (forall r, unit_range sets h r -> r_begin r < r_end r -> In r rs) ->
  loop_inv sets (done ++ [h]) (rev (map (fun r => URange (nlen us) 0 r) rs) ++ ranges) (u :: us).
Proof.
  intros sets done ranges us h off u rs Hinv Ho Hk Hu Hs Hc. apply (inv_unit _ _ _ _ u) in Hinv. destruct Hinv as [H1 H2].
  assert (Hnew : nnth (nlen us) (rev (u :: us)) = Some u).
  { cbn [rev]. rewrite <- (nlen_rev _ us). apply nnth_snoc_new. }
  split.
  - intros x Hx. rewrite rev_app_distr, rev_involutive in Hx. apply in_app_iff in Hx. destruct Hx as [Hx|Hx].
    + destruct (H1 x Hx) as (u' & h' & off' & E1 & E2 & E3). exists u', h', off'. split; auto. split; auto.
      apply in_app_iff. now left.
    + apply in_map_iff in Hx. destruct Hx as (r & <- & Hr). cbn [ur_unit ur_range].
      exists u, h, off. split; auto. split; [apply in_app_iff; right; now left|]. auto.
  - intros h' off' r Hin Ho' Hk' Hr Hne. rewrite rev_app_distr, rev_involutive.
    apply in_app_iff in Hin. destruct Hin as [Hin|[<-|[]]].
    + destruct (H2 h' off' r Hin Ho' Hk' Hr Hne) as (x & u' & E1 & E2). exists x, u'. split; auto.
      apply in_app_iff. now left.
    + assert (off' = off) by congruence. subst off'. exists (URange (nlen us) 0 r), u. split; [|auto].
      apply in_app_iff. right. apply in_map_iff. exists r. split; auto.
Qed.

Lemma unit_range_root : forall sets h off r b, h_offset h = Some off -> (forall r, ~ listed sets off r) ->
  h_unit h = b -> unit_range sets h r -> exists b' attrs, b = Some b' /\ root_attrs b' attrs.
Proof.
  intros sets h off r b Ho Hn Hb H. inversion H; subst.
  - exfalso. assert (off0 = off) by congruence. subst. now apply (Hn r).
  - eauto.
  - eauto.
Qed.

Lemma units_loop_ok : forall m srt pick sets hs done ranges us rs' us', sorter_ok srt ->
  (forall h, In h hs -> unit_wf h) -> loop_inv sets done ranges us ->
  units_loop m srt pick (srt _ (by_key as_unit) sets) hs ranges us = Ok (rs', us') ->
  ranges_ok sets (done ++ hs) rs' us'.
Proof.
  intros m srt pick sets. induction hs as [|h hs IH]; intros done ranges us rs' us' Hsrt Hwf Hinv H; cbn [units_loop] in H.
  - injection H as <- <-. now rewrite app_nil_r.
  - replace (done ++ h :: hs) with ((done ++ [h]) ++ hs) by (rewrite <- app_assoc; reflexivity).
    assert (Hwf' : forall h, In h hs -> unit_wf h) by (intros h' Hin; apply Hwf; now right).
    destruct (h_offset h) as [off|] eqn:Eo.
    2:{ eapply IH; [auto|auto| |exact H]. apply inv_skip; auto. intros off r E. congruence. }
    destruct (h_kind h) eqn:Ek.
    + eapply IH; [auto|auto| |exact H]. apply inv_skip; auto. congruence.
    + eapply IH; [auto|auto| |exact H]. apply inv_unit. apply inv_skip; auto. congruence.
    + ib H rs Ers. destruct (unit_ranges_in m srt pick sets h off rs Hsrt Eo (Hwf h (or_introl eq_refl)) Ers) as [HA HB].
      destruct rs as [|r0 rs].
      * assert (Hno : forall r, ~ listed sets off r).
        { intros r Hr. now apply (arange_ranges_in _ _ _ _ _ Hsrt Ers) in Hr. }
        destruct (h_unit h) as [b|] eqn:Eb.
        2:{ eapply IH; [auto|auto| |exact H]. apply inv_skip; auto. intros off' r _ _ Hr _.
            destruct (unit_range_root _ _ _ _ _ Eo Hno Eb Hr) as (b' & attrs & E & _). discriminate. }
        ib H s Es. apply g_ok in Es. ib H x Ed. destruct x as [[d s'] z]. destruct d as [d|].
        2:{ eapply IH; [auto|auto| |exact H]. apply inv_skip; auto. intros off' r _ _ Hr _.
            destruct (unit_range_root _ _ _ _ _ Eo Hno Eb Hr) as (b' & attrs & E & (o & tag & ch & s1 & E1)).
            injection E as <-. rewrite E1 in Es. injection Es as <-. cbn [read_abbreviation] in Ed. discriminate. }
        ib H y Ey. destruct y as [ra lang]. ib H rs2 Er2.
        destruct (HB eq_refl b s d s' z ra lang rs2 eq_refl Es Ed Ey Er2) as [HB1 HB2].
        eapply IH; [auto|auto| |exact H]. apply (inv_push _ _ _ _ h off); auto. repeat split; auto.
      * eapply IH; [auto|auto| |exact H]. apply (inv_push _ _ _ _ h off); auto.
        { unfold unit_of, new_deferred. cbn [u_offset u_main u_dwo]. auto. }
        { intros r Hr. now apply HA. }
        { intros r Hr _. apply HA; auto. discriminate. }
Qed.

(** ** Searching *)
Lemma set_max_nth : forall l mx i x, nth_error (set_max mx l) i = Some x ->
  exists y, nth_error l i = Some y /\ ur_unit x = ur_unit y /\ ur_range x = ur_range y /\ mx <= ur_max x /\
    forall j z, (j <= i)%nat -> nth_error l j = Some z -> r_end (ur_range z) <= ur_max x.
Proof.
  induction l as [|y l IH]; intros mx i x H; cbn [set_max] in H; [destruct i; discriminate|].
  destruct i as [|i]; cbn [nth_error] in H.
  - injection H as <-. exists y. cbn [ur_unit ur_range ur_max nth_error]. repeat split; auto; try lia.
    intros j z Hj Hz. destruct j; [|lia]. injection Hz as <-. lia.
  - destruct (IH _ _ _ H) as (z & E1 & E2 & E3 & E4 & E5). exists z. cbn [nth_error]. repeat split; auto; try lia.
    intros j w Hj Hw. destruct j as [|j]; cbn [nth_error] in Hw; [injection Hw as <-; lia|].
    apply (E5 j); auto. lia.
Qed.
Lemma set_max_nth_of : forall l mx i y, nth_error l i = Some y -> exists x, nth_error (set_max mx l) i = Some x /\
  ur_unit x = ur_unit y /\ ur_range x = ur_range y.
Proof.
  induction l as [|z l IH]; intros mx i y H; [destruct i; discriminate|]. cbn [set_max].
  destruct i as [|i]; cbn [nth_error] in *; [injection H as <-|auto].
  eexists. split; [reflexivity|]. auto.
Qed.
Lemma set_max_sorted : forall l mx, StronglySorted (fun a b => r_begin (ur_range a) <= r_begin (ur_range b)) l ->
  StronglySorted (fun a b => r_begin (ur_range a) <= r_begin (ur_range b)) (set_max mx l).
Proof.
  intros l mx H. revert mx. induction H as [|y l H IH Hf]; intros mx; cbn [set_max]; constructor; auto.
  apply Forall_forall. intros x Hx. apply In_nth_error in Hx. destruct Hx as [i Hi].
  destruct (set_max_nth _ _ _ _ Hi) as (z & E1 & _ & E3 & _). cbn [ur_range]. rewrite E3.
  rewrite Forall_forall in Hf. apply Hf. eapply nth_error_In; eauto.
Qed.

Lemma take_while_rev : forall A (p : A -> bool) l n x, nth_error l n = Some x ->
  (forall j y, (n <= j)%nat -> nth_error l j = Some y -> p y = true) -> In x (take_while p (rev l)).
Proof.
  intros A p. induction l as [|y l IH] using rev_ind; intros n x Hn Hp; [destruct n; discriminate|].
  rewrite rev_app_distr. cbn [rev app take_while].
  assert (Hlast : nth_error (l ++ [y]) (length l) = Some y) by (rewrite nth_error_app2, Nat.sub_diag by lia; reflexivity).
  assert (Hle : (n <= length l)%nat) by (apply nth_error_lt in Hn; rewrite app_length in Hn; cbn [length] in Hn; lia).
  rewrite (Hp _ _ Hle Hlast). destruct (Nat.eq_dec n (length l)) as [->|Hne].
  - left. congruence.
  - right. rewrite nth_error_app1 in Hn by lia. apply (IH n); auto. intros j z Hj Hz. apply (Hp j); auto.
    rewrite nth_error_app1; auto. eapply nth_error_lt; eauto.
Qed.
Lemma take_while_in : forall A (p : A -> bool) l x, In x (take_while p l) -> In x l.
Proof.
  intros A p. induction l as [|y l IH]; intros x H; cbn [take_while] in H; [auto|].
  destruct (p y); [|destruct H]. destruct H as [<-|H]; [now left|right; auto].
Qed.

Lemma find_range_in : forall pick l us probe x, StronglySorted (fun a b => r_begin (ur_range a) <= r_begin (ur_range b)) l ->
  (In x (find_units_range pick (Units (set_max 0 l) us) probe (probe + 1)) <->
   In x (set_max 0 l) /\ covers (ur_range x) probe).
Proof.
  intros pick l us probe x Hs. unfold find_units_range. cbn [us_ranges].
  set (rs := set_max 0 l). set (f := fun r => r_begin (ur_range r) ?= probe + 1).
  pose proof (set_max_sorted l 0 Hs) as Hs'. fold rs in Hs'.
  pose proof (key_cmp_sorted _ (fun r => r_begin (ur_range r)) (probe + 1) rs Hs') as Hc.
  pose proof (bsearch_spec _ pick rs f Hc) as B.
  set (pos := match binary_search_by pick rs f with inl i => i | inr i => i end).
  (* what covers the address is before the position *)
  assert (Hpos : forall j y, nth_error rs j = Some y -> r_begin (ur_range y) <= probe -> (j < pos)%nat).
  { intros j y Hj Hy. unfold pos. destruct (binary_search_by pick rs f) as [i|n].
    - destruct B as (z & Hz & Ez). unfold f in Ez. apply N.compare_eq in Ez.
      destruct (Nat.lt_ge_cases j i) as [|Hge]; auto. exfalso.
      destruct (Nat.eq_dec j i) as [->|Hne]; [assert (y = z) by congruence; subst; lia|].
      pose proof (StronglySorted_nth _ _ _ i j _ _ Hs' ltac:(lia) Hz Hj) as Hle. cbv beta in Hle. lia.
    - destruct B as (_ & _ & Hgt). destruct (Nat.lt_ge_cases j n) as [|Hge]; auto. exfalso.
      specialize (Hgt _ _ Hj Hge). unfold f in Hgt. rewrite N.compare_gt_iff in Hgt. lia. }
  rewrite filter_In. split.
  - intros [Hin Hb]. apply take_while_in in Hin. apply in_rev in Hin.
    assert (Hin' : In x rs) by (rewrite <- (firstn_skipn pos rs); apply in_app_iff; now left).
    split; auto. apply negb_true_iff in Hb. apply orb_false_iff in Hb. destruct Hb as [Hb1 Hb2].
    apply N.leb_gt in Hb1. apply N.leb_gt in Hb2. unfold covers. lia.
  - intros [Hin Hcov]. unfold covers in Hcov. split.
    + apply In_nth_error in Hin. destruct Hin as [n Hn].
      assert (Hlt : (n < pos)%nat) by (apply (Hpos n x Hn); lia).
      apply (take_while_rev _ _ _ n).
      * rewrite <- (firstn_skipn pos rs) in Hn. rewrite nth_error_app1 in Hn; auto.
        rewrite firstn_length. apply nth_error_lt in Hn. rewrite firstn_skipn in Hn. lia.
      * intros j y Hj Hy. apply N.ltb_lt.
        assert (Hy' : nth_error rs j = Some y).
        { rewrite <- (firstn_skipn pos rs). rewrite nth_error_app1; auto. eapply nth_error_lt; eauto. }
        destruct (set_max_nth _ _ _ _ Hy') as (z & _ & _ & _ & _ & Hmax).
        destruct (set_max_nth _ _ _ _ Hn) as (w & Hw & _ & Ew & _ & _).
        specialize (Hmax n w Hj Hw). rewrite <- Ew in Hmax. lia.
    + apply negb_true_iff. apply orb_false_iff. split; apply N.leb_gt; lia.
Qed.

(** ** Theorems *)

(** The units consulted are those with a range that contains the address. *)
Theorem C38_consulted : forall m srt pick sc us sets hs probe,
  sorter_ok srt -> units_parse m srt pick sc = Ok us -> sc_aranges sc = Some sets -> sc_units sc = Some hs ->
  (forall h, In h hs -> unit_wf h) -> probe + 1 < two64 ->
  exists l, find_units m pick us probe = Ok l /\
    (forall i, In i l -> exists h off u, In h hs /\ h_offset h = Some off /\ h_kind h = KOther /\
       nnth i (us_units us) = Some u /\ unit_of h off u /\ exists r, unit_range sets h r /\ covers r probe) /\
    (forall h off r, In h hs -> h_offset h = Some off -> h_kind h = KOther -> unit_range sets h r -> covers r probe ->
       exists i u, In i l /\ nnth i (us_units us) = Some u /\ unit_of h off u).
Proof.
  intros m srt pick sc us sets hs probe Hsrt H Hsets Hhs Hwf Hp. unfold units_parse in H. rewrite Hsets, Hhs in H.
  cbn [g of_option bind] in H. ib H x Ex. destruct x as [rs us0]. injection H as <-.
  assert (HR : ranges_ok sets hs rs us0).
  { apply (units_loop_ok m srt pick sets hs [] [] [] rs us0); auto. split; [intros x []|intros h off r []]. }
  destruct HR as [HR1 HR2].
  destruct (sorts_by_key srt _ (fun r => r_begin (ur_range r)) rs Hsrt) as [Hperm Hs].
  set (l := srt _ (by_key (fun r => r_begin (ur_range r))) rs) in *.
  unfold find_units, add64. rewrite uadd_small by auto. cbn [bind]. eexists. split; [reflexivity|].
  assert (Hfind : forall x, In x (find_units_range pick (Units (set_max 0 l) us0) probe (probe + 1)) <->
    In x (set_max 0 l) /\ covers (ur_range x) probe) by (intros; now apply find_range_in).
  split.
  - intros i Hi. apply in_map_iff in Hi. destruct Hi as (x & <- & Hx). apply Hfind in Hx. destruct Hx as [Hx Hcov].
    apply In_nth_error in Hx. destruct Hx as [k Hk]. destruct (set_max_nth _ _ _ _ Hk) as (y & Hy & E1 & E2 & _).
    assert (Hin : In y rs) by (apply (Permutation_in _ (Permutation_sym Hperm)); eapply nth_error_In; eauto).
    destruct (HR1 y Hin) as (u & h & off & F1 & F2 & F3 & F4 & F5 & F6).
    exists h, off, u. cbn [us_units]. rewrite E1. repeat split; auto; try apply F5.
    exists (ur_range y). split; auto. now rewrite <- E2.
  - intros h off r Hh Ho Hk Hr Hcov. destruct (HR2 h off r Hh Ho Hk Hr) as (x & u & F1 & F2 & F3 & F4); [unfold covers in Hcov; lia|].
    apply (Permutation_in _ Hperm) in F1. apply In_nth_error in F1. destruct F1 as [k Hk'].
    destruct (set_max_nth_of _ 0 _ _ Hk') as (y & Hy & E1 & E2).
    exists (ur_unit x), u. cbn [us_units]. split; [|auto]. apply in_map_iff. exists y. split; auto. apply Hfind.
    split; [eapply nth_error_In; eauto|]. now rewrite E2, F2.
Qed.
Print Assumptions C38_consulted.

(** At the last address the search panics if overflow is checked for; *)
Theorem C38_last_refuted : exists sc us, units_parse Checked stable first sc = Ok us /\
  find_units Checked first us (two64 - 1) = Panic.
Proof. exists (Sections (Some []) (Some [])). eexists. split; reflexivity. Qed.
(** otherwise it consults no unit, and none could contain that address. *)
Theorem C38_last_wrapping : forall pick us, find_units Wrapping pick us (two64 - 1) = Ok [].
Proof.
  intros pick us. unfold find_units. replace (add64 Wrapping (two64 - 1) 1) with (@Ok N 0) by reflexivity.
  cbn [bind]. unfold find_units_range.
  match goal with |- context [take_while ?p ?x] => generalize (take_while p x) end. intros l. f_equal. induction l as [|x l IH]; [reflexivity|]. cbn [filter].
  replace (0 <=? r_begin (ur_range x)) with true by (symmetry; apply N.leb_le; lia). rewrite orb_true_r. cbn [negb]. exact IH.
Qed.
Print Assumptions C38_last_refuted.
Print Assumptions C38_last_wrapping.

(** ** Example: a unit in the table, with two sets, and two that are not in it,
    one of which has nothing but a line program *)
Definition ex_unit (attrs : list (option attr)) (lines : option lprog) : body :=
  Body (Some [(11, IDie (Die TOther false attrs))]) (fun _ => None) 4
    (fun i => if i =? 2 then Some 24576 else None)
    (fun off => if off =? 16 then Some [Range 65536 65540; Range 70000 70000] else None) None lines.
Definition ex_headers : list uheader :=
  [UHeader (Some 0) KOther 11 100 None None;
   UHeader (Some 100) KOther 11 100 (Some (ex_unit [Some (Attr ALow (VAddrIndex 2)); Some (Attr AHigh (VUdata 4096))] None)) None;
   UHeader (Some 150) KType 11 100 None None;
   UHeader (Some 200) KOther 11 100 (Some (ex_unit [Some (Attr AName VOther)] (Some ex_prog))) None;
   UHeader (Some 300) KOther 11 100 (Some (ex_unit [Some (Attr ALow (VAddr 0)); Some (Attr ARanges (VRanges (Some (Some 16))))] None)) None].
Definition ex_sets : list aset :=
  [ASet 0 (Some [Some (Range 4096 4100, 4); None]); ASet 7 (Some []); ASet 0 (Some [Some (Range 16 32, 16); Some (Range 40 40, 0)])].
Definition ex_sections : sections := Sections (Some ex_sets) (Some ex_headers).
Example C38_example : exists us, units_parse Checked stable first ex_sections = Ok us /\
  map u_offset (us_units us) = [0; 100; 200; 300] /\
  find_units Checked first us 4097 = Ok [2; 0] /\ find_units Checked first us 4100 = Ok [2] /\
  find_units Checked first us 31 = Ok [0] /\ find_units Checked first us 32 = Ok [] /\
  find_units Checked first us 28671 = Ok [1] /\ find_units Checked first us 65539 = Ok [3] /\
  find_units Checked first us 0 = Ok [].
Proof. eexists. split; [reflexivity|]. repeat split; vm_compute; reflexivity. Qed.

(** The theorem applied to it *)
Lemma unique_short : forall attrs n, (length (filter (fun o => match o with Some a => if aname_dec (a_name a) n then true else false | None => false end) attrs) <= 1)%nat ->
  unique attrs n.
Proof.
  intros attrs n. induction attrs as [|a attrs IH]; intros H i j x y Hi Hj Ex Ey; [destruct i; discriminate|].
  set (p := fun o : option attr => match o with Some a => if aname_dec (a_name a) n then true else false | None => false end) in *.
  assert (Hp : forall o, (exists v, o = Some (Attr n v)) -> p o = true).
  { intros o [v ->]. unfold p. cbn [a_name]. now destruct (aname_dec n n). }
  assert (Hno : p a = true -> forall k o, nth_error attrs k = Some o -> p o = true -> False).
  { intros Ha k o Hk Ho. cbn [filter] in H. rewrite Ha in H. cbn [length] in H.
    assert (Hin : In o (filter p attrs)) by (apply filter_In; split; auto; eapply nth_error_In; eauto).
    destruct (filter p attrs); [destruct Hin|cbn [length] in H; lia]. }
  destruct i as [|i], j as [|j]; cbn [nth_error] in Hi, Hj; auto.
  - exfalso. injection Hi as ->. eapply Hno; eauto.
  - exfalso. injection Hj as ->. eapply Hno; eauto.
  - f_equal. eapply IH; eauto. cbn [filter] in H. destruct (p a); cbn [length] in H; lia.
Qed.
Lemma ex_units_wf : forall h, In h ex_headers -> unit_wf h.
Proof.
  intros h Hin b attrs Hb (off & tag & ch & s & Hr).
  assert (Hu : unique attrs ALow /\ unique attrs AHigh /\ unique attrs ARanges).
  { cbn [In ex_headers] in Hin. repeat destruct Hin as [<-|Hin]; cbn [h_unit] in Hb; try discriminate; try destruct Hin;
      injection Hb as <-; cbn [b_entries ex_unit] in Hr; injection Hr as _ _ _ <- _;
      (split; [|split]); apply unique_short; vm_compute; lia. }
  destruct Hu as (U1 & U2 & U3). split; auto. split; auto. split; auto. intros lo hi (v & Hv & Hlo) (w & Hw & Hhi).
  cbn [In ex_headers] in Hin. repeat destruct Hin as [<-|Hin]; cbn [h_unit] in Hb; try discriminate; try destruct Hin;
    injection Hb as <-; cbn [b_entries ex_unit] in Hr; injection Hr as _ _ _ <- _; cbn in Hv, Hw.
  - destruct Hv as [Hv|[Hv|[]]]; [|discriminate]. destruct Hw as [Hw|[Hw|[]]]; [discriminate|].
    injection Hv as <-. injection Hw as <-. destruct Hlo as [Hlo|(i & Hi & Ha)]; [discriminate|]. injection Hi as <-.
    cbn in Ha. injection Ha as <-. destruct Hhi as [[Hhi|(i & Hi & _)]|(n & Hn & ->)]; try discriminate.
    injection Hn as <-. reflexivity.
  - destruct Hv as [Hv|[]]; discriminate.
  - destruct Hw as [Hw|[Hw|[]]]; discriminate.
Qed.
Example C38_consulted_example : forall pick us, units_parse Checked stable pick ex_sections = Ok us ->
  exists l i u, find_units Checked pick us 24580 = Ok l /\ In i l /\ nnth i (us_units us) = Some u /\ u_offset u = 100.
Proof.
  intros pick us Hus.
  destruct (C38_consulted Checked stable pick ex_sections us ex_sets ex_headers 24580 stable_ok Hus eq_refl eq_refl ex_units_wf)
    as (l & Hl & _ & Hc); [reflexivity|].
  assert (Hno : forall r, ~ listed ex_sets 100 r).
  { intros r (a & es & len & Hin & Hu & _). cbn [In ex_sets] in Hin. destruct Hin as [<-|[<-|[<-|[]]]]; discriminate. }
  destruct (Hc (nth 1 ex_headers (UHeader None KType 0 0 None None)) 100 (Range 24576 28672)) as (i & u & H1 & H2 & H3).
  - right. now left.
  - reflexivity.
  - reflexivity.
  - eapply RangeDeclared; [reflexivity|exact Hno|reflexivity|do 4 eexists; reflexivity|].
    right. split.
    + intros off [Hx|[Hx|[]]]; discriminate.
    + exists 24576, 28672. split; [exists (VAddrIndex 2); split; [now left|right; exists 2; auto]|]. split; auto.
      exists (VUdata 4096). split; [right; now left|]. right. exists 4096. auto.
  - unfold covers. cbn [r_begin r_end]. lia.
  - exists l, i, u. split; auto. split; auto. split; auto. apply H3.
Qed.
