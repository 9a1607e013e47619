(** * Properties of searching, decoding and reordering (src/util.rs)

    Claims C01-C05, C52, C54 of /verif/properties.jsonl. *)

From Verif Require Import Base Util UtilProofs.
Local Open Scope N_scope.

(** ** C01: lookup in a sorted table *)

(** Specification: [i] is the first of the entries sharing the greatest key
    that does not exceed [x]. *)
Definition best_match {A} (key : A -> N) (l : list A) (x : N) (i : nat) : Prop :=
  exists e, nth_error l i = Some e /\ key e <= x /\
    (forall j y, nth_error l j = Some y -> key y <= x -> key y <= key e) /\
    (forall j y, (j < i)%nat -> nth_error l j = Some y -> key y <> key e).
(** Weaker: [i] is one of these entries. *)
Definition some_best_match {A} (key : A -> N) (l : list A) (x : N) (i : nat) : Prop :=
  exists e, nth_error l i = Some e /\ key e <= x /\
    (forall j y, nth_error l j = Some y -> key y <= x -> key y <= key e).
Definition sorted_by {A} (key : A -> N) (l : list A) : Prop :=
  StronglySorted (fun a b => key a <= key b) l.

(** What holds: nothing is found iff all keys are above; what is found is
    always one of the best matches; it is the first one unless there is no
    exact match and the run of best matches starts at index 0, in which case
    it is the last one.  Missing for the full claim: that exception. *)
Theorem C01_lookup_best_match_partial : forall A (key : A -> N) l x,
  sorted_by key l ->
  (find_match_or_lower_bound_by_key l x key = None <-> (forall y, In y l -> x < key y)) /\
  (forall i, find_match_or_lower_bound_by_key l x key = Some i ->
     some_best_match key l x i /\
     (best_match key l x i \/
      (exists h e, nth_error l 0 = Some h /\ nth_error l i = Some e /\
         key h = key e /\ key e < x /\
         forall j y, (i < j)%nat -> nth_error l j = Some y -> key y <> key e))).
Proof.
  intros A key l x Hs. apply StronglySorted_ksorted in Hs.
  destruct (flb_cases key l x Hs) as [[H1 H2]|[(i & e & H1 & H2 & H3 & H4)|(i & e & H1 & H2 & H3 & H4 & H5)]].
  - split; [tauto|]. congruence.
  - split.
    { split; [congruence|]. intros Hall. exfalso.
      specialize (Hall e (nth_error_In _ _ H2)). lia. }
    intros i' Hi'. assert (i' = i) by congruence. subst i'.
    assert (Hb : forall j y, nth_error l j = Some y -> key y <= x -> key y <= key e) by (intros; lia).
    split; [exists e; repeat split; auto; lia|]. left. exists e. repeat split; auto; try lia.
    intros j y Hj Hy. eapply H4; eauto.
  - split.
    { split; [congruence|]. intros Hall. exfalso.
      specialize (Hall e (nth_error_In _ _ H2)). lia. }
    intros i' Hi'. assert (i' = i) by congruence. subst i'.
    assert (Hb : forall j y, nth_error l j = Some y -> key y <= x -> key y <= key e).
    { intros j y Hy. apply H4. eapply nth_error_In; eauto. }
    split; [exists e; repeat split; auto; lia|].
    destruct H5 as [[_ Hf]|[(h & Hh & Hhe) Hl]].
    + left. exists e. repeat split; auto; try lia. intros j y Hj Hy. eapply Hf; eauto.
    + right. exists h, e. repeat split; auto. intros j y Hj Hy. eapply Hl; eauto.
Qed.

(** The documented statement holds for every table whose first two entries
    have different keys. *)
Theorem C01_lookup_best_match_distinct_head : forall A (key : A -> N) l x,
  sorted_by key l ->
  (forall a b, nth_error l 0 = Some a -> nth_error l 1 = Some b -> key a <> key b) ->
  forall i, find_match_or_lower_bound_by_key l x key = Some i <-> best_match key l x i.
Proof.
  intros A key l x Hs Hd i.
  destruct (C01_lookup_best_match_partial A key l x Hs) as [Hn Hsome].
  assert (Hfwd : forall i, find_match_or_lower_bound_by_key l x key = Some i -> best_match key l x i).
  { intros i0 Hi0. destruct (Hsome _ Hi0) as [Hb [Hbest|(h & e & Hh & He & Hhe & Hlt & Hlast)]]; auto.
    destruct Hb as (e' & He' & Hle & Hmax). assert (e' = e) by congruence. subst e'.
    destruct i0 as [|i0]; [exists e; repeat split; auto; intros; lia|].
    exfalso. destruct (nth_error_lt_some _ l 1) as [s Hs1].
    { apply nth_error_lt in He. lia. }
    apply StronglySorted_ksorted in Hs.
    assert (key h <= key s) by (apply (Hs 0%nat 1%nat); auto; lia).
    assert (key s <= key e) by (apply (Hs 1%nat (S i0)); auto; lia).
    apply (Hd h s); auto. lia. }
  split; auto.
  intros Hb. destruct (find_match_or_lower_bound_by_key l x key) as [i'|] eqn:E.
  - specialize (Hfwd _ eq_refl). f_equal.
    destruct Hb as (e & He & Hle & Hmax & Hfst). destruct Hfwd as (e' & He' & Hle' & Hmax' & Hfst').
    assert (key e = key e').
    { specialize (Hmax _ _ He' Hle'). specialize (Hmax' _ _ He Hle). lia. }
    destruct (lt_eq_lt_dec i i') as [[Hlt|Heq]|Hlt]; auto; exfalso.
    + apply (Hfst' _ _ Hlt He). auto.
    + apply (Hfst _ _ Hlt He'). auto.
  - exfalso. destruct Hb as (e & He & Hle & _).
    destruct Hn as [Hn _]. specialize (Hn eq_refl e (nth_error_In _ _ He)). lia.
Qed.

(** The documented claim is false in general. *)
Theorem C01_lookup_best_match_refuted :
  exists (l : list N) x i, sorted_by (fun a => a) l /\
    find_match_or_lower_bound_by_key l x (fun a => a) = Some i /\
    ~ best_match (fun a => a) l x i.
Proof.
  exists [3; 3; 7], 5, 1%nat. split; [|split].
  - repeat constructor; lia.
  - reflexivity.
  - intros (e & He & _ & _ & Hf). injection He as <-.
    apply (Hf 0%nat 3); auto; lia.
Qed.

Example C01_example :
  sorted_by (fun a => a) [1; 3; 3; 3; 7; 7] /\
  find_match_or_lower_bound_by_key [1; 3; 3; 3; 7; 7] 5 (fun a => a) = Some 1%nat /\
  find_match_or_lower_bound_by_key [1; 3; 3; 3; 7; 7] 9 (fun a => a) = Some 4%nat /\
  find_match_or_lower_bound_by_key [1; 3; 3; 3; 7; 7] 3 (fun a => a) = Some 1%nat /\
  find_match_or_lower_bound_by_key [1; 3; 3; 3; 7; 7] 0 (fun a => a) = None.
Proof. repeat split; repeat constructor; lia. Qed.

(** ** C02: exact match *)

(** [f] compares an element with the item looked for; the table is ordered
    with respect to it. *)
Theorem C02_lowest_match : forall A (l : list A) (f : A -> comparison),
  cmp_sorted f l ->
  (forall i, find_lowest_match_by l f = Some i <->
     (exists x, nth_error l i = Some x /\ f x = Eq) /\
     (forall j y, (j < i)%nat -> nth_error l j = Some y -> f y <> Eq)) /\
  (find_lowest_match_by l f = None <-> (forall x, In x l -> f x <> Eq)).
Proof.
  intros A l f Hs.
  assert (Hfwd : forall i, find_lowest_match_by l f = Some i ->
    (exists x, nth_error l i = Some x /\ f x = Eq) /\
     (forall j y, (j < i)%nat -> nth_error l j = Some y -> f y <> Eq)).
  { intros i Hi. destruct (find_lowest_match_by_some _ _ _ _ Hs Hi) as [H1 H2].
    split; auto. intros j y Hj Hy. rewrite (H2 j y Hj Hy). discriminate. }
  split.
  - intros i. split; auto. intros [(x & Hx & Hfx) Hmin].
    destruct (find_lowest_match_by l f) as [i'|] eqn:E.
    + destruct (Hfwd _ eq_refl) as [(x' & Hx' & Hfx') Hmin']. f_equal.
      destruct (lt_eq_lt_dec i i') as [[Hlt|Heq]|Hlt]; auto; exfalso.
      * now apply (Hmin' _ _ Hlt Hx).
      * now apply (Hmin _ _ Hlt Hx').
    + exfalso. apply (find_lowest_match_by_none _ _ _ Hs E x); auto.
      eapply nth_error_In; eauto.
  - split; [apply find_lowest_match_by_none; auto|].
    intros Hall. destruct (find_lowest_match_by l f) as [i'|] eqn:E; auto.
    destruct (Hfwd _ eq_refl) as [(x & Hx & Hfx) _]. exfalso.
    apply (Hall x); auto. eapply nth_error_In; eauto.
Qed.

Example C02_example :
  let f := fun k => k ?= 4 in
  cmp_sorted f [1; 4; 4; 6] /\ find_lowest_match_by [1; 4; 4; 6] f = Some 1%nat /\
  find_lowest_match_by [1; 3; 5; 6] f = None.
Proof.
  split; [|split; reflexivity].
  intros i j a b Hij Ha Hb. simpl.
  do 5 (destruct i as [|i]; [do 5 (destruct j as [|j]; [simpl in *; try lia; try discriminate; injection Ha as <-; injection Hb as <-; split; vm_compute; congruence|]); simpl in Hb; destruct j; discriminate|]).
  simpl in Ha. destruct i; discriminate.
Qed.

(** ** C03: LEB128 *)

(** [uleb_enc k v] is the encoding of [v] in [k + 1] bytes: seven bits per byte,
    least significant first, bit 7 set in all but the last. In a release
    build every padding works; with overflow checks up to the 10 bytes a
    64-bit value can need. *)
Theorem C03_uleb128_roundtrip : forall k m v rest,
  v < 2 ^ 64 -> v < 2 ^ (7 * N.of_nat (S k)) ->
  (m = Wrapping \/ (k <= 9)%nat) ->
  read_u64_leb128 m (uleb_enc k v ++ rest) = Ok (v, rest).
Proof. intros. now apply read_u64_leb128_enc. Qed.

Theorem C03_sleb128_roundtrip : forall k m (v : Z) rest,
  (k <= 9)%nat -> (- 2 ^ 63 <= v < 2 ^ 63)%Z ->
  (- 2 ^ (7 * Z.of_nat k + 6) <= v < 2 ^ (7 * Z.of_nat k + 6))%Z ->
  read_i64_leb128 m (sleb_enc k v ++ rest) = Ok (v, rest).
Proof. exact read_i64_leb128_enc. Qed.

(** Exactly the bytes up to the first one without continuation bit are
    consumed, the value fits 64 bits, and only a missing terminator makes a
    read fail. *)
Theorem C03_uleb128_consumes : forall m r v r',
  is_bytes r -> read_u64_leb128 m r = Ok (v, r') ->
  v < 2 ^ 64 /\
  exists pre b, r = pre ++ b :: r' /\ Forall (fun x => 128 <= x) pre /\ b < 128.
Proof.
  intros m r v r' Hb H. split; [eapply read_u64_leb128_lt; eauto|].
  destruct (read_u64_leb128_consumes _ _ _ _ H) as (pre & b & -> & Hp & Hl).
  apply Forall_app in Hb. destruct Hb as [Hb1 Hb2]. inversion Hb2; subst.
  exists pre, b. repeat split; auto.
  - rewrite Forall_forall in *. intros x Hx. specialize (Hp x Hx). specialize (Hb1 x Hx).
    pose proof (land_128 x Hb1). lia.
  - pose proof (land_128 b ltac:(auto)). lia.
Qed.
Theorem C03_uleb128_total : forall r, is_bytes r ->
  (exists v r', read_u64_leb128 Wrapping r = Ok (v, r')) \/
  (read_u64_leb128 Wrapping r = Err ENone /\ Forall (fun x => 128 <= x) r).
Proof.
  intros r Hb. destruct (safe_read_u64_leb128 r) as [H1 H2].
  destruct (read_u64_leb128 Wrapping r) as [[v r']|k| |] eqn:E; try congruence; eauto.
  right. assert (Hk : k = ENone).
  { destruct r as [|b r]; simpl in E; [congruence|].
    destruct (N.land b 128 =? 0); [discriminate|]. clear -E. revert E.
    generalize (N.land b 127) 7. induction r as [|c r IH]; intros a s E; simpl in E; [congruence|].
    destruct (N.land c 128 =? 0); unfold shl64 in E; destruct (s <? 64); simpl in E; try discriminate; eauto. }
  subst k. split; auto. apply read_u64_leb128_none in E.
  unfold is_bytes in Hb. rewrite Forall_forall in *. intros x Hx. specialize (E x Hx). specialize (Hb x Hx).
  pose proof (land_128 x Hb). lia.
Qed.

(** Outside of these bounds the claim fails: with overflow checks an 11 byte
    padding of zero panics, and without them an over-long signed encoding
    decodes to a wrong value. *)
Theorem C03_uleb128_overlong_refuted :
  exists k v, v < 2 ^ 64 /\ v < 2 ^ (7 * N.of_nat (S k)) /\
    read_u64_leb128 Checked (uleb_enc k v) = Panic.
Proof. exists 10%nat, 0. repeat split; reflexivity. Qed.
Theorem C03_sleb128_overlong_refuted :
  exists k v, (- 2 ^ 63 <= v < 2 ^ 63)%Z /\
    read_i64_leb128 Wrapping (sleb_enc k v) = Ok ((-8)%Z, []) /\ v <> (-8)%Z.
Proof. exists 10%nat, (-5000)%Z. split; [lia|]. split; [reflexivity|discriminate]. Qed.

Example C03_example :
  uleb_enc 2 624485 = [229; 142; 38] /\
  read_u64_leb128 Checked ([229; 142; 38] ++ [7]) = Ok (624485, [7]) /\
  sleb_enc 2 (-123456) = [192; 187; 120] /\
  read_i64_leb128 Checked ([192; 187; 120] ++ [7]) = Ok ((-123456)%Z, [7]).
Proof. repeat split; reflexivity. Qed.

(** ** C04: results are in input order *)

(** For every way [handle] may process the sorted addresses, if each of its
    results is a right one ([P]) for the sorted address at its position, then
    the reordered results are right for the inputs at their positions.  In
    particular there are as many results as inputs, and the reordering loop
    neither panics nor runs forever. *)
Theorem C04_results_in_input_order : forall U R slice (extract : R -> list U) put handle
    (P : N -> U -> Prop),
  (forall ts, Permutation slice ts -> StronglySorted N.le ts ->
     exists r, handle ts = Ok r /\ Forall2 P ts (extract r)) ->
  exists r out, with_ordered_elems slice extract put handle = Ok (put r out) /\
    Forall2 P slice out.
Proof.
  intros U R slice extract put handle P H.
  destruct (sorted_elems slice) as [Hp Hs].
  destruct (H _ Hp Hs) as (r & Hr & HP).
  destruct (with_ordered_elems_ok _ _ slice extract put handle P r Hr HP) as (out & H1 & H2).
  eauto.
Qed.

(** In the pointwise case the result is just the map over the inputs. *)
Theorem C04_results_in_input_order_map : forall U slice (g : N -> U),
  with_ordered_elems slice (fun r => r) (fun _ o => o) (fun ts => Ok (map g ts)) = Ok (map g slice).
Proof.
  intros U slice g.
  destruct (with_ordered_elems_ok U (list U) slice (fun r => r) (fun _ o => o)
              (fun ts => Ok (map g ts)) (fun a u => u = g a) _ eq_refl) as (out & H1 & H2).
  - generalize (map fst (isort pair_leb (enumerate slice))). intros l.
    induction l; simpl; constructor; auto.
  - rewrite H1. f_equal. clear H1. induction H2 as [|? ? ? ? E ? IH]; simpl; auto. now rewrite E, IH.
Qed.

(** Errors of [handle] are passed on. *)
Theorem C04_handle_error : forall U R slice (extract : R -> list U) put handle k,
  (forall ts, handle ts = Err k) -> with_ordered_elems slice extract put handle = Err k.
Proof. intros. unfold with_ordered_elems. now rewrite H. Qed.

(** The reordering itself: element [k] ends up at position [indices[k]]. *)
Theorem C04_reorder : forall A (arr : list A) idx,
  Permutation idx (seq 0 (length arr)) ->
  exists arr', reorder arr idx = Ok arr' /\ length arr' = length arr /\
    forall k x t, nth_error arr k = Some x -> nth_error idx k = Some t ->
      nth_error arr' t = Some x.
Proof.
  intros A arr idx Hp. apply reorder_ok. repeat split.
  - rewrite (Permutation_length Hp). apply seq_length.
  - eapply Permutation_NoDup; [symmetry; exact Hp|apply seq_NoDup].
  - intros t Ht. eapply Permutation_in in Ht; [|exact Hp]. apply in_seq in Ht. lia.
Qed.

Example C04_example :
  reorder [10; 20; 30; 40; 50] [2; 0; 1; 4; 3]%nat = Ok [20; 30; 10; 50; 40] /\
  with_ordered_elems [7; 3; 3; 9; 1] (fun r => r) (fun _ o => o) (fun ts => Ok (map (fun a => a * 2) ts))
  = Ok [14; 6; 6; 18; 2].
Proof. split; reflexivity. Qed.

(** ** C05: hexadecimal *)

(** The hexadecimal digits with their values: '0'-'9', 'a'-'f', 'A'-'F'. *)
Definition hex_digits : list (N * N) :=
  combine (map (fun i => 48 + i) [0;1;2;3;4;5;6;7;8;9]) [0;1;2;3;4;5;6;7;8;9] ++
  combine (map (fun i => 97 + i) [0;1;2;3;4;5]) [10;11;12;13;14;15] ++
  combine (map (fun i => 65 + i) [0;1;2;3;4;5]) [10;11;12;13;14;15].
Definition digits_of (text : list N) (ds : list N) : Prop :=
  Forall2 (fun c d => In (c, d) hex_digits) text ds.
(** The number denoted by digits, most significant first. *)
Definition hex_number (ds : list N) : N := fold_left (fun v d => 16 * v + d) ds 0.

Lemma hex_digit_iff : forall c d, ascii_to_hexdigit c = Some d <-> In (c, d) hex_digits.
Proof.
  intros c d. split.
  - unfold ascii_to_hexdigit. intros H.
    destruct ((48 <=? c) && (c <=? 57)) eqn:E1.
    { injection H as <-. assert (Hc : 48 <= c <= 57) by lia.
      assert (X : c = 48 \/ c = 49 \/ c = 50 \/ c = 51 \/ c = 52 \/ c = 53 \/ c = 54 \/ c = 55 \/ c = 56 \/ c = 57) by lia.
      clear E1 Hc. repeat (destruct X as [->|X]; [simpl; tauto|]). subst. simpl. tauto. }
    destruct ((97 <=? c) && (c <=? 102)) eqn:E2.
    { injection H as <-. assert (Hc : 97 <= c <= 102) by lia.
      assert (X : c = 97 \/ c = 98 \/ c = 99 \/ c = 100 \/ c = 101 \/ c = 102) by lia.
      clear E1 E2 Hc. repeat (destruct X as [->|X]; [simpl; tauto|]). subst. simpl. tauto. }
    destruct ((65 <=? c) && (c <=? 70)) eqn:E3; [|discriminate].
    injection H as <-. assert (Hc : 65 <= c <= 70) by lia.
    assert (X : c = 65 \/ c = 66 \/ c = 67 \/ c = 68 \/ c = 69 \/ c = 70) by lia.
    clear E1 E2 E3 Hc. repeat (destruct X as [->|X]; [simpl; tauto|]). subst. simpl. tauto.
  - intros H. repeat (destruct H as [E|H]; [injection E as <- <-; reflexivity|]). destruct H.
Qed.
Lemma digits_of_iff : forall text ds,
  Forall2 (fun c d => ascii_to_hexdigit c = Some d) text ds <-> digits_of text ds.
Proof.
  intros text ds. split; intros H; induction H; constructor; auto; now apply hex_digit_iff.
Qed.
Lemma hex_val_snoc : forall ds d, hex_val (ds ++ [d]) = 16 * hex_val ds + d.
Proof.
  induction ds as [|x ds IH]; intros d; simpl; [change (nlen []) with 0; lia|].
  rewrite IH, nlen_app, N.pow_add_r. change (16 ^ nlen [d]) with 16. lia.
Qed.
Lemma hex_number_val : forall ds, hex_val ds = hex_number ds.
Proof.
  intros ds. unfold hex_number.
  induction ds as [|d ds IH] using rev_ind; auto.
  rewrite fold_left_app, hex_val_snoc, <- IH. simpl. lia.
Qed.

(** Up to 16 digits denote their number, in both cases. *)
Theorem C05_hex_value : forall m text ds,
  digits_of text ds -> (length text <= 16)%nat -> from_radix_16 m text = Ok (hex_number ds).
Proof.
  intros m text ds H Hl. rewrite <- hex_number_val. apply from_radix_16_ok; auto. now apply digits_of_iff.
Qed.
(** Text with anything but digits in it is rejected, in a build without
    overflow checks, at any length. *)
Theorem C05_hex_reject : forall m text c v,
  In c text -> (forall d, ~ In (c, d) hex_digits) -> from_radix_16 m text <> Ok v.
Proof.
  intros m text c v Hc Hd. eapply from_radix_16_not_ok; eauto.
  destruct (ascii_to_hexdigit c) as [d|] eqn:E; auto. apply hex_digit_iff in E. now apply Hd in E.
Qed.
(** With overflow checks no wrong value is ever returned... *)
Theorem C05_hex_checked : forall text v, from_radix_16 Checked text = Ok v ->
  exists ds, digits_of text ds /\ v = hex_number ds.
Proof.
  intros text v H. apply from_radix_16_loop_checked in H; [|reflexivity].
  destruct H as (ds & Hds & ->). exists ds. split; [now apply digits_of_iff|]. now rewrite <- hex_number_val.
Qed.
(** ... but the release build silently truncates. *)
Theorem C05_hex_long_refuted : exists text ds,
  digits_of text ds /\
  from_radix_16 Wrapping text <> Ok (hex_number ds) /\ safe (from_radix_16 Wrapping text).
Proof.
  exists (repeat 49 17), (repeat 1 17). split; [|split].
  - apply digits_of_iff. repeat constructor.
  - vm_compute. discriminate.
  - vm_compute. split; discriminate.
Qed.
Example C05_example : from_radix_16 Checked [100; 69; 55; 102] = Ok 56959 (* "dE7f" *).
Proof. reflexivity. Qed.

(** ** C52: one-time initialisation *)

(** In every history of attempts: until the first success all results are the
    failures of the attempts and the cell stays empty; afterwards every
    result is that first value and no initialiser is run any more. *)
Theorem C52_once : forall T (fails : list (res T)) v later,
  (forall f, In f fails -> forall x, f <> Ok x) ->
  once_run None (fails ++ Ok v :: later) =
  (map (fun f => (f, true)) fails ++ (Ok v, true) :: map (fun _ => (Ok v, false)) later, Some v).
Proof.
  intros T fails v later. induction fails as [|f fails IH]; intros H.
  - simpl. destruct (once_run (Some v) later) as [rs c] eqn:E.
    assert (Hrs : rs = map (fun _ => (Ok v, false)) later /\ c = Some v).
    { clear H. revert rs c E. induction later as [|g later IH]; intros rs c E; simpl in E.
      - injection E as <- <-. auto.
      - destruct (once_run (Some v) later) as [rs' c'] eqn:E'. injection E as <- <-.
        destruct (IH _ _ eq_refl) as [-> ->]. auto. }
    destruct Hrs as [-> ->]. reflexivity.
  - cbn [app once_run map]. assert (Hf : get_or_try_init None f = (f, None, true)).
    { destruct f as [x|k| |]; auto. exfalso. apply (H (Ok x)) with (x := x); simpl; auto. }
    rewrite Hf. rewrite IH; auto. intros g Hg. apply H. now right.
Qed.
Example C52_example :
  once_run None [Err EInvalidData; Ok 5; Ok 6; Err EOther]
  = ([(Err EInvalidData, true); (Ok 5, true); (Ok 5, false); (Ok 5, false)], Some 5).
Proof. reflexivity. Qed.

(** ** C54: alignment *)

Theorem C54_align_up : forall m w value k,
  w = 2 ^ 32 \/ w = 2 ^ 64 -> 2 ^ k < w ->
  (exists q, (2 ^ k | q) /\ value <= q < w) ->
  exists r, align_up m w value (2 ^ k) = Ok r /\
    (2 ^ k | r) /\ value <= r /\ (forall q, (2 ^ k | q) -> value <= q -> r <= q).
Proof.
  intros m w value k Hw Hk (q & [[|p] ->] & Hq1 & Hq2); apply align_up_spec; auto.
  - assert (P : 2 ^ k <> 0) by (apply N.pow_nonzero; discriminate). lia.
  - assert (Hdiv : (2 ^ k | w)).
    { assert (Hb : exists b, w = 2 ^ b).
      { destruct Hw as [-> | ->]; eexists; reflexivity. }
      destruct Hb as [b ->].
      assert (k < b) by (apply (N.pow_lt_mono_r_iff 2); auto; lia).
      exists (2 ^ (b - k)). rewrite <- N.pow_add_r. f_equal. lia. }
    destruct Hdiv as [e ->].
    assert (P : 2 ^ k <> 0) by (apply N.pow_nonzero; discriminate).
    assert (N.pos p < e) by (apply (N.mul_lt_mono_pos_r (2 ^ k)); lia).
    assert ((N.pos p + 1) * 2 ^ k <= e * 2 ^ k) by (apply N.mul_le_mono_r; lia). lia.
Qed.
(** If there is no representable multiple, a release build returns 0. *)
Theorem C54_align_up_overflow_refuted :
  align_up Wrapping (2 ^ 32) (2 ^ 32 - 1) 4 = Ok 0 /\ align_up Checked (2 ^ 32) (2 ^ 32 - 1) 4 = Panic.
Proof. split; reflexivity. Qed.
Example C54_example : align_up Checked (2 ^ 32) 13 4 = Ok 16 /\ align_up Checked (2 ^ 32) 16 4 = Ok 16.
Proof. split; reflexivity. Qed.

Print Assumptions C01_lookup_best_match_partial.
Print Assumptions C01_lookup_best_match_distinct_head.
Print Assumptions C01_lookup_best_match_refuted.
Print Assumptions C02_lowest_match.
Print Assumptions C03_uleb128_roundtrip.
Print Assumptions C03_sleb128_roundtrip.
Print Assumptions C03_uleb128_consumes.
Print Assumptions C03_uleb128_total.
Print Assumptions C03_uleb128_overlong_refuted.
Print Assumptions C03_sleb128_overlong_refuted.
Print Assumptions C04_results_in_input_order.
Print Assumptions C04_results_in_input_order_map.
Print Assumptions C04_handle_error.
Print Assumptions C04_reorder.
Print Assumptions C05_hex_value.
Print Assumptions C05_hex_reject.
Print Assumptions C05_hex_checked.
Print Assumptions C05_hex_long_refuted.
Print Assumptions C52_once.
Print Assumptions C54_align_up.
Print Assumptions C54_align_up_overflow_refuted.
