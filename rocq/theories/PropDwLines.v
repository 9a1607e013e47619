(** * C40: line information of DWARF *)

From Verif Require Import Base Util UtilProofs Search Text Depmod DepmodSpec PropDepmod Dwarf DwarfSpec Lists Sym Nom.
From Coq Require Import Permutation Sorted.
Local Open Scope N_scope.


(** ** The sequences of a row stream *)
Fixpoint groups (acc l : list prow) : list (list prow * prow) :=
  match l with
  | [] => []
  | r :: l =>
      if p_end r then
        match acc with
        | [] => groups [] l
        | _ => (rev acc, r) :: groups [] l
        end
      else groups (r :: acc) l
  end.
(** Rows of a sequence, last first, only the last one of every address *)
Fixpoint ddr (acc : list prow) : list lrow :=
  match acc with
  | [] => []
  | r :: acc =>
      match ddr acc with
      | last :: rows => if l_address last =? p_address r then conv_row r :: rows
                        else conv_row r :: last :: rows
      | [] => [conv_row r]
      end
  end.
Definition conv_seq (x : list prow * prow) : lseq :=
  let rows := rev (ddr (rev (fst x))) in
  LSeq (match rows with r :: _ => l_address r | [] => 0 end) (p_address (snd x)) rows.

Lemma ddr_nil : forall acc, ddr acc = [] -> acc = [].
Proof.
  intros [|r acc] H; auto. cbn [ddr] in H.
  destruct (ddr acc) as [|x l]; [discriminate|]. destruct (l_address x =? p_address r); discriminate.
Qed.

Lemma parse_rows_groups : forall l acc seqs,
  parse_rows l (ddr acc) seqs = rev seqs ++ map conv_seq (groups acc l).
Proof.
  induction l as [|r l IH]; intros acc seqs.
  - cbn [parse_rows groups map]. now rewrite app_nil_r.
  - cbn [parse_rows groups]. destruct (p_end r) eqn:E.
    + destruct acc as [|a acc].
      * cbn [ddr rev]. apply (IH [] seqs).
      * destruct (rev (ddr (a :: acc))) as [|x rs] eqn:Er.
        { exfalso. assert (H : ddr (a :: acc) = []) by (rewrite <- (rev_involutive (ddr _)), Er; reflexivity).
          apply ddr_nil in H. discriminate. }
        change (@nil lrow) with (ddr []) at 1. rewrite IH. cbn [rev map]. rewrite <- app_assoc. cbn [app].
        f_equal. f_equal. unfold conv_seq. cbn [fst snd]. rewrite rev_app_distr, rev_involutive. cbn [rev app].
        now rewrite Er.
    + rewrite <- (IH (r :: acc) seqs). cbn [ddr].
      destruct (ddr acc) as [|x rows]; [reflexivity|].
      now destruct (l_address x =? p_address r).
Qed.

(** A sequence in rows that start with one *)
Lemma first_end : forall a b (r e : prow) l post, Forall (fun r => p_end r = false) a -> p_end r = true ->
  Forall (fun r => p_end r = false) b -> p_end e = true ->
  a ++ r :: l = b ++ e :: post -> a = b /\ r = e /\ l = post.
Proof.
  induction a as [|x a IH]; intros b r e l post Ha Hr Hb He H.
  - destruct b as [|y b]; cbn [app] in H; [injection H; auto|].
    injection H as -> _. inversion Hb; congruence.
  - destruct b as [|y b]; cbn [app] in H.
    + injection H as -> _. inversion Ha; congruence.
    + injection H as -> H. inversion Ha; inversion Hb; subst.
      destruct (IH b r e l post) as (-> & -> & ->); auto.
Qed.
Lemma end_prefix : forall a (r : prow) l pre' e' rest, Forall (fun r => p_end r = false) a -> p_end e' = true ->
  a ++ r :: l = pre' ++ e' :: rest -> p_end r = true ->
  exists pre2, pre' ++ [e'] = a ++ r :: pre2 /\ l = pre2 ++ rest /\
    (pre2 = [] \/ exists pre3, pre2 = pre3 ++ [e']).
Proof.
  induction a as [|x a IH]; intros r l pre' e' rest Ha He H Hr.
  - destruct pre' as [|y pre']; cbn [app] in H.
    + injection H as -> ->. exists []. auto.
    + injection H as -> ->. exists (pre' ++ [e']). cbn [app]. split; auto. split; [now rewrite <- app_assoc|eauto].
  - inversion Ha; subst. destruct pre' as [|y pre']; cbn [app] in H.
    + injection H as -> _. congruence.
    + injection H as -> H. destruct (IH r l pre' e' rest) as (pre2 & E1 & E2 & E3); auto.
      exists pre2. cbn [app]. rewrite E1. auto.
Qed.

Lemma seq_split : forall a r l b e, Forall (fun r => p_end r = false) a -> p_end r = true ->
  (sequence (a ++ r :: l) b e <-> (a <> [] /\ b = a /\ e = r) \/ sequence l b e).
Proof.
  intros a r l b e Ha Hr. split.
  - intros (Hb & Hf & He & pre & post & E & Hp).
    destruct Hp as [->|(pre' & e' & -> & He')].
    + left. cbn [app] in E. destruct (first_end a b r e l post) as (-> & -> & _); auto.
    + right. rewrite <- app_assoc in E. cbn [app] in E.
      destruct (end_prefix a r l pre' e' (b ++ e :: post)) as (pre2 & E1 & E2 & E3); auto.
      split; auto. split; auto. split; auto. exists pre2, post. split; auto.
      destruct E3 as [->|(pre3 & ->)]; eauto.
  - intros [(Hne & -> & ->)|(Hb & Hf & He & pre & post & -> & Hp)].
    + split; auto. split; auto. split; auto. exists [], l. auto.
    + split; auto. split; auto. split; auto. exists (a ++ r :: pre), post.
      split; [now rewrite <- app_assoc|]. right.
      destruct Hp as [->|(pre' & e' & -> & He')]; [eauto|].
      exists (a ++ r :: pre'), e'. split; [now rewrite <- app_assoc|auto].
Qed.
Lemma groups_sequence : forall l acc b e, Forall (fun r => p_end r = false) acc ->
  (In (b, e) (groups acc l) <-> sequence (rev acc ++ l) b e).
Proof.
  induction l as [|r l IH]; intros acc b e Ha.
  - cbn [groups]. split; [intros []|]. intros (_ & _ & He & pre & post & E & _).
    exfalso. rewrite app_nil_r in E. assert (Hin : In e (rev acc)).
    { rewrite E. apply in_or_app. right. apply in_or_app. right. now left. }
    apply in_rev in Hin. rewrite Forall_forall in Ha. specialize (Ha _ Hin). cbv beta in Ha. congruence.
  - cbn [groups]. destruct (p_end r) eqn:Er.
    + rewrite seq_split by (auto using Forall_rev).
      specialize (IH [] b e (Forall_nil _)). cbn [rev app] in IH. rewrite <- IH.
      destruct acc as [|a acc].
      * cbn [rev]. split; [auto|]. intros [(H & _)|H]; [congruence|auto].
      * cbn [In]. split; intros [H|H]; auto; left.
        { injection H as <- <-. split; auto. intros H. apply (f_equal (@rev prow)) in H.
          rewrite rev_involutive in H. discriminate. }
        { destruct H as (_ & -> & ->). reflexivity. }
    + rewrite (IH (r :: acc)) by (constructor; auto). cbn [rev]. now rewrite <- app_assoc.
Qed.
Lemma groups_nil_sequence : forall rows b e, In (b, e) (groups [] rows) <-> sequence rows b e.
Proof. intros. apply (groups_sequence rows []). constructor. Qed.

(** Of different sequences one is in front of the other. *)
Lemma groups_apart : forall l acc i j x y, Forall (fun r => p_end r = false) acc -> (i < j)%nat ->
  nth_error (groups acc l) i = Some x -> nth_error (groups acc l) j = Some y ->
  exists l1 l2, rev acc ++ l = l1 ++ l2 /\ (exists l e, l1 = l ++ [e] /\ p_end e = true) /\
    sequence l1 (fst x) (snd x) /\ sequence l2 (fst y) (snd y).
Proof.
  induction l as [|r l IH]; intros acc i j x y Ha Hij Hx Hy; [destruct i; discriminate|].
  cbn [groups] in Hx, Hy. destruct (p_end r) eqn:Er.
  - assert (Hrec : forall i j, (i < j)%nat -> nth_error (groups [] l) i = Some x -> nth_error (groups [] l) j = Some y ->
      exists l1 l2, rev acc ++ r :: l = l1 ++ l2 /\ (exists l e, l1 = l ++ [e] /\ p_end e = true) /\
        sequence l1 (fst x) (snd x) /\ sequence l2 (fst y) (snd y)).
    { intros i' j' Hij' Hx' Hy'. destruct (IH [] i' j' x y) as (l1 & l2 & E1 & (l' & e' & E2 & E3) & H1 & H2); auto.
      exists (rev acc ++ r :: l1), l2. cbn [rev app] in E1. rewrite E1. split; [now rewrite <- app_assoc|]. split.
      - exists (rev acc ++ r :: l'), e'. rewrite E2. split; [now rewrite <- app_assoc|auto].
      - split; auto. apply seq_split; auto using Forall_rev. }
    destruct acc as [|a acc].
    + apply (Hrec i j); auto.
    + destruct j as [|j]; [lia|]. destruct i as [|i]; cbn [nth_error] in Hx, Hy.
      * injection Hx as <-. exists (rev (a :: acc) ++ [r]), l. split; [now rewrite <- app_assoc|]. split; [eauto|].
        split.
        { apply seq_split; auto using Forall_rev. left. cbn [fst snd]. split; auto. intros H.
          apply (f_equal (@rev prow)) in H. rewrite rev_involutive in H. discriminate. }
        { apply groups_nil_sequence. apply nth_error_In in Hy. now destruct y. }
      * apply (Hrec i j); auto. lia.
  - destruct (IH (r :: acc) i j x y) as (l1 & l2 & E & H); auto. exists l1, l2. split; auto.
    rewrite <- E. cbn [rev]. now rewrite <- app_assoc.
Qed.

(** ** The rows of a sequence *)
Lemma conv_row_addr : forall r, l_address (conv_row r) = p_address r.
Proof. reflexivity. Qed.
Lemma ddr_head : forall r acc, exists l, ddr (r :: acc) = conv_row r :: l /\ (l = ddr acc \/ exists x, ddr acc = x :: l /\ l_address x = p_address r).
Proof.
  intros r acc. cbn [ddr]. destruct (ddr acc) as [|x l]; [exists []; auto|].
  destruct (N.eqb_spec (l_address x) (p_address r)); [exists l; eauto|exists (x :: l); auto].
Qed.
Lemma ddr_first : forall acc r, exists x l, ddr (acc ++ [r]) = l ++ [x] /\ l_address x = p_address r.
Proof.
  induction acc as [|a acc IH]; intros r.
  - exists (conv_row r), []. auto.
  - destruct (IH r) as (x & l & E & Hx). cbn [app]. destruct (ddr_head a (acc ++ [r])) as (l' & E1 & [->|(y & E2 & Hy)]).
    + exists x, (conv_row a :: l). rewrite E1, E. auto.
    + rewrite E1. rewrite E in E2. destruct l as [|z l].
      * cbn [app] in E2. injection E2 as <- <-. exists (conv_row a), []. cbn [app]. split; auto.
        rewrite conv_row_addr. congruence.
      * cbn [app] in E2. injection E2 as -> <-. exists x, (conv_row a :: l). auto.
Qed.
(** Addresses decrease strictly (from the last row on). *)
Lemma ddr_sorted : forall acc,
  (forall i j r1 r2, (i < j)%nat -> nth_error acc i = Some r1 -> nth_error acc j = Some r2 -> p_address r2 <= p_address r1) ->
  StronglySorted (fun x y => l_address y < l_address x) (ddr acc) /\
  (forall r x, nth_error acc 0 = Some r -> In x (ddr acc) -> l_address x <= p_address r).
Proof.
  induction acc as [|r acc IH]; intros H.
  - split; [constructor|]. intros r x Hr; discriminate.
  - assert (Hacc : forall i j r1 r2, (i < j)%nat -> nth_error acc i = Some r1 -> nth_error acc j = Some r2 -> p_address r2 <= p_address r1).
    { intros i j r1 r2 Hij H1 H2. apply (H (S i) (S j)); auto. lia. }
    destruct (IH Hacc) as [S1 S2].
    assert (Hle : forall x, In x (ddr acc) -> l_address x <= p_address r).
    { intros x Hx. destruct acc as [|r' acc]; [destruct Hx|].
      specialize (S2 r' x eq_refl Hx). specialize (H O 1%nat r r' ltac:(lia) eq_refl eq_refl). lia. }
    destruct (ddr_head r acc) as (l & E & Hl). rewrite E.
    assert (Hlt : StronglySorted (fun x y => l_address y < l_address x) l /\ forall x, In x l -> l_address x < p_address r).
    { destruct Hl as [->|(x & Ex & Hx)].
      - split; auto. intros x Hx. pose proof (Hle x Hx). cbn [ddr] in E. destruct (ddr acc) as [|y l']; [destruct Hx|].
        destruct (N.eqb_spec (l_address y) (p_address r)) as [|Hne]; [exfalso|].
        + injection E as E. apply (f_equal (@length lrow)) in E. cbn [length] in E. lia.
        + assert (l_address y <= p_address r) by (apply Hle; now left).
          destruct Hx as [<-|Hx]; [lia|]. inversion S1 as [|? ? _ HF]; subst. rewrite Forall_forall in HF.
          specialize (HF _ Hx). cbv beta in HF. lia.
      - rewrite Ex in S1. inversion S1 as [|? ? Hs HF]; subst. split; auto. intros y Hy.
        rewrite Forall_forall in HF. specialize (HF _ Hy). cbv beta in HF. lia. }
    destruct Hlt as [Hs Hlt]. split.
    + constructor; auto. apply Forall_forall. intros x Hx. rewrite conv_row_addr. auto.
    + intros r0 x Hr [<-|Hx]; injection Hr as <-; [rewrite conv_row_addr; lia|]. specialize (Hlt _ Hx). lia.
Qed.
Lemma ddr_find : forall probe acc,
  find (fun x => l_address x <=? probe) (ddr acc) =
  match find (fun r => p_address r <=? probe) acc with Some r => Some (conv_row r) | None => None end.
Proof.
  intros probe. induction acc as [|r acc IH]; [reflexivity|].
  destruct (ddr_head r acc) as (l & E & Hl). rewrite E. cbn [find]. rewrite conv_row_addr.
  destruct (N.leb_spec (p_address r) probe) as [|Hr]; [reflexivity|].
  rewrite <- IH. destruct Hl as [->|(x & Ex & Hx)]; [reflexivity|].
  rewrite Ex. cbn [find]. destruct (N.leb_spec (l_address x) probe); [lia|reflexivity].
Qed.
Lemma in_effect_find : forall body a r, in_effect body a r -> find (fun r => p_address r <=? a) (rev body) = Some r.
Proof.
  intros body a r (before & after & -> & Hr & Ha). rewrite rev_app_distr. cbn [rev]. rewrite <- app_assoc. cbn [app].
  assert (H : forall l, Forall (fun r' => a < p_address r') l -> find (fun r => p_address r <=? a) (l ++ r :: rev before) = Some r).
  { induction l as [|x l IH]; intros Hl; cbn [app find].
    - now destruct (N.leb_spec (p_address r) a); [|lia].
    - inversion Hl; subst. destruct (N.leb_spec (p_address x) a); [lia|auto]. }
  apply H. now apply Forall_rev.
Qed.

Lemma sorted_rev : forall A (R : A -> A -> Prop) l, StronglySorted R l -> StronglySorted (fun x y => R y x) (rev l).
Proof.
  intros A R l H. induction H as [|x l H IH Hx]; [constructor|]. cbn [rev].
  clear H. rewrite Forall_forall in Hx.
  assert (Hx' : forall y, In y (rev l) -> R x y) by (intros y Hy; apply Hx; now apply in_rev).
  clear Hx. induction (rev l) as [|y l' IHl]; cbn [app]; [constructor; constructor|].
  inversion IH as [|? ? IH1 IH2]; subst. constructor.
  - apply IHl; auto. intros z Hz. apply Hx'. now right.
  - apply Forall_app. split; auto. constructor; [|constructor]. apply Hx'. now left.
Qed.

Lemma find_rev_nth : forall A (p : A -> bool) l i x, nth_error l i = Some x -> p x = true ->
  (forall j y, (i < j)%nat -> nth_error l j = Some y -> p y = false) -> find p (rev l) = Some x.
Proof.
  intros A p l i x Hx Hp Hn. apply nth_error_split in Hx. destruct Hx as (l1 & l2 & -> & Hl).
  rewrite rev_app_distr. cbn [rev]. rewrite <- app_assoc. cbn [app].
  assert (H : forall l, (forall y, In y l -> p y = false) -> find p (l ++ x :: rev l1) = Some x).
  { induction l as [|y l IH]; intros Hy; cbn [app find]; [now rewrite Hp|].
    rewrite (Hy y) by now left. apply IH. intros z Hz. apply Hy. now right. }
  apply H. intros y Hy. apply in_rev in Hy. apply In_nth_error in Hy. destruct Hy as [k Hk].
  apply (Hn (i + S k)%nat); [lia|]. rewrite nth_error_app2 by lia. now replace (i + S k - List.length l1)%nat with (S k) by lia.
Qed.

(** ** Searching *)
Lemma seqs_cmp_sorted : forall probe l,
  StronglySorted (fun a b => s_start a <= s_start b) l ->
  (forall s, In s l -> s_start s < s_end s) ->
  (forall i j a b, i <> j -> nth_error l i = Some a -> nth_error l j = Some b ->
     disjoint (Range (s_start a) (s_end a)) (Range (s_start b) (s_end b))) ->
  cmp_sorted (seq_cmp probe) l.
Proof.
  intros probe l Hs Hne Hd i j a b Hij Ha Hb.
  destruct (Nat.eq_dec i j) as [->|Hn]; [assert (a = b) by congruence; subst; auto|].
  pose proof (StronglySorted_nth _ _ _ i j a b Hs ltac:(lia) Ha Hb) as Hle. cbv beta in Hle.
  pose proof (Hne a (nth_error_In _ _ Ha)) as Na. pose proof (Hne b (nth_error_In _ _ Hb)) as Nb.
  pose proof (Hd i j a b Hn Ha Hb (s_start b)) as D. unfold covers in D. cbn [r_begin r_end] in D.
  unfold seq_cmp. split.
  - destruct (N.ltb_spec probe (s_start b)); [discriminate|].
    destruct (N.leb_spec (s_end b) probe); [intros _|discriminate].
    destruct (N.ltb_spec probe (s_start a)); [lia|]. destruct (N.leb_spec (s_end a) probe); auto. exfalso. apply D; lia.
  - destruct (N.ltb_spec probe (s_start a)); [intros _|].
    + destruct (N.ltb_spec probe (s_start b)); auto. lia.
    + destruct (N.leb_spec (s_end a) probe); discriminate.
Qed.
Lemma rows_cmp_sorted : forall probe l, StronglySorted (fun x y => l_address x < l_address y) l ->
  cmp_sorted (fun r => l_address r ?= probe) l.
Proof.
  intros probe l Hs i j a b Hij Ha Hb.
  destruct (Nat.eq_dec i j) as [->|Hn]; [assert (a = b) by congruence; subst; auto|].
  pose proof (StronglySorted_nth _ _ _ i j a b Hs ltac:(lia) Ha Hb) as Hlt. cbv beta in Hlt.
  rewrite !N.compare_lt_iff, !N.compare_gt_iff. lia.
Qed.

(** What is known about the sequence made of a group *)
Lemma conv_seq_start : forall body e first, hd_error body = Some first -> s_start (conv_seq (body, e)) = p_address first.
Proof.
  intros [|r body] e first H; [discriminate|]. injection H as <-. unfold conv_seq. cbn [fst snd rev s_start].
  destruct (ddr_first (rev body) r) as (x & l & E & Hx). rewrite E, rev_app_distr. exact Hx.
Qed.
Lemma seq_range_conv : forall body e r, seq_range body e r ->
  r = Range (s_start (conv_seq (body, e))) (s_end (conv_seq (body, e))).
Proof.
  intros body e r (first & H & ->). now rewrite (conv_seq_start _ _ _ H).
Qed.
Lemma has_range : forall rows body e, sequence rows body e ->
  seq_range body e (Range (s_start (conv_seq (body, e))) (s_end (conv_seq (body, e)))).
Proof.
  intros rows body e (Hb & _). destruct body as [|f body]; [congruence|].
  exists f. split; auto. now rewrite (conv_seq_start _ _ f).
Qed.
Lemma conv_rows_sorted : forall body e, ordered body ->
  StronglySorted (fun x y => l_address x < l_address y) (s_rows (conv_seq (body, e))).
Proof.
  intros body e H. unfold conv_seq. cbn [s_rows fst].
  apply (sorted_rev _ (fun x y => l_address y < l_address x)). apply ddr_sorted.
  intros i j r1 r2 Hij H1 H2.
  pose proof (nth_error_lt _ _ _ _ H2) as Lj. pose proof (nth_error_lt _ _ _ _ H1) as Li. rewrite rev_length in Lj, Li.
  assert (R : forall k r, (k < List.length body)%nat -> nth_error (rev body) k = Some r -> nth_error body (List.length body - S k) = Some r).
  { intros k r Hk Hr. rewrite <- Hr.
    rewrite (nth_error_nth' (rev body) r) by (rewrite rev_length; lia).
    rewrite rev_nth by lia. now rewrite (nth_error_nth' body r) by lia. }
  apply R in H1; auto. apply R in H2; auto. apply (H (List.length body - S j)%nat (List.length body - S i)%nat); auto. lia.
Qed.

Lemma perm_pairs : forall A (P : A -> A -> Prop) l l', Permutation l l' -> (forall a b, P a b -> P b a) ->
  (forall i j a b, (i < j)%nat -> nth_error l i = Some a -> nth_error l j = Some b -> P a b) ->
  forall i j a b, i <> j -> nth_error l' i = Some a -> nth_error l' j = Some b -> P a b.
Proof.
  intros A P l l' Hp Hsym Hl.
  assert (F : ForallOrdPairs P l').
  { assert (F : ForallOrdPairs P l).
    { clear Hp l'. induction l as [|x l IH]; constructor.
      - apply Forall_forall. intros y Hy. apply In_nth_error in Hy. destruct Hy as [k Hk].
        apply (Hl O (S k)); auto. lia.
      - apply IH. intros i j a b Hij Ha Hb. apply (Hl (S i) (S j)); auto. lia. }
    clear Hl. induction Hp; auto.
    - inversion F; subst. constructor; auto. eapply Permutation_Forall; eauto.
    - inversion F as [|? ? F1 F2]; subst. inversion F2 as [|? ? F3 F4]; subst. inversion F1; subst.
      constructor; [constructor; auto|]. constructor; auto. }
  clear Hl Hp l.
  assert (H : forall i j a b, (i < j)%nat -> nth_error l' i = Some a -> nth_error l' j = Some b -> P a b).
  { induction F as [|x l HF F IH]; intros i j a b Hij Ha Hb; [destruct i; discriminate|].
    destruct j as [|j]; [lia|]. destruct i as [|i]; cbn [nth_error] in Ha, Hb.
    - injection Ha as <-. rewrite Forall_forall in HF. apply HF. eapply nth_error_In; eauto.
    - apply (IH i j); auto. lia. }
  intros i j a b Hij Ha Hb. destruct (Nat.lt_ge_cases i j) as [Hlt|Hge].
  - now apply (H i j).
  - apply Hsym. apply (H j i); auto. lia.
Qed.

Definition seqs_of (srt : sorter) (rows : list prow) : list lseq :=
  srt _ (by_key s_start) (parse_rows rows [] []).
Lemma seqs_of_in : forall srt rows s, sorter_ok srt ->
  (In s (seqs_of srt rows) <-> exists body e, sequence rows body e /\ s = conv_seq (body, e)).
Proof.
  intros srt rows s Hsrt. unfold seqs_of.
  destruct (sorts_by_key srt _ s_start (parse_rows rows [] []) Hsrt) as [Hp _].
  assert (E : parse_rows rows [] [] = map conv_seq (groups [] rows)) by (apply (parse_rows_groups rows [] [])).
  split.
  - intros H. apply (Permutation_in _ (Permutation_sym Hp)) in H. rewrite E in H. apply in_map_iff in H.
    destruct H as ([body e] & <- & H). apply groups_nil_sequence in H. eauto.
  - intros (body & e & H & ->). apply (Permutation_in _ Hp). rewrite E. apply in_map. now apply groups_nil_sequence.
Qed.
Lemma seqs_of_cmp : forall srt rows probe, sorter_ok srt -> seqs_wf rows -> cmp_sorted (seq_cmp probe) (seqs_of srt rows).
Proof.
  intros srt rows probe Hsrt [Hwf Hdis].
  destruct (sorts_by_key srt _ s_start (parse_rows rows [] []) Hsrt) as [Hp Hs].
  assert (E : parse_rows rows [] [] = map conv_seq (groups [] rows)) by (apply (parse_rows_groups rows [] [])).
  apply seqs_cmp_sorted; auto.
  - intros s Hin. apply (seqs_of_in srt rows s Hsrt) in Hin. destruct Hin as (body & e & Hq & ->).
    destruct (Hwf _ _ _ Hq (has_range _ _ _ Hq)) as [_ H]. exact H.
  - apply (perm_pairs _ (fun a b => disjoint (Range (s_start a) (s_end a)) (Range (s_start b) (s_end b)))
      _ _ Hp); [intros a b H x H1 H2; eapply H; eauto|].
    intros i j a b Hij Ha Hb. rewrite E in Ha, Hb.
    rewrite nth_error_map in Ha, Hb.
    destruct (nth_error (groups [] rows) i) as [x|] eqn:Ex; [|discriminate].
    destruct (nth_error (groups [] rows) j) as [y|] eqn:Ey; [|discriminate].
    injection Ha as <-. injection Hb as <-.
    destruct (groups_apart rows [] i j x y) as (l1 & l2 & El & Hend & H1 & H2); auto.
    destruct x as [b1 e1], y as [b2 e2]. cbn [fst snd] in H1, H2.
    apply (Hdis l1 l2 b1 e1 b2 e2); auto; eapply has_range; eauto.
Qed.

(** ** Files *)
Lemma render_file_ok : forall b f dir name, render_file b f = Ok (dir, name) -> file_path b (Some f) dir name.
Proof.
  intros b f dir name H. unfold render_file in H. ib H dir' Ed. ib H name' En. injection H as <- <-.
  unfold g, of_option in En. destruct (f_name f) as [n|] eqn:Ef; [|discriminate]. injection En as <-.
  split; auto. exists (match b_comp_dir b with Some d => d | None => [] end). split; [destruct (b_comp_dir b); auto|].
  destruct (f_dir_index f =? 0); cbn [negb] in Ed; [congruence|].
  destruct (f_dir f) as [[d|]|]; [|discriminate|congruence].
  unfold g, of_option in Ed. cbn [bind] in Ed. injection Ed as <-.
  assert (E : forall c, path_push c d = path_join c d).
  { intros c. unfold path_push, path_join. destruct d as [|x d]; auto.
    destruct x as [|x]; auto. do 6 (destruct x as [x|x|]; auto). }
  rewrite E. apply join_under.
Qed.

Lemma render_files_nth : forall b l fs, render_files b l = Ok fs -> List.length fs = List.length l /\
  forall i e, nth_error l i = Some e -> exists dir name, nth_error fs i = Some (dir, name) /\ file_path b (Some e) dir name.
Proof.
  intros b. induction l as [|f l IH]; intros fs H; cbn [render_files] in H.
  - injection H as <-. split; auto. intros [|i] e He; discriminate.
  - ib H x Ex. ib H xs Exs. injection H as <-. destruct (IH _ Exs) as [L IHl]. split; [cbn [length]; lia|].
    intros [|i] e He; cbn [nth_error] in *; [injection He as <-|auto].
    destruct x as [dir name]. exists dir, name. split; auto. now apply render_file_ok.
Qed.
Lemma nnth_nth : forall A (l : list A) i, nnth i l = nth_error l (N.to_nat i).
Proof.
  induction l as [|x l IH]; intros i; cbn [nnth]; [now destruct (N.to_nat i)|].
  destruct (N.eqb_spec i 0) as [->|Hi]; [reflexivity|]. rewrite IH.
  replace (N.to_nat i) with (S (N.to_nat (i - 1))) by lia. reflexivity.
Qed.
Lemma lines_parse_inv : forall srt b p ls, lines_parse srt b p = Ok ls ->
  exists rows, lp_rows p = Some rows /\ ls_seqs ls = seqs_of srt rows /\
    forall i f, file_at p i f -> exists dir name, nnth i (ls_files ls) = Some (dir, name) /\ file_path b f dir name.
Proof.
  intros srt b p ls H. unfold lines_parse in H. ib H rows Er. ib H f0 E0. ib H fs Ef. injection H as <-.
  exists rows. split; [destruct (lp_rows p); [injection Er as <-; auto|discriminate]|]. split; [reflexivity|].
  intros i f Hf. cbn [ls_files]. destruct Hf as [(-> & ->)|(Hi & e & He & ->)].
  - destruct f0 as [dir name]. exists dir, name. split; [reflexivity|].
    destruct (lp_file0 p) as [f|]; [now apply render_file_ok|]. injection E0 as <- <-. split; auto.
  - destruct (render_files_nth _ _ _ Ef) as [_ Hn]. rewrite nnth_nth in He. destruct (Hn _ _ He) as (dir & name & H1 & H2).
    exists dir, name. split; auto. rewrite nnth_nth. replace (N.to_nat i) with (S (N.to_nat (i - 1))) by lia. exact H1.
Qed.

Lemma row_location_ok : forall srt b p ls r f, lines_parse srt b p = Ok ls -> file_at p (p_file r) f ->
  exists loc, row_location ls (conv_row r) = Ok loc /\ row_loc b p r loc.
Proof.
  intros srt b p ls r f Hl Hf. destruct (lines_parse_inv _ _ _ _ Hl) as (rows & _ & _ & Hfiles).
  destruct (Hfiles _ _ Hf) as (dir & name & Hn & Hp). unfold row_location. cbn [conv_row l_file].
  rewrite Hn. cbn [unwrap bind]. eexists. split; [reflexivity|]. exists f, dir, name. split; auto. split; auto.
  cbn [lo_dir lo_file lo_line lo_column fst snd conv_row l_line l_column]. split; auto. split; auto. split.
  - intros n Hn' Hpos Hlt. rewrite Hn'. rewrite N.mod_small by auto. destruct (N.eqb_spec n 0); [lia|]. split; auto.
    intros c [[-> Hc]|[-> ->]]; [now rewrite N.mod_small|reflexivity].
  - intros ->. auto.
Qed.

(** ** Theorems *)

(** Readable programs are accepted. *)
Theorem C40_accepted : forall srt b p rows, lp_rows p = Some rows -> files_wf b p -> exists ls, lines_parse srt b p = Ok ls.
Proof.
  intros srt b p rows Hr Hf. unfold lines_parse. rewrite Hr. cbn [g of_option bind].
  assert (H1 : forall f, (lp_file0 p = Some f \/ In f (lp_files p)) -> exists x, render_file b f = Ok x).
  { intros f Hin. destruct (Hf f Hin) as [Hn Hd]. unfold render_file. destruct (f_name f) as [n|]; [|congruence].
    destruct (N.eqb_spec (f_dir_index f) 0); cbn [negb bind g of_option]; [eauto|].
    destruct (f_dir f) as [[d|]|]; cbn [bind g of_option]; eauto. destruct Hd; congruence. }
  assert (E0 : exists x, match lp_file0 p with Some f => render_file b f | None => Ok ([], []) end = Ok x).
  { destruct (lp_file0 p) as [f|]; eauto. }
  destruct E0 as [x ->]. cbn [bind].
  assert (E : exists fs, render_files b (lp_files p) = Ok fs).
  { assert (H2 : forall f, In f (lp_files p) -> exists x, render_file b f = Ok x) by auto.
    clear - H2. induction (lp_files p) as [|f l IH]; cbn [render_files]; [eauto|].
    destruct (H2 f) as [y ->]; [now left|]. cbn [bind]. destruct IH as [fs ->]; [intros; apply H2; now right|]. cbn [bind]. eauto. }
  destruct E as [fs ->]. cbn [bind]. eauto.
Qed.

(** In a sequence the location is that of the row in effect. *)
Theorem C40_found : forall srt pick b p ls rows body e rg probe r f,
  sorter_ok srt -> lines_parse srt b p = Ok ls -> lp_rows p = Some rows -> seqs_wf rows ->
  sequence rows body e -> seq_range body e rg -> covers rg probe -> in_effect body probe r ->
  file_at p (p_file r) f ->
  exists loc, lines_find_location pick ls probe = Ok (Some loc) /\ row_loc b p r loc.
Proof.
  intros srt pick b p ls rows body e rg probe r f Hsrt Hl Hr Hwf Hq Hrg Hc He Hf.
  destruct (lines_parse_inv _ _ _ _ Hl) as (rows' & Hr' & Hs & _). rewrite Hr in Hr'. injection Hr' as <-.
  destruct (row_location_ok _ _ _ _ r f Hl Hf) as (loc & Hloc & Hok). exists loc. split; auto.
  pose proof (seqs_of_cmp srt rows probe Hsrt Hwf) as Hcmp.
  pose proof (proj2 (seqs_of_in srt rows (conv_seq (body, e)) Hsrt) ltac:(eauto)) as Hin.
  pose proof (seq_range_conv _ _ _ Hrg) as Erg. subst rg.
  destruct (proj1 Hwf _ _ _ Hq Hrg) as [Hord Hne].
  apply In_nth_error in Hin. destruct Hin as [k Hk].
  assert (Hkc : seq_cmp probe (conv_seq (body, e)) = Eq).
  { unfold seq_cmp. destruct Hc as [H1 H2]. cbn [r_begin r_end] in H1, H2.
    destruct (N.ltb_spec probe (s_start (conv_seq (body, e)))); [lia|].
    destruct (N.leb_spec (s_end (conv_seq (body, e))) probe); [lia|auto]. }
  unfold lines_find_location. rewrite Hs. pose proof (bsearch_spec _ pick _ _ Hcmp) as B.
  destruct (binary_search_by pick (seqs_of srt rows) (seq_cmp probe)) as [i|n].
  2:{ exfalso. destruct B as (_ & B1 & B2). destruct (Nat.lt_ge_cases k n) as [Hlt|Hge].
      - specialize (B1 _ _ Hk Hlt). congruence.
      - specialize (B2 _ _ Hk Hge). congruence. }
  destruct B as (s & Hi & Hsc). rewrite Hi. cbn [unwrap bind].
  assert (Hbody : exists body' e', sequence rows body' e' /\ s = conv_seq (body', e')).
  { apply (seqs_of_in srt); auto. eapply nth_error_In; eauto. }
  (* It is the sequence of [body]. *)
  assert (Es : s = conv_seq (body, e)).
  { destruct (Nat.eq_dec i k) as [->|Hik]; [congruence|]. exfalso.
    assert (D : forall i j a b, i <> j -> nth_error (seqs_of srt rows) i = Some a -> nth_error (seqs_of srt rows) j = Some b ->
      disjoint (Range (s_start a) (s_end a)) (Range (s_start b) (s_end b))).
    { destruct (sorts_by_key srt _ s_start (parse_rows rows [] []) Hsrt) as [Hp _].
      apply (perm_pairs _ (fun a b => disjoint (Range (s_start a) (s_end a)) (Range (s_start b) (s_end b)))
        _ _ Hp); [intros a b' H x H1 H2; eapply H; eauto|].
      intros i' j' a b' Hij Ha Hb. rewrite (parse_rows_groups rows [] [] : parse_rows rows [] [] = _) in Ha, Hb.
      cbn [rev app] in Ha, Hb. rewrite nth_error_map in Ha, Hb.
      destruct (nth_error (groups [] rows) i') as [x|] eqn:Ex; [|discriminate].
      destruct (nth_error (groups [] rows) j') as [y|] eqn:Ey; [|discriminate].
      injection Ha as <-. injection Hb as <-.
      destruct (groups_apart rows [] i' j' x y) as (l1 & l2 & El & Hend & H1 & H2); auto.
      destruct x as [b1 e1], y as [b2 e2]. cbn [fst snd] in H1, H2.
      apply (proj2 Hwf l1 l2 b1 e1 b2 e2); auto; eapply has_range; eauto. }
    apply (D i k s (conv_seq (body, e)) Hik Hi Hk probe); auto.
    unfold seq_cmp in Hsc. unfold covers. cbn [r_begin r_end].
    destruct (N.ltb_spec probe (s_start s)); [discriminate|]. destruct (N.leb_spec (s_end s) probe); [discriminate|lia]. }
  subst s. clear Hbody.
  pose proof (conv_rows_sorted body e Hord) as Hrs.
  assert (Hfind : find (fun x => l_address x <=? probe) (rev (s_rows (conv_seq (body, e)))) = Some (conv_row r)).
  { unfold conv_seq. cbn [s_rows fst]. rewrite rev_involutive, ddr_find. now rewrite (in_effect_find _ _ _ He). }
  pose proof (bsearch_spec _ pick _ _ (rows_cmp_sorted probe _ Hrs)) as B.
  destruct (binary_search_by pick (s_rows (conv_seq (body, e))) (fun r0 => l_address r0 ?= probe)) as [j|n].
  - destruct B as (x & Hx & Hxe). apply N.compare_eq_iff in Hxe.
    rewrite Hx. cbn [unwrap bind].
    rewrite (find_rev_nth _ _ _ j x) in Hfind; auto.
    + injection Hfind as ->. rewrite Hloc. reflexivity.
    + apply N.leb_le. lia.
    + intros j' y Hj Hy. apply N.leb_gt. pose proof (StronglySorted_nth _ _ _ j j' x y Hrs Hj Hx Hy) as H. cbv beta in H. lia.
  - destruct B as (Hn & B1 & B2). destruct n as [|n].
    + exfalso. apply find_some in Hfind. destruct Hfind as [Hin Hle]. apply in_rev in Hin. apply In_nth_error in Hin.
      destruct Hin as [j Hj]. specialize (B2 _ _ Hj ltac:(lia)). rewrite N.compare_gt_iff in B2. apply N.leb_le in Hle. lia.
    + destruct (nth_error_lt_some _ (s_rows (conv_seq (body, e))) n) as [x Hx]; [lia|].
      rewrite Hx. cbn [unwrap bind].
      rewrite (find_rev_nth _ _ _ n x) in Hfind; auto.
      * injection Hfind as ->. rewrite Hloc. reflexivity.
      * apply N.leb_le. specialize (B1 _ _ Hx ltac:(lia)). rewrite N.compare_lt_iff in B1. lia.
      * intros j' y Hj Hy. apply N.leb_gt. specialize (B2 _ _ Hy ltac:(lia)). rewrite N.compare_gt_iff in B2. lia.
Qed.
Print Assumptions C40_found.

(** Outside of all sequences there is none, whatever the rows look like. *)
Theorem C40_outside : forall srt pick b p ls rows probe,
  sorter_ok srt -> lines_parse srt b p = Ok ls -> lp_rows p = Some rows ->
  (forall body e rg, sequence rows body e -> seq_range body e rg -> ~ covers rg probe) ->
  lines_find_location pick ls probe = Ok None.
Proof.
  intros srt pick b p ls rows probe Hsrt Hl Hr Hout.
  destruct (lines_parse_inv _ _ _ _ Hl) as (rows' & Hr' & Hs & _). rewrite Hr in Hr'. injection Hr' as <-.
  unfold lines_find_location. rewrite Hs.
  destruct (binary_search_by pick (seqs_of srt rows) (seq_cmp probe)) as [i|n] eqn:E; [exfalso|reflexivity].
  apply bsearch_found in E. destruct E as (s & Hi & Hsc).
  apply nth_error_In in Hi. apply (seqs_of_in srt rows s Hsrt) in Hi. destruct Hi as (body & e & Hq & ->).
  apply (Hout body e _ Hq (has_range _ _ _ Hq)). unfold seq_cmp in Hsc. unfold covers. cbn [r_begin r_end].
  destruct (N.ltb_spec probe (s_start (conv_seq (body, e)))); [discriminate|].
  destruct (N.leb_spec (s_end (conv_seq (body, e))) probe); [discriminate|lia].
Qed.
Print Assumptions C40_outside.

(** Whatever is found is the location of some row of a sequence that the
    address is in; nothing else can happen if all rows have a file. *)
Lemma ddr_in : forall acc x, In x (ddr acc) -> exists r, In r acc /\ x = conv_row r.
Proof.
  induction acc as [|r acc IH]; intros x Hx; [destruct Hx|].
  destruct (ddr_head r acc) as (l & E & Hl). rewrite E in Hx. destruct Hx as [<-|Hx]; [exists r; split; auto; now left|].
  assert (Hin : In x (ddr acc)) by (destruct Hl as [->|(y & -> & _)]; auto; now right).
  destruct (IH _ Hin) as (r' & Hr & ->). exists r'. split; auto. now right.
Qed.
Theorem C40_total : forall srt pick b p ls rows probe,
  sorter_ok srt -> lines_parse srt b p = Ok ls -> lp_rows p = Some rows ->
  (forall r, In r rows -> p_end r = false -> exists f, file_at p (p_file r) f) ->
  lines_find_location pick ls probe = Ok None \/
  exists body e rg r loc, sequence rows body e /\ seq_range body e rg /\ covers rg probe /\ In r body /\
    lines_find_location pick ls probe = Ok (Some loc) /\ row_loc b p r loc.
Proof.
  intros srt pick b p ls rows probe Hsrt Hl Hr Hf.
  destruct (lines_parse_inv _ _ _ _ Hl) as (rows' & Hr' & Hs & _). rewrite Hr in Hr'. injection Hr' as <-.
  unfold lines_find_location. rewrite Hs.
  destruct (binary_search_by pick (seqs_of srt rows) (seq_cmp probe)) as [i|n] eqn:E; [|now left].
  apply bsearch_found in E. destruct E as (s & Hi & Hsc). rewrite Hi. cbn [unwrap bind].
  apply nth_error_In in Hi. apply (seqs_of_in srt rows s Hsrt) in Hi. destruct Hi as (body & e & Hq & ->).
  assert (Hc : covers (Range (s_start (conv_seq (body, e))) (s_end (conv_seq (body, e)))) probe).
  { unfold seq_cmp in Hsc. unfold covers. cbn [r_begin r_end].
    destruct (N.ltb_spec probe (s_start (conv_seq (body, e)))); [discriminate|].
    destruct (N.leb_spec (s_end (conv_seq (body, e))) probe); [discriminate|lia]. }
  assert (Hrow : forall x, In x (s_rows (conv_seq (body, e))) ->
    exists r loc, In r body /\ row_location ls x = Ok loc /\ row_loc b p r loc).
  { intros x Hx. unfold conv_seq in Hx. cbn [s_rows fst] in Hx. apply in_rev in Hx. apply ddr_in in Hx.
    destruct Hx as (r & Hin & ->). apply in_rev in Hin.
    destruct Hq as (_ & Hnend & _ & pre & post & Er & _).
    destruct (Hf r) as [f Hfr].
    - rewrite Er. apply in_or_app. right. apply in_or_app. now left.
    - rewrite Forall_forall in Hnend. now apply Hnend.
    - destruct (row_location_ok _ _ _ _ r f Hl Hfr) as (loc & H1 & H2). eauto. }
  assert (Hgo : forall x, nth_error (s_rows (conv_seq (body, e))) x <> None ->
    exists r loc, In r body /\ (let* r := unwrap (nth_error (s_rows (conv_seq (body, e))) x) in
      let* loc := row_location ls r in Ok (Some loc)) = Ok (Some loc) /\ row_loc b p r loc).
  { intros x Hx. destruct (nth_error (s_rows (conv_seq (body, e))) x) as [y|] eqn:Ey; [|congruence].
    destruct (Hrow y (nth_error_In _ _ Ey)) as (r & loc & H1 & H2 & H3). exists r, loc. cbn [unwrap bind]. rewrite H2. auto. }
  destruct (binary_search_by pick (s_rows (conv_seq (body, e))) (fun r0 => l_address r0 ?= probe)) as [j|n] eqn:E.
  - right. apply bsearch_found in E. destruct E as (x & Hx & _).
    destruct (Hgo j) as (r & loc & H1 & H2 & H3); [congruence|].
    exists body, e, (Range (s_start (conv_seq (body, e))) (s_end (conv_seq (body, e)))), r, loc. split; [exact Hq|]. split; [eapply has_range; eauto|]. auto.
  - destruct n as [|n]; [now left|]. right.
    destruct (Hgo n) as (r & loc & H1 & H2 & H3).
    { apply bsearch_le in E. apply nth_error_Some. lia. }
    exists body, e, (Range (s_start (conv_seq (body, e))) (s_end (conv_seq (body, e)))), r, loc. split; [exact Hq|]. split; [eapply has_range; eauto|]. auto.
Qed.
Print Assumptions C40_total.

From Coq Require Import String.
Local Close Scope string_scope.

(** ** Example: two sequences, stored in reverse order; the first row of the
    second one is superseded by the one after it. *)
Definition ex_files : list fentry :=
  [FEntry 0 None (Some (bs "main.c"%string));
   FEntry 1 (Some (Some (bs "include"%string))) (Some (bs "util.h"%string))].
Definition ex_rows : list prow :=
  [PRow 8192 1 (Some 70) (Some 3) false; PRow 8200 2 None None false; PRow 8208 2 None None true;
   PRow 4096 1 (Some 10) None false; PRow 4096 1 (Some 11) (Some 5) false; PRow 4100 2 (Some 7) (Some 9) false;
   PRow 4104 1 (Some 12) (Some 1) false; PRow 4112 1 (Some 12) (Some 1) true].
Definition ex_prog : lprog := LProg (Some ex_rows) None ex_files.
Definition ex_body : body :=
  Body None (fun _ => None) 4 (fun _ => None) (fun _ => None) (Some (bs "/src"%string)) (Some ex_prog).

Lemma ex_sequences : forall body e, sequence ex_rows body e ->
  body = firstn 2 ex_rows /\ e = PRow 8208 2 None None true \/
  body = firstn 4 (skipn 3 ex_rows) /\ e = PRow 4112 1 (Some 12) (Some 1) true.
Proof.
  intros body e H. apply groups_nil_sequence in H. cbn in H. destruct H as [H|[H|[]]]; injection H as <- <-; auto.
Qed.
Lemma ex_wf : seqs_wf ex_rows.
Proof.
  split.
  - intros body e r H (first & Hh & ->). destruct (ex_sequences _ _ H) as [(-> & ->)|(-> & ->)].
    + injection Hh as <-. split; [|reflexivity]. intros [|[|[|i]]] [|[|[|j]]] r1 r2 Hij H1 H2; try lia; try discriminate;
        injection H1 as <-; injection H2 as <-; cbn [p_address]; lia.
    + injection Hh as <-. split; [|reflexivity]. intros [|[|[|[|[|i]]]]] [|[|[|[|[|j]]]]] r1 r2 Hij H1 H2; try lia; try discriminate;
        injection H1 as <-; injection H2 as <-; cbn [p_address]; lia.
  - intros rows1 rows2 body1 e1 body2 e2 r1 r2 E (l & e & -> & He) H1 H2 R1 R2 a C1 C2.
    assert (E0 : l = firstn 2 ex_rows \/ l = firstn 7 ex_rows).
    { assert (Hl : (List.length l <= 7)%nat).
      { apply (f_equal (@List.length prow)) in E. rewrite !app_length in E. cbn [List.length ex_rows] in E. lia. }
      clear - E He Hl. assert (Hn : nth_error ex_rows (List.length l) = Some e).
      { rewrite E, <- app_assoc, nth_error_app2, Nat.sub_diag by lia. reflexivity. }
      assert (El : l = firstn (List.length l) ex_rows).
      { rewrite E, <- app_assoc, firstn_app, Nat.sub_diag, firstn_all. cbn [firstn]. now rewrite app_nil_r. }
      destruct (List.length l) as [|[|[|[|[|[|[|[|n]]]]]]]]; try lia; auto; injection Hn as <-; discriminate. }
    destruct E0 as [->| ->].
    + assert (rows2 = skipn 3 ex_rows) as ->.
      { rewrite E at 1. cbn [ex_rows firstn app skipn]. reflexivity. }
      apply groups_nil_sequence in H2. cbn in H2. destruct H2 as [H2|[]]. injection H2 as <- <-.
      assert (e = PRow 8208 2 None None true) as -> by (cbn [ex_rows firstn app] in E; now injection E).
      apply groups_nil_sequence in H1. cbn in H1. destruct H1 as [H1|[]]. injection H1 as <- <-.
      destruct R1 as (f1 & F1 & ->), R2 as (f2 & F2 & ->). injection F1 as <-. injection F2 as <-.
      unfold covers in *. cbn [r_begin r_end p_address] in *. lia.
    + assert (rows2 = []) as ->.
      { apply (f_equal (@List.length prow)) in E. rewrite !app_length in E. cbn [List.length ex_rows firstn] in E.
        destruct rows2; auto. cbn [List.length] in E. lia. }
      destruct H2 as (_ & _ & _ & pre & post & Ep & _). destruct pre; [destruct body2|]; discriminate.
Qed.
Definition first : N -> N := fun _ => 0.
Example C40_example : exists ls, lines_parse stable ex_body ex_prog = Ok ls /\
  lines_find_location first ls 4101 =
    Ok (Some (Location (bs "/src/include"%string) (bs "util.h"%string) (Some 7) (Some 9))) /\
  lines_find_location first ls 4096 =
    Ok (Some (Location (bs "/src"%string) (bs "main.c"%string) (Some 11) (Some 5))) /\
  lines_find_location first ls 8207 =
    Ok (Some (Location (bs "/src/include"%string) (bs "util.h"%string) None None)) /\
  lines_find_location first ls 8208 = Ok None.
Proof. eexists. split; [reflexivity|]. split; [|split; [|split]]; vm_compute; reflexivity. Qed.
(** The theorem applied to it *)
Example C40_found_example : forall pick ls, lines_parse stable ex_body ex_prog = Ok ls ->
  exists loc, lines_find_location pick ls 4097 = Ok (Some loc) /\ lo_line loc = Some 11.
Proof.
  intros pick ls Hls.
  destruct (C40_found stable pick ex_body ex_prog ls ex_rows (firstn 4 (skipn 3 ex_rows)) (PRow 4112 1 (Some 12) (Some 1) true)
    (Range 4096 4112) 4097 (PRow 4096 1 (Some 11) (Some 5) false) (Some (FEntry 0 None (Some (bs "main.c"%string)))))
    as (loc & H1 & f & dir & name & _ & _ & _ & _ & H2 & _); auto using stable_ok, ex_wf.
  - apply groups_nil_sequence. cbn. auto.
  - exists (PRow 4096 1 (Some 10) None false). auto.
  - unfold covers. cbn [r_begin r_end]. lia.
  - exists [PRow 4096 1 (Some 10) None false], [PRow 4100 2 (Some 7) (Some 9) false; PRow 4104 1 (Some 12) (Some 1) false].
    split; [reflexivity|]. split; [cbn [p_address]; lia|]. repeat constructor.
  - right. split; [reflexivity|]. exists (FEntry 0 None (Some (bs "main.c"%string))). auto.
  - exists loc. split; auto. destruct (H2 11) as [H3 _]; auto; reflexivity.
Qed.

(** A row that names no file of the program makes the lookup panic. *)
Theorem C40_file_refuted : exists b p ls rows, lp_rows p = Some rows /\ seqs_wf rows /\
  lines_parse stable b p = Ok ls /\ (exists body e rg, sequence rows body e /\ seq_range body e rg /\ covers rg 4097) /\
  lines_find_location first ls 4097 = Panic.
Proof.
  exists ex_body, (LProg (Some ex_rows) None []), (Lines [([], [])] (seqs_of stable ex_rows)), ex_rows.
  split; auto. split; [apply ex_wf|]. split; [reflexivity|]. split.
  - exists (firstn 4 (skipn 3 ex_rows)), (PRow 4112 1 (Some 12) (Some 1) true), (Range 4096 4112). split.
    + apply groups_nil_sequence. cbn. auto.
    + split; [exists (PRow 4096 1 (Some 10) None false); auto|]. unfold covers. cbn [r_begin r_end]. lia.
  - vm_compute. reflexivity.
Qed.
Print Assumptions C40_file_refuted.

(** An empty sequence inside of another one hides the latter's tail: the
    condition on sequences being about some address is needed. *)
Theorem C40_empty_refuted : exists b p ls rows body e, lp_rows p = Some rows /\
  (forall r, In r rows -> exists f, file_at p (p_file r) f) /\
  lines_parse stable b p = Ok ls /\ sequence rows body e /\ seq_range body e (Range 4096 4128) /\
  (forall body' e' r, sequence rows body' e' -> seq_range body' e' r -> ordered body' /\
     (r = Range 4096 4128 \/ r = Range 4112 4112)) /\
  forall pick, lines_find_location pick ls 4120 = Ok None.
Proof.
  set (rows := [PRow 4096 1 (Some 1) None false; PRow 4128 1 None None true;
                PRow 4112 1 (Some 2) None false; PRow 4112 1 None None true]).
  exists ex_body, (LProg (Some rows) None ex_files),
    (Lines [([], []); (bs "/src"%string, bs "main.c"%string); (bs "/src/include"%string, bs "util.h"%string)] (seqs_of stable rows)),
    rows, [PRow 4096 1 (Some 1) None false], (PRow 4128 1 None None true).
  split; auto. split.
  { intros r Hr. exists (Some (FEntry 0 None (Some (bs "main.c"%string)))).
    destruct Hr as [<-|[<-|[<-|[<-|[]]]]]; right; (split; [reflexivity|]; exists (FEntry 0 None (Some (bs "main.c"%string))); auto). }
  split; [reflexivity|]. split; [apply groups_nil_sequence; cbn; auto|].
  split; [exists (PRow 4096 1 (Some 1) None false); auto|]. split.
  - intros body' e' r H (first & Hh & ->). apply groups_nil_sequence in H. cbn in H.
    destruct H as [H|[H|[]]]; injection H as <- <-; injection Hh as <-; (split; [|auto]);
      intros [|[|i]] [|[|j]] r1 r2 Hij H1 H2; try lia; discriminate.
  - intros pick. reflexivity.
Qed.
Print Assumptions C40_empty_refuted.
