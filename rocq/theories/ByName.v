(** * Looking up names in an index sorted by name *)

From Verif Require Import Base Util UtilProofs.
Local Open Scope N_scope.

Lemma nth_error_firstn' : forall A (l : list A) n i, (i < n)%nat ->
  nth_error (firstn n l) i = nth_error l i.
Proof.
  induction l as [|x l IH]; intros [|n] [|i] H; cbn; auto; try lia. apply IH. lia.
Qed.

Section ByName.
  Context {A : Type} (key : A -> list N).

  (** [map_while] with a comparison of the name *)
  Fixpoint take_key (name : list N) (l : list A) : list A :=
    match l with
    | [] => []
    | f :: l => if beq (key f) name then f :: take_key name l else []
    end.

  Definition name_sorted (l : list A) : Prop :=
    StronglySorted (fun a b => bcmp (key a) (key b) <> Gt) l.

  Lemma take_key_filter : forall name l, name_sorted l ->
    (forall x, In x l -> bcmp (key x) name <> Lt) ->
    take_key name l = filter (fun f => beq (key f) name) l.
  Proof.
    intros name l Hs. induction Hs as [|x l Hs IH HF]; intros Hge; [reflexivity|].
    cbn [take_key filter]. destruct (beq (key x) name) eqn:E.
    - rewrite IH; auto. intros y Hy. apply Hge. now right.
    - symmetry. assert (Hgt : bcmp (key x) name = Gt).
      { destruct (bcmp (key x) name) eqn:Ec; auto.
        - apply bcmp_eq in Ec. rewrite Ec in E. rewrite (proj2 (beq_eq name name)) in E; [discriminate|auto].
        - exfalso. apply (Hge x); auto. now left. }
      assert (Hn : forall y, In y l -> beq (key y) name = false).
      { intros y Hy. destruct (beq (key y) name) eqn:Ey; auto. apply beq_eq in Ey. subst name.
        rewrite Forall_forall in HF. now apply HF in Hy. }
      clear -Hn. induction l as [|y l IH]; [reflexivity|]. cbn [filter]. rewrite (Hn y) by now left.
      apply IH. intros z Hz. apply Hn. now right.
  Qed.

  Lemma name_cmp_sorted : forall l name, name_sorted l -> cmp_sorted (fun f => bcmp (key f) name) l.
  Proof.
    intros l name Hs i j a b Hij Ha Hb.
    assert (Hab : bcmp (key a) (key b) <> Gt).
    { destruct (Nat.eq_dec i j) as [->|].
      - assert (a = b) by congruence. subst. rewrite bcmp_refl. discriminate.
      - apply (StronglySorted_nth _ _ l i j a b Hs); auto. lia. }
    split.
    - intros H. destruct (bcmp (key a) (key b)) eqn:E; [|eapply bcmp_lt_trans; eauto|congruence].
      apply bcmp_eq in E. now rewrite E.
    - intros H. destruct (bcmp (key a) (key b)) eqn:E; [|
        |congruence].
      + apply bcmp_eq in E. now rewrite <- E.
      + rewrite (bcmp_antisym name (key b)). rewrite (bcmp_antisym name (key a)) in H.
        destruct (bcmp name (key a)) eqn:Ea; cbn in H; try discriminate.
        rewrite (bcmp_lt_trans _ _ _ Ea E). reflexivity.
  Qed.

  Definition named (name : list N) (l : list A) : list A :=
    match find_lowest_match_by l (fun f => bcmp (key f) name) with
    | None => []
    | Some i => take_key name (skipn i l)
    end.

  Lemma named_filter : forall name l, name_sorted l ->
    named name l = filter (fun f => beq (key f) name) l.
  Proof.
    intros name l Hs. pose proof (name_cmp_sorted l name Hs) as Hc. unfold named.
    destruct (find_lowest_match_by l (fun f => bcmp (key f) name)) as [i|] eqn:E.
    - apply find_lowest_match_by_some in E; auto. destruct E as [(x & Hx & Hxe) Hlt].
      assert (Hsk : forall (l : list A) i, name_sorted l -> name_sorted (skipn i l)).
      { clear. induction l as [|x l IH]; intros [|i] H; cbn [skipn]; auto. apply IH. now inversion H. }
      rewrite take_key_filter; auto.
      + assert (Hf : filter (fun f => beq (key f) name) (firstn i l) = []).
        { assert (Hall : forall y, In y (firstn i l) -> beq (key y) name = false).
          { intros y Hy. apply In_nth_error in Hy. destruct Hy as [j Hj].
            assert (Hji : (j < i)%nat).
            { apply nth_error_lt in Hj. rewrite firstn_length in Hj. lia. }
            rewrite nth_error_firstn' in Hj by auto. apply Hlt in Hj; auto.
            destruct (beq (key y) name) eqn:Ey; auto. apply beq_eq in Ey. rewrite Ey, bcmp_refl in Hj. discriminate. }
          clear -Hall. induction (firstn i l) as [|y r IH]; [reflexivity|]. cbn [filter].
          rewrite (Hall y) by now left. apply IH. intros z Hz. apply Hall. now right. }
        rewrite <- (firstn_skipn i l) at 2. rewrite filter_app, Hf. reflexivity.
      + intros y Hy Hylt. apply In_nth_error in Hy. destruct Hy as [j Hj].
        assert (Hy : nth_error l (i + j) = Some y).
        { clear -Hj. revert i Hj. induction l as [|z l IH]; intros [|i] Hj; cbn [skipn] in Hj; auto.
          destruct j; discriminate. cbn. now apply IH. }
        destruct (Hc i (i + j)%nat x y ltac:(lia) Hx Hy) as [H1 _]. cbv beta in H1.
        specialize (H1 Hylt). congruence.
    - symmetry. pose proof (find_lowest_match_by_none _ _ _ Hc E) as Hn. cbv beta in Hn. clear -Hn.
      induction l as [|x l IH]; [reflexivity|]. cbn [filter].
      destruct (beq (key x) name) eqn:Ex.
      + exfalso. apply (Hn x); [now left|]. apply bcmp_eq. now apply beq_eq.
      + apply IH. intros y Hy. apply Hn. now right.
  Qed.
End ByName.
