(** * C06-C09: the file cache, for every history of operations

    A history is an arbitrary list of look-ups (each with its own file system
    and constructor for the cached data), pins, unpins and evictions.  The
    specification below only looks at the trace, i.e., at operations and what
    the caller observed. *)

From Verif Require Import Base Util Amap FileCache FileCacheProofs.

Section Spec.
  Context {File T : Type}.
  Notation op := (op File T).
  Notation obs := (obs File T).
  Notation trace := (list (op * obs)).

  (** Some [good] event happened, and no [bad] one after it. *)
  Definition since (good bad : op * obs -> Prop) (tr : trace) : Prop :=
    exists tr1 x tr2, tr = tr1 ++ x :: tr2 /\ good x /\ forall y, In y tr2 -> ~ bad y.

  (** Path [p] was handed data of file version [m], and not evicted since. *)
  Definition referred (tr : trace) (p : path) (m : file_meta) : Prop :=
    since (fun x => exists w init f v, x = (OpEntry w p init, ObsEntry m f v))
          (fun x => fst x = OpEvict p) tr.

  (** Path [p] was successfully pinned, and neither unpinned nor evicted since. *)
  Definition pinned_in (tr : trace) (p : path) : Prop :=
    since (fun x => x = (OpPin p, ObsPin true))
          (fun x => fst x = OpUnpin p \/ fst x = OpEvict p) tr.

  Lemma since_snoc : forall good bad tr x,
    since good bad (tr ++ [x]) <-> good x \/ (since good bad tr /\ ~ bad x).
  Proof.
    intros good bad tr x. split.
    - intros (tr1 & y & tr2 & E & Hg & Hb). destruct (exists_last (l := y :: tr2)) as (l & z & El); [discriminate|].
      rewrite El, app_assoc in E. apply app_inj_tail in E. destruct E as [E ->].
      destruct l as [|y' l]; simpl in El; injection El as -> ->.
      + now left.
      + right. split.
        * exists tr1, y', l. split; [auto|]. split; [auto|]. intros y Hy. apply Hb, in_or_app. auto.
        * apply Hb, in_or_app. right. simpl. auto.
    - intros [Hg|[(tr1 & y & tr2 & -> & Hg & Hb) Hn]].
      + exists tr, x, []. split; auto.
      + exists tr1, y, (tr2 ++ [x]). rewrite <- app_assoc. split; auto. split; auto.
        intros z Hz. apply in_app_iff in Hz. destruct Hz as [Hz|[<-|[]]]; auto.
  Qed.
  Lemma since_nil : forall good bad, ~ since good bad [].
  Proof. intros good bad (tr1 & x & tr2 & E & _). destruct tr1; discriminate. Qed.

  Lemma op_dec_evict : forall (o : op) p, {o = OpEvict p} + {o <> OpEvict p}.
  Proof.
    intros o p. destruct o; try (right; discriminate).
    destruct (N.eq_dec p0 p) as [->|H]; [left; auto|right; congruence].
  Qed.

  (** Relation of the state to the trace. *)
  Record Tr (tr : trace) (c : file_cache File T) : Prop := mkTr {
    tr_inv : Inv c;
    tr_ref : forall p m, has m (pget p (fc_cache c)) = true <-> referred tr p m;
    tr_pin : forall p, (exists m, cur p c = Some (Pinned, m)) <-> pinned_in tr p;
    tr_slot : forall m f v, slot m c = Some (f, v) ->
      (exists w q init b, In (OpEntry w q init, b) tr /\ fs_stat w q = Good m /\ fs_open w q = Good f) /\
      match v with
      | Some x => exists w q init r, In (OpEntry w q init, ObsEntry m f r) tr /\ init f = Good x
      | None => True
      end
  }.

  Lemma cur_has : forall p c pin (m : file_meta), cur (File:=File) (T:=T) p c = Some (pin, m) ->
    has m (pget p (fc_cache c)) = true.
  Proof.
    intros p c pin m H. unfold cur in H. destruct (pget p (fc_cache c)) as [pe|]; [|discriminate].
    simpl. rewrite contains_metas, H, meta_eqb_refl. apply orb_true_r.
  Qed.

  Lemma Tr_step : forall tr c o b c', Tr tr c -> fc_step c o = Ok (b, c') -> Tr (tr ++ [(o, b)]) c'.
  Proof.
    intros tr c o b c' [HI Hr Hp Hs] E.
    destruct (step_spec c o HI) as (b0 & c0 & E0 & I' & A' & Hq & Hop).
    rewrite E in E0. injection E0 as <- <-.
    constructor; auto.
    - intros p m. unfold referred. rewrite since_snoc. fold (referred tr p m). rewrite <- Hr.
      destruct o as [w q init|q|q|q]; simpl op_path in Hq; simpl fst.
      + destruct (N.eq_dec p q) as [->|Hne].
        * destruct Hop as [(meta & f & v & -> & Hh & _)|(k & -> & -> & _)].
          -- rewrite Hh, orb_true_iff. split.
             ++ intros [H|H]; [right; split; [auto|discriminate]|left].
                destruct (meta_eqb_spec m meta); [subst|discriminate]. eauto 6.
             ++ intros [(w' & i' & f' & v' & E1)|[H _]]; [|auto]. injection E1 as -> -> -> -> ->.
                right. apply meta_eqb_refl.
          -- split; [intros H; right; split; [auto|discriminate]|].
             intros [(w' & i' & f' & v' & E1)|[H _]]; [discriminate|auto].
        * rewrite Hq by auto. split; [intros H; right; split; [auto|discriminate]|].
          intros [(w' & i' & f' & v' & E1)|[H _]]; [congruence|auto].
      + destruct (N.eq_dec p q) as [->|Hne].
        * destruct Hop as (Hh & _). rewrite Hh. split; [intros H; right; split; [auto|discriminate]|].
          intros [(w' & i' & f' & v' & E1)|[H _]]; [discriminate|auto].
        * rewrite Hq by auto. split; [intros H; right; split; [auto|discriminate]|].
          intros [(w' & i' & f' & v' & E1)|[H _]]; [discriminate|auto].
      + destruct (N.eq_dec p q) as [->|Hne].
        * destruct Hop as (Hh & _). rewrite Hh. split; [intros H; right; split; [auto|discriminate]|].
          intros [(w' & i' & f' & v' & E1)|[H _]]; [discriminate|auto].
        * rewrite Hq by auto. split; [intros H; right; split; [auto|discriminate]|].
          intros [(w' & i' & f' & v' & E1)|[H _]]; [discriminate|auto].
      + destruct (N.eq_dec p q) as [->|Hne].
        * destruct Hop as (ev & -> & Hn & _). rewrite Hn. split; [discriminate|].
          intros [(w' & i' & f' & v' & E1)|[_ H]]; [discriminate|congruence].
        * rewrite Hq by auto. split; [intros H; right; split; [auto|congruence]|].
          intros [(w' & i' & f' & v' & E1)|[H _]]; [discriminate|auto].
    - intros p. unfold pinned_in. rewrite since_snoc. fold (pinned_in tr p). rewrite <- Hp.
      assert (Hother : p <> op_path o ->
        ((exists m, cur p c' = Some (Pinned, m)) <->
         (o, b) = (OpPin p, ObsPin true) \/
         (exists m, cur p c = Some (Pinned, m)) /\ ~ (fst (o, b) = OpUnpin p \/ fst (o, b) = OpEvict p))).
      { intros Hne. unfold cur. rewrite Hq by auto. split.
        - intros H. right. split; auto. simpl. intros [-> | ->]; simpl in Hne; auto.
        - intros [E1|[H _]]; auto. exfalso. injection E1 as -> ->. simpl in Hne. auto. }
      destruct (N.eq_dec p (op_path o)) as [->|Hne]; [|now apply Hother]. clear Hother.
      destruct o as [w q init|q|q|q]; simpl op_path; simpl fst.
      + destruct Hop as [(meta & f & v & -> & _ & _ & _ & Hc)|(k & -> & -> & _)].
        * destruct (cur q c) as [[pin m0]|].
          -- destruct pin; simpl is_pinned in Hc.
             ++ rewrite orb_true_r in Hc. destruct Hc as [-> ->]. split.
                ** intros _. right. split; [eauto|]. intros [|]; discriminate.
                ** intros _. eauto.
             ++ rewrite orb_false_r in Hc. destruct (negb (fc_auto_reload c)); destruct Hc as [_ ->];
                (split; [intros (x & X); discriminate|intros [X|[(x & X) _]]; discriminate]).
          -- destruct Hc as [_ ->]. split; [intros (x & X); discriminate|intros [X|[(x & X) _]]; discriminate].
        * split; [intros H; right; split; [auto|intros [|]; discriminate]|].
          intros [X|[H _]]; [discriminate|auto].
      + destruct Hop as (_ & _ & Hc). destruct (cur q c) as [[pin m0]|] eqn:Ec.
        * destruct Hc as [-> ->]. split; [auto|eauto].
        * destruct Hc as [-> ->]. rewrite Ec. split; [intros (x & X); discriminate|].
          intros [X|[(x & X) _]]; discriminate.
      + destruct Hop as (_ & _ & Hc). destruct (cur q c) as [[pin m0]|] eqn:Ec.
        * destruct Hc as [-> ->]. split; [intros (x & X); discriminate|].
          intros [X|[_ X]]; [discriminate|]. exfalso. auto.
        * destruct Hc as [-> ->]. rewrite Ec. split; [intros (x & X); discriminate|].
          intros [X|[(x & X) _]]; discriminate.
      + destruct Hop as (ev & -> & Hn & _). unfold cur at 1. rewrite Hn.
        split; [intros (x & X); discriminate|]. intros [X|[_ X]]; [discriminate|]. exfalso. auto.
    - intros m f v Hsl.
      assert (Hmono : forall m f v, slot m c = Some (f, v) ->
        (exists w q init b0, In (OpEntry w q init, b0) (tr ++ [(o, b)]) /\ fs_stat w q = Good m /\ fs_open w q = Good f) /\
        match v with
        | Some x => exists w q init r, In (OpEntry w q init, ObsEntry m f r) (tr ++ [(o, b)]) /\ init f = Good x
        | None => True
        end).
      { intros m0 f0 v0 H0. apply Hs in H0. destruct H0 as [(w & q & i & b0 & H1 & H2) H3]. split.
        - exists w, q, i, b0. split; auto. apply in_or_app; auto.
        - destruct v0; auto. destruct H3 as (w' & q' & i' & r & H4 & H5).
          exists w', q', i', r. split; auto. apply in_or_app; auto. }
      destruct o as [w q init|q|q|q].
      + destruct Hop as [(meta & f' & v' & -> & _ & Hne & Hsl' & Hc)|(k & -> & -> & _)]; [|auto].
        destruct (meta_eqb_spec m meta) as [->|Hm]; [|rewrite Hne in Hsl by auto; auto].
        assert (Hin : In (OpEntry w q init, ObsEntry meta f' v')
                         (tr ++ [(OpEntry w q init, ObsEntry meta f' v')])).
        { apply in_or_app. right. simpl. auto. }
        destruct (slot meta c) as [[f0 [v0|]]|] eqn:Es.
        * destruct Hsl' as (-> & -> & Hsl'). rewrite Hsl in Hsl'. injection Hsl' as -> ->. exact (Hmono _ _ _ Es).
        * destruct Hsl' as (-> & -> & Hsl'). rewrite Hsl in Hsl'. injection Hsl' as -> ->.
          destruct (Hmono _ _ _ Es) as [H1 _]. split; auto.
          destruct (init f0) eqn:Ei; auto. simpl in *. eauto 8.
        * destruct Hsl' as (Ho & -> & Hsl'). rewrite Hsl in Hsl'. injection Hsl' as -> ->.
          assert (Hst : fs_stat w q = Good meta).
          { destruct (cur q c) as [[pin m0]|] eqn:Ec; [|tauto].
            destruct (negb (fc_auto_reload c) || is_pinned pin); [|tauto].
            destruct Hc as [-> _]. apply cur_has in Ec.
            destruct (Inv_has_entry c q m0 HI Ec) as [e He]. unfold slot in Es. rewrite He in Es. discriminate. }
          split; [eauto 10|]. destruct (init f') eqn:Ei; auto. simpl in *. eauto 8.
      + destruct Hop as (_ & Hsame & _). rewrite Hsame in Hsl. auto.
      + destruct Hop as (_ & Hsame & _). rewrite Hsame in Hsl. auto.
      + destruct Hop as (ev & -> & _ & H1 & H2 & _).
        assert (Hsl2 : slot m c = Some (f, v)).
        { rewrite <- Hsl. symmetry. apply H1.
          assert (X : 0 < cnt m (fc_cache c')).
          { pose proof (inv_refs c' I' m) as X. unfold slot in Hsl.
            destruct (eget m (fc_entries c')); [tauto|discriminate]. }
          apply cnt_pos in X; [|apply I']. destruct X as [r Hr']. exists r.
          simpl op_path in Hq.
          destruct (N.eq_dec r q) as [->|Hne].
          - exfalso. destruct (step_spec c (OpEvict q) HI) as (b1 & c1 & E1 & _ & _ & _ & (ev1 & _ & Hn & _)).
            rewrite E in E1. injection E1 as <- <-. rewrite Hn in Hr'. discriminate.
          - split; auto. rewrite <- Hq; auto. }
        auto.
  Qed.

  Lemma Tr_run : forall ar h tr c, fc_run (fc_new ar) h = Ok (tr, c) -> Tr tr c.
  Proof.
    intros ar h. induction h as [|o h IH] using rev_ind; intros tr c H.
    - injection H as <- <-. constructor.
      + apply Inv_new.
      + intros p m. split; [discriminate|]. intros X. now apply since_nil in X.
      + intros p. split; [intros (m & X); discriminate|]. intros X. now apply since_nil in X.
      + discriminate.
    - apply fc_run_app in H. destruct H as (tr1 & c1 & tr2 & H1 & H2 & ->).
      simpl in H2. ib H2 [b c2] H. injection H2 as <- <-.
      eapply Tr_step; eauto.
  Qed.
End Spec.

(** ** C06 *)

(** No history makes the cache panic (the reference counts never underflow
    and every referred entry is present), and the cache holds on to a file
    version (its open file and data) exactly as long as some path was handed
    that version and has not been evicted since. *)
Theorem C06_cache_refcounts : forall File T ar (h : list (op File T)),
  exists tr c, fc_run (fc_new ar) h = Ok (tr, c) /\ map fst tr = h /\
    forall m, slot m c <> None <-> exists p, referred tr p m.
Proof.
  intros File T ar h. destruct (fc_run_Inv h (fc_new ar) (Inv_new ar)) as (tr & c & E & HI & _ & Hm).
  exists tr, c. split; auto. split; auto. intros m. pose proof (Tr_run _ _ _ _ E) as [_ Hr _ _].
  split.
  - intros Hs. pose proof (inv_refs c HI m) as X. unfold slot in Hs.
    destruct (eget m (fc_entries c)); [|simpl in Hs; congruence].
    destruct X as [_ X]. apply cnt_pos in X; [|apply HI]. destruct X as [p Hp]. exists p. now apply Hr.
  - intros (p & Hp). apply Hr in Hp. destruct (Inv_has_entry c p m HI Hp) as [e He].
    unfold slot. rewrite He. discriminate.
Qed.
Print Assumptions C06_cache_refcounts.

(** The internal reference count equals the number of distinct paths referring
    to the version (so "last reference" is meaningful). *)
Theorem C06_reference_count_exact : forall File T ar (h : list (op File T)) tr c m e,
  fc_run (fc_new ar) h = Ok (tr, c) -> eget m (fc_entries c) = Some e ->
  exists ps, NoDup ps /\ length ps = e_references e /\ forall p, In p ps <-> referred tr p m.
Proof.
  intros File T ar h tr c m e E He. pose proof (Tr_run _ _ _ _ E) as [HI Hr _ _].
  exists (map fst (filter (fun x => contains (metas (snd x)) m) (fc_cache c))).
  destruct (Inv_refs_some c m e HI He) as [-> _]. split; [|split].
  - pose proof (inv_pnd c HI) as Hnd. unfold akeys in Hnd. revert Hnd. clear.
    induction (fc_cache c) as [|[q qe] l IH]; simpl in *; intros Hnd; [constructor|]. inversion Hnd; subst.
    destruct (contains (metas qe) m); simpl; auto. constructor; auto.
    rewrite in_map_iff. intros (x & Hx & Hin). apply filter_In in Hin. apply H1.
    apply in_map_iff. exists x. tauto.
  - rewrite map_length. clear. induction (fc_cache c) as [|[q qe] l IH]; simpl; auto.
    destruct (contains (metas qe) m); simpl; rewrite IH; reflexivity.
  - intros p. rewrite <- Hr. rewrite in_map_iff. split.
    + intros ([q qe] & <- & Hin). apply filter_In in Hin. destruct Hin as [Hin Hc]. simpl in *.
      unfold pget. erewrite aget_nodup; [simpl; eassumption|apply N.eqb_spec|apply HI|eassumption].
    + intros Hp. destruct (pget p (fc_cache c)) as [pe|] eqn:Ep; [|discriminate].
      exists (p, pe). split; auto. apply filter_In. split; auto.
      unfold pget in Ep. eapply aget_in; [apply N.eqb_spec|eassumption].
Qed.
Print Assumptions C06_reference_count_exact.

(** ** C07 *)

(** With reloading, an unpinned path is always answered according to the
    version of the file at the time of the call. *)
Theorem C07_fresh_version : forall File T h tr (c : file_cache File T) p w init m f,
  fc_run (fc_new true) h = Ok (tr, c) -> ~ pinned_in tr p ->
  fs_stat w p = Good m -> fs_open w p = Good f ->
  exists f' v c', fc_step c (OpEntry w p init) = Ok (ObsEntry m f' v, c') /\
    ((forall q, ~ referred tr q m) -> f' = f /\ v = of_outcome (init f)).
Proof.
  intros File T h tr c p w init m f E Hp Hs Ho.
  pose proof (Tr_run _ _ _ _ E) as [HI Hr Hpin _].
  assert (Har : fc_auto_reload c = true).
  { destruct (fc_run_Inv h (fc_new true) (Inv_new true)) as (tr' & c' & E' & _ & A & _).
    rewrite E in E'. injection E' as <- <-. exact A. }
  destruct (step_spec c (OpEntry w p init) HI) as (b & c' & Es & _ & _ & _ & Hop).
  destruct Hop as [(meta & f' & v & -> & _ & _ & Hsl & Hc)|(k & -> & -> & Hk & _)].
  - assert (Hmeta : fs_stat w p = Good meta).
    { destruct (cur p c) as [[pin m0]|] eqn:Ec; [|tauto]. rewrite Har in Hc.
      destruct pin; simpl in Hc; [|tauto]. exfalso. apply Hp, Hpin. eauto. }
    assert (meta = m) by congruence. subst meta. exists f', v, c'. split; auto.
    intros Hno. assert (Hn : slot m c = None).
    { destruct (slot m c) as [[f0 v0]|] eqn:Eslot; auto. exfalso.
      pose proof (inv_refs c HI m) as X. unfold slot in Eslot.
      destruct (eget m (fc_entries c)); [|discriminate]. destruct X as [_ X].
      apply cnt_pos in X; [|apply HI]. destruct X as [q Hq]. apply Hr in Hq. now apply (Hno q). }
    rewrite Hn in Hsl. destruct Hsl as (H1 & H2 & _). split; congruence.
  - exfalso. destruct Hk as [Hk|(x & _ & _ & Hk)]; congruence.
Qed.
Print Assumptions C07_fresh_version.

(** The data handed out always stems from a file that was opened when the path
    looked up had the very version the data is handed out for. *)
Theorem C07_provenance : forall File T ar h tr (c : file_cache File T) o p w init m f x,
  fc_run (fc_new ar) (h ++ [o]) = Ok (tr, c) -> o = OpEntry w p init ->
  forall tr0, tr = tr0 ++ [(o, ObsEntry m f (Ok x))] ->
  (exists w' q init' b, In (OpEntry w' q init', b) tr /\ fs_stat w' q = Good m /\ fs_open w' q = Good f) /\
  (exists w' q init' r, In (OpEntry w' q init', ObsEntry m f r) tr /\ init' f = Good x).
Proof.
  intros File T ar h tr c o p w init m f x E -> tr0 Etr.
  apply fc_run_app in E. destruct E as (tr1 & c1 & tr2 & E1 & E2 & Et). cbn [fc_run] in E2. ib E2 [b c2] H.
  cbn [bind] in E2. injection E2 as <- <-. rewrite Etr in Et. apply app_inj_tail in Et.
  destruct Et as [<- Eb]. injection Eb as <-. subst tr.
  pose proof (Tr_run _ _ _ _ E1) as HT. pose proof (Tr_step _ _ _ _ _ HT H) as [HI' _ _ Hs].
  destruct HT as [HI _ _ _].
  destruct (step_spec c1 (OpEntry w p init) HI) as (b' & c' & Es & _ & _ & _ & Hop).
  rewrite H in Es. injection Es as <- <-.
  destruct Hop as [(meta & f' & v & Eb & _ & _ & Hsl & _)|(k & Eb & _)]; [|discriminate].
  injection Eb as <- <- <-.
  assert (Hfin : slot m c2 = Some (f, Some x)).
  { destruct (slot m c1) as [[f0 [v0|]]|].
    - destruct Hsl as (-> & Ev & Hsl). injection Ev as ->. auto.
    - destruct Hsl as (-> & Ev & Hsl). destruct (init f0); [|discriminate]. injection Ev as ->. auto.
    - destruct Hsl as (_ & Ev & Hsl). destruct (init f); [|discriminate]. injection Ev as ->. auto. }
  exact (Hs _ _ _ Hfin).
Qed.
Print Assumptions C07_provenance.

Section Stable.
  Context {File T : Type}.
  Implicit Types c : file_cache File T.

  (** The data a path refers to only ever gets completed. *)
  Definition grown (a b : option (File * option T)) : Prop :=
    exists f v v', a = Some (f, v) /\ b = Some (f, v') /\ (forall x, v = Some x -> v' = Some x).

  Lemma slot_step : forall c o b c' p m, Inv c -> fc_step c o = Ok (b, c') -> o <> OpEvict p ->
    has m (pget p (fc_cache c)) = true ->
    has m (pget p (fc_cache c')) = true /\ grown (slot m c) (slot m c').
  Proof.
    intros c o b c' p m HI E Hne Hh.
    destruct (step_spec c o HI) as (b0 & c0 & E0 & I' & _ & Hq & Hop).
    rewrite E in E0. injection E0 as <- <-.
    assert (Hsome : exists f v, slot m c = Some (f, v)).
    { destruct (Inv_has_entry c p m HI Hh) as [e He]. unfold slot. rewrite He. simpl. eauto. }
    destruct Hsome as (f & v & Hsome).
    assert (Hrefl : grown (slot m c) (slot m c)) by (rewrite Hsome; exists f, v, v; auto).
    destruct o as [w q init|q|q|q]; simpl op_path in Hq.
    - destruct Hop as [(meta & f' & v' & -> & Hh' & Hother & Hsl & _)|(k & -> & -> & _)]; [|auto].
      split.
      + destruct (N.eq_dec p q) as [->|]; [rewrite Hh', Hh; auto|rewrite Hq; auto].
      + destruct (meta_eqb_spec m meta) as [->|Hm]; [|rewrite (Hother m) by auto; auto].
        rewrite Hsome in Hsl |- *. destruct v as [x|].
        * destruct Hsl as (_ & _ & ->). exists f, (Some x), (Some x). auto.
        * destruct Hsl as (_ & _ & ->). eexists _, _, _. split; [reflexivity|]. split; [reflexivity|]. discriminate.
    - destruct Hop as (Hh' & Hs' & _). rewrite Hs'. split; auto.
      destruct (N.eq_dec p q) as [->|]; [now rewrite Hh'|rewrite Hq; auto].
    - destruct Hop as (Hh' & Hs' & _). rewrite Hs'. split; auto.
      destruct (N.eq_dec p q) as [->|]; [now rewrite Hh'|rewrite Hq; auto].
    - destruct Hop as (ev & -> & _ & H1 & _).
      assert (p <> q) by congruence. rewrite Hq by auto. split; auto. rewrite H1; auto. exists p; auto.
  Qed.

  Lemma grown_trans : forall a b d, grown a b -> grown b d -> grown a d.
  Proof.
    intros a b d (f & v & v' & -> & -> & H1) (f2 & v2 & v2' & E & -> & H2). injection E as <- <-.
    exists f, v, v2'. auto.
  Qed.

  Lemma slot_run : forall h c tr c' p m, Inv c -> fc_run c h = Ok (tr, c') -> ~ In (OpEvict p) h ->
    has m (pget p (fc_cache c)) = true ->
    has m (pget p (fc_cache c')) = true /\ grown (slot m c) (slot m c').
  Proof.
    induction h as [|o h IH]; intros c tr c' p m HI E Hne Hh; simpl in E.
    - injection E as <- <-. split; auto. destruct (Inv_has_entry c p m HI Hh) as [e He].
      unfold slot. rewrite He. simpl. eexists _, _, _. split; [reflexivity|]. split; [reflexivity|]. auto.
    - ib E [b c1] H. ib E [tr1 c2] H0. injection E as <- <-.
      destruct (slot_step c o b c1 p m HI H) as [H1 H2]; auto. { intros ->. apply Hne. simpl; auto. }
      destruct (step_spec c o HI) as (b0 & c0 & E0 & I' & _). rewrite H in E0. injection E0 as <- <-.
      destruct (IH c1 tr1 c2 p m I' H0) as [H3 H4]; auto. { intros X. apply Hne. simpl; auto. }
      split; auto. eapply grown_trans; eauto.
  Qed.

  (** The current version of a path is not affected by operations on others. *)
  Lemma cur_other : forall c o b c' p, Inv c -> fc_step c o = Ok (b, c') -> op_path o <> p ->
    cur p c' = cur p c.
  Proof.
    intros c o b c' p HI E Hne. destruct (step_spec c o HI) as (b0 & c0 & E0 & _ & _ & Hq & _).
    rewrite E in E0. injection E0 as <- <-. unfold cur. rewrite Hq; auto.
  Qed.
  (** ... nor, if it is frozen, by those on the path itself. *)
  Lemma cur_frozen : forall c o b c' p pin m, Inv c -> fc_step c o = Ok (b, c') ->
    cur p c = Some (pin, m) -> (fc_auto_reload c = false \/ pin = Pinned /\ o <> OpUnpin p) ->
    o <> OpEvict p -> exists pin', cur p c' = Some (pin', m) /\
      (fc_auto_reload c' = false \/ pin' = Pinned).
  Proof.
    intros c o b c' p pin m HI E Hc Hf Hne.
    destruct (step_spec c o HI) as (b0 & c0 & E0 & _ & A & Hq & Hop).
    rewrite E in E0. injection E0 as <- <-.
    destruct (N.eq_dec p (op_path o)) as [->|Hp].
    - destruct o as [w q init|q|q|q]; simpl op_path in *.
      + destruct Hop as [(meta & f' & v' & -> & _ & _ & _ & Hcur)|(k & -> & -> & _)].
        * rewrite Hc in Hcur.
          assert (negb (fc_auto_reload c) || is_pinned pin = true) as X.
          { destruct Hf as [->|[-> _]]; auto. apply orb_true_r. }
          rewrite X in Hcur. destruct Hcur as [_ ->]. exists pin. split; auto. rewrite A. tauto.
        * exists pin. rewrite Hc. tauto.
      + destruct Hop as (_ & _ & Hcur). rewrite Hc in Hcur. destruct Hcur as [_ ->]. eauto.
      + destruct Hop as (_ & _ & Hcur). rewrite Hc in Hcur. destruct Hcur as [_ ->].
        exists Unpinned. split; auto. rewrite A. destruct Hf as [|[_ X]]; [auto|congruence].
      + congruence.
    - exists pin. unfold cur in *. rewrite Hq by auto. rewrite A. tauto.
  Qed.

  Lemma frozen_run : forall h c tr c' p pin m, Inv c -> fc_run c h = Ok (tr, c') ->
    cur p c = Some (pin, m) ->
    (fc_auto_reload c = false \/ pin = Pinned /\ ~ In (OpUnpin p) h) -> ~ In (OpEvict p) h ->
    exists pin', cur p c' = Some (pin', m) /\ (fc_auto_reload c' = false \/ pin' = Pinned).
  Proof.
    induction h as [|o h IH]; intros c tr c' p pin m HI E Hc Hf Hne; simpl in E.
    - injection E as <- <-. exists pin. tauto.
    - ib E [b c1] H. ib E [tr1 c2] H0. injection E as <- <-.
      destruct (step_spec c o HI) as (b0 & c0 & E0 & I' & A & _). rewrite H in E0. injection E0 as <- <-.
      destruct (cur_frozen c o b c1 p pin m HI H Hc) as (pin1 & Hc1 & Hf1).
      + destruct Hf as [|[-> X]]; auto. right. split; auto. intros ->. apply X. simpl; auto.
      + intros ->. apply Hne. simpl; auto.
      + eapply (IH c1 tr1 c2 p pin1 m); eauto.
        * destruct Hf as [Hf|[_ X]]; [left; congruence|].
          destruct Hf1 as [|]; [auto|right]. split; auto. intros Y. apply X. simpl; auto.
        * intros X. apply Hne. simpl; auto.
  Qed.

  Lemma others_run : forall h c tr c' p, Inv c -> fc_run c h = Ok (tr, c') ->
    (forall o, In o h -> op_path o <> p) -> cur p c' = cur p c.
  Proof.
    induction h as [|o h IH]; intros c tr c' p HI E Hne; simpl in E.
    - injection E as <- <-. auto.
    - ib E [b c1] H. ib E [tr1 c2] H0. injection E as <- <-.
      destruct (step_spec c o HI) as (b0 & c0 & E0 & I' & A & _). rewrite H in E0. injection E0 as <- <-.
      rewrite (IH c1 tr1 c2 p I' H0) by (intros; apply Hne; simpl; auto).
      eapply cur_other; eauto. apply Hne. simpl; auto.
  Qed.

  (** Looking up a frozen path with data [f], [v0]. *)
  Lemma entry_frozen : forall c w p init b c' pin m f v0, Inv c ->
    fc_step c (OpEntry w p init) = Ok (b, c') ->
    cur p c = Some (pin, m) -> (fc_auto_reload c = false \/ pin = Pinned) ->
    slot m c = Some (f, v0) ->
    exists v, b = ObsEntry m f v /\ forall x, v0 = Some x -> v = Ok x.
  Proof.
    intros c w p init b c' pin m f v0 HI E Hc Hf Hs.
    destruct (step_spec c (OpEntry w p init) HI) as (b0 & c0 & E0 & _ & _ & _ & Hop).
    rewrite E in E0. injection E0 as <- <-.
    assert (X : negb (fc_auto_reload c) || is_pinned pin = true).
    { destruct Hf as [-> | ->]; auto. apply orb_true_r. }
    destruct Hop as [(meta & f' & v & -> & _ & _ & Hsl & Hcur)|(k & _ & _ & _ & Hcur)];
      rewrite Hc, X in Hcur; [|discriminate].
    destruct Hcur as [-> _]. rewrite Hs in Hsl. destruct v0 as [x0|].
    - destruct Hsl as (-> & -> & _). exists (Ok x0). split; auto. intros x Hx. congruence.
    - destruct Hsl as (-> & -> & _). eexists. split; [reflexivity|]. discriminate.
  Qed.

  (** What a successful look-up leaves behind. *)
  Lemma entry_leaves : forall c w p init m f v c', Inv c ->
    fc_step c (OpEntry w p init) = Ok (ObsEntry m f v, c') ->
    Inv c' /\ fc_auto_reload c' = fc_auto_reload c /\
    (exists pin, cur p c' = Some (pin, m)) /\
    exists v0, slot m c' = Some (f, v0) /\ forall x, v = Ok x -> v0 = Some x.
  Proof.
    intros c w p init m f v c' HI E.
    destruct (step_spec c (OpEntry w p init) HI) as (b0 & c0 & E0 & I' & A & _ & Hop).
    rewrite E in E0. injection E0 as <- <-. split; auto. split; auto.
    destruct Hop as [(meta & f' & v' & Eb & _ & _ & Hsl & Hcur)|(k & Eb & _)]; [|discriminate].
    injection Eb as <- <- <-. split.
    - destruct (cur p c) as [[pin m0]|]; [|destruct Hcur; eauto].
      destruct (negb (fc_auto_reload c) || is_pinned pin); destruct Hcur; subst; eauto.
    - destruct (slot m c) as [[f0 [v0|]]|].
      + destruct Hsl as (-> & -> & ->). eexists. split; [reflexivity|]. congruence.
      + destruct Hsl as (-> & -> & ->). eexists. split; [reflexivity|].
        intros x Hx. destruct (init f0); [|discriminate]. simpl in Hx. congruence.
      + destruct Hsl as (_ & -> & ->). eexists. split; [reflexivity|].
        intros x Hx. destruct (init f); [|discriminate]. simpl in Hx. congruence.
  Qed.
End Stable.

(** A pinned path keeps being answered from the very same file (and data, once
    that was created), whatever happens to the file system or other paths,
    until it is unpinned or evicted. *)
Theorem C07_pinned_stable : forall File T ar h tr (c : file_cache File T) w p init m f v c1,
  fc_run (fc_new ar) h = Ok (tr, c) ->
  fc_step c (OpEntry w p init) = Ok (ObsEntry m f v, c1) ->
  forall h1 h2 tr' c2,
  (forall o, In o h1 -> op_path o <> p) -> ~ In (OpUnpin p) h2 -> ~ In (OpEvict p) h2 ->
  fc_run c1 (h1 ++ OpPin p :: h2) = Ok (tr', c2) ->
  forall w' init' b c3, fc_step c2 (OpEntry w' p init') = Ok (b, c3) ->
  exists v', b = ObsEntry m f v' /\ forall x, v = Ok x -> v' = Ok x.
Proof.
  intros File T ar h tr c w p init m f v c1 E1 E2 h1 h2 tr' c2 Hh1 Hu He E3 w' init' b c3 E4.
  pose proof (Tr_run _ _ _ _ E1) as [HI _ _ _].
  destruct (entry_leaves _ _ _ _ _ _ _ _ HI E2) as (I1 & A1 & (pin & Hc1) & (v0 & Hs1 & Hv1)).
  assert (Hne : ~ In (OpEvict p) (h1 ++ OpPin p :: h2)).
  { intros X. apply in_app_iff in X. destruct X as [X|[X|X]]; [|discriminate|auto].
    apply Hh1 in X. simpl in X. congruence. }
  destruct (slot_run _ _ _ _ p m I1 E3 Hne (cur_has _ _ _ _ Hc1)) as [_ (f2 & va & vb & Ga & Gb & Gc)].
  rewrite Hs1 in Ga. injection Ga as <- <-.
  apply fc_run_app in E3. destruct E3 as (tra & ca & trb & Ea & Eb & ->).
  pose proof (others_run _ _ _ _ _ I1 Ea Hh1) as Hca.
  destruct (fc_run_Inv h1 c1 I1) as (tra' & ca' & Ea' & Ia & Aa & _). rewrite Ea in Ea'. injection Ea' as <- <-.
  simpl in Eb. unfold fc_pin in Eb. pose proof (set_pin_spec p Pinned ca Ia) as Sp.
  destruct (set_pin_state p Pinned ca) as [cb|].
  - destruct Sp as (Ib & Ab & _ & _ & _ & (pe & pe' & old & mm & P1 & P2 & P3 & P4)).
    assert (mm = m). { unfold cur in Hca, Hc1. rewrite P1, P3 in Hca. rewrite Hc1 in Hca. congruence. }
    subst mm. simpl bind in Eb. ib Eb [trc cc] H. injection Eb as <- <-.
    assert (Hcb : cur p cb = Some (Pinned, m)) by (unfold cur; rewrite P2; auto).
    destruct (frozen_run h2 cb trc cc p Pinned m Ib H Hcb) as (pin' & Hcc & Hfc); auto.
    destruct (fc_run_Inv h2 cb Ib) as (trd & cd & Ed & Id & Ad & _). rewrite H in Ed. injection Ed as <- <-.
    destruct (entry_frozen cc w' p init' b c3 pin' m f vb Id E4 Hcc Hfc Gb) as (v' & -> & Hv').
    exists v'. split; auto.
  - exfalso. unfold cur in Hca, Hc1. rewrite Sp, Hc1 in Hca. discriminate.
Qed.
Print Assumptions C07_pinned_stable.

(** Without automatic reloading the same holds for every path, pinned or not,
    until it is evicted. *)
Theorem C07_no_reload_stable : forall File T h tr (c : file_cache File T) w p init m f v c1,
  fc_run (fc_new false) h = Ok (tr, c) ->
  fc_step c (OpEntry w p init) = Ok (ObsEntry m f v, c1) ->
  forall h' tr' c2, ~ In (OpEvict p) h' -> fc_run c1 h' = Ok (tr', c2) ->
  forall w' init' b c3, fc_step c2 (OpEntry w' p init') = Ok (b, c3) ->
  exists v', b = ObsEntry m f v' /\ forall x, v = Ok x -> v' = Ok x.
Proof.
  intros File T h tr c w p init m f v c1 E1 E2 h' tr' c2 He E3 w' init' b c3 E4.
  destruct (fc_run_Inv h (fc_new false) (Inv_new false)) as (tr0 & c0 & E0 & HI & A0 & _).
  rewrite E1 in E0. injection E0 as <- <-. simpl in A0.
  destruct (entry_leaves _ _ _ _ _ _ _ _ HI E2) as (I1 & A1 & (pin & Hc1) & (v0 & Hs1 & Hv1)).
  destruct (slot_run _ _ _ _ p m I1 E3 He (cur_has _ _ _ _ Hc1)) as [_ (f2 & va & vb & Ga & Gb & Gc)].
  rewrite Hs1 in Ga. injection Ga as <- <-.
  destruct (frozen_run h' c1 tr' c2 p pin m I1 E3 Hc1) as (pin' & Hcc & Hfc); auto.
  { left. congruence. }
  destruct (fc_run_Inv h' c1 I1) as (trd & cd & Ed & Id & Ad & _). rewrite E3 in Ed. injection Ed as <- <-.
  destruct (entry_frozen c2 w' p init' b c3 pin' m f vb Id E4 Hcc Hfc Gb) as (v' & -> & Hv').
  exists v'. split; auto.
Qed.
Print Assumptions C07_no_reload_stable.

(** ** C08 *)

(** Evicting a path removes exactly the versions referred to by no other path,
    leaves everything else as it was, and reports whether it removed anything. *)
Theorem C08_evict : forall File T ar h tr (c : file_cache File T) p,
  fc_run (fc_new ar) h = Ok (tr, c) ->
  exists b c', fc_step c (OpEvict p) = Ok (ObsEvict b, c') /\
    (forall m, (exists q, q <> p /\ referred tr q m) -> slot m c' = slot m c /\ slot m c' <> None) /\
    (forall m, ~ (exists q, q <> p /\ referred tr q m) -> slot m c' = None) /\
    (b = true <-> exists m, slot m c <> None /\ slot m c' = None) /\
    ((forall m, ~ referred tr p m) -> b = false /\ c' = c).
Proof.
  intros File T ar h tr c p E. pose proof (Tr_run _ _ _ _ E) as [HI Hr _ _].
  destruct (step_spec c (OpEvict p) HI) as (b & c' & Es & I' & _ & Hq & (ev & -> & Hn & H1 & H2 & H3 & H4)).
  exists ev, c'. split; auto.
  assert (Hsome : forall q m, referred tr q m -> slot m c <> None).
  { intros q m Hm. apply Hr in Hm. destruct (Inv_has_entry c q m HI Hm) as [e He].
    unfold slot. rewrite He. discriminate. }
  assert (Heq : forall m, (exists q, q <> p /\ has m (pget q (fc_cache c)) = true) <->
                          (exists q, q <> p /\ referred tr q m)).
  { intros m. split; intros (q & Hq1 & Hq2); exists q; (split; [auto|]); apply Hr; auto. }
  assert (H1' : forall m, (exists q, q <> p /\ referred tr q m) -> slot m c' = slot m c /\ slot m c' <> None).
  { intros m Hm. rewrite H1 by (apply Heq; auto). split; auto. destruct Hm as (q & _ & Hm). eauto. }
  assert (H2' : forall m, ~ (exists q, q <> p /\ referred tr q m) -> slot m c' = None).
  { intros m Hm. apply H2. now rewrite Heq. }
  split; auto. split; auto. split.
  - rewrite H3. split.
    + intros (m & Hm & Hno). exists m. apply Hr in Hm. split; [eauto|]. auto.
    + intros (m & Hs & Hs'). exists m. rewrite Heq.
      assert (Hno : ~ exists q, q <> p /\ referred tr q m).
      { intros X. apply H1' in X. tauto. }
      split; auto.
      pose proof (inv_refs c HI m) as X. unfold slot in Hs.
      destruct (eget m (fc_entries c)); [|simpl in Hs; congruence]. destruct X as [_ X].
      apply cnt_pos in X; [|apply HI]. destruct X as [q Hq'].
      destruct (N.eq_dec q p) as [->|Hne]; auto. exfalso. apply Hno. exists q. split; auto. now apply Hr.
  - intros Hno. assert (Hpn : pget p (fc_cache c) = None).
    { destruct (pget p (fc_cache c)) as [pe|] eqn:Ep; auto. exfalso.
      destruct (inv_pe c HI _ _ Ep) as [Hc _]. destruct (pe_current pe) as [[pin m]|] eqn:Ec; [|congruence].
      apply (Hno m), Hr. apply cur_has with pin. unfold cur. now rewrite Ep. }
    split; auto. destruct ev; auto. exfalso. destruct H3 as [H3 _].
    destruct H3 as (m & Hm & _); auto. rewrite Hpn in Hm. discriminate.
Qed.
Print Assumptions C08_evict.

(** ** C09 *)

(** A look-up that fails leaves no trace whatsoever; it fails only because the
    file could not be inspected or opened, with that error. *)
Theorem C09_failed_lookup : forall File T ar h tr (c : file_cache File T) w p init k c',
  fc_run (fc_new ar) h = Ok (tr, c) -> fc_step c (OpEntry w p init) = Ok (ObsFail k, c') ->
  c' = c /\ (fs_stat w p = Bad k \/ exists m, fs_stat w p = Good m /\ fs_open w p = Bad k).
Proof.
  intros File T ar h tr c w p init k c' E Es. pose proof (Tr_run _ _ _ _ E) as [HI _ _ _].
  destruct (step_spec c (OpEntry w p init) HI) as (b & c0 & Es' & _ & _ & _ & Hop).
  rewrite Es in Es'. injection Es' as <- <-.
  destruct Hop as [(meta & f & v & X & _)|(k' & X & -> & Hk & _)]; [discriminate|].
  injection X as ->. split; auto. destruct Hk as [|(m & H1 & _ & H2)]; eauto.
Qed.
Print Assumptions C09_failed_lookup.

(** If the data cannot be created from an opened file, the error is reported
    but not remembered: the next look-up of that version tries again. *)
Theorem C09_failed_init_retries : forall File T ar h tr (c : file_cache File T) w p init m f k c1,
  fc_run (fc_new ar) h = Ok (tr, c) ->
  fc_step c (OpEntry w p init) = Ok (ObsEntry m f (Err k), c1) ->
  init f = Bad k /\
  forall w' p' init' b c2, fc_step c1 (OpEntry w' p' init') = Ok (b, c2) ->
    forall f' v, b = ObsEntry m f' v -> f' = f /\ v = of_outcome (init' f).
Proof.
  intros File T ar h tr c w p init m f k c1 E Es. pose proof (Tr_run _ _ _ _ E) as [HI _ _ _].
  destruct (step_spec c (OpEntry w p init) HI) as (b & c0 & Es' & I1 & _ & _ & Hop).
  rewrite Es in Es'. injection Es' as <- <-.
  destruct Hop as [(meta & f' & v & X & _ & _ & Hsl & _)|(k' & X & _)]; [|discriminate].
  injection X as <- <- <-.
  assert (Hf : init f = Bad k /\ slot m c1 = Some (f, None)).
  { destruct (slot m c) as [[f0 [v0|]]|].
    - destruct Hsl as (_ & X & _). discriminate.
    - destruct Hsl as (-> & X & Hsl). destruct (init f0); [discriminate|]. injection X as ->. auto.
    - destruct Hsl as (_ & X & Hsl). destruct (init f); [discriminate|]. injection X as ->. auto. }
  destruct Hf as [Hf Hs]. split; auto.
  intros w' p' init' b c2 E2 f' v ->.
  destruct (step_spec c1 (OpEntry w' p' init') I1) as (b & c0 & Es' & _ & _ & _ & Hop).
  rewrite E2 in Es'. injection Es' as <- <-.
  destruct Hop as [(meta & f0 & v0 & X & _ & _ & Hsl2 & _)|(k' & X & _)]; [|discriminate].
  injection X as <- <- <-. rewrite Hs in Hsl2. tauto.
Qed.
Print Assumptions C09_failed_init_retries.

(** ** A concrete history meeting the hypotheses above *)
Section Example.
  Definition mA := FileMeta 1 10 100 5 0.
  Definition mB := FileMeta 1 10 120 6 0.
  Definition fs1 : fs N := Fs (fun p => if (p <? 3)%N then Good mA else Bad ENotFound) (fun p => Good 77%N).
  Definition fs2 : fs N := Fs (fun p => if (p <? 3)%N then Good mB else Bad ENotFound) (fun p => Good 88%N).
  Definition mk (f : N) : outcome N := Good (f * 2)%N.
  (* paths 1 and 2 share version A (e.g. a hard link), 1 is then reloaded as B *)
  Definition hist : list (op N N) :=
    [OpEntry fs1 1%N mk; OpEntry fs1 2%N mk; OpPin 2%N; OpEntry fs2 1%N mk; OpEntry fs2 2%N mk;
     OpEntry fs2 3%N mk; OpEvict 1%N].
  Example C06_ex :
    match fc_run (fc_new true) hist with
    | Ok (tr, c) => map snd tr =
        [ObsEntry mA 77%N (Ok 154%N); ObsEntry mA 77%N (Ok 154%N); ObsPin true;
         ObsEntry mB 88%N (Ok 176%N); ObsEntry mA 77%N (Ok 154%N); ObsFail ENotFound; ObsEvict true]
        /\ slot mA c = Some (77%N, Some 154%N) /\ slot mB c = None
    | _ => False
    end.
  Proof. vm_compute. auto. Qed.
  (* hypotheses of C07_pinned_stable: path 2, pinned, file changed to B *)
  Example C07_ex :
    match fc_run (fc_new true) [OpEntry fs1 1%N mk] with
    | Ok (_, c) =>
        match fc_step c (OpEntry fs1 2%N mk) with
        | Ok (ObsEntry m f v, c1) => m = mA /\ f = 77%N /\ v = Ok 154%N /\
            match fc_run c1 ([OpEvict 1%N] ++ OpPin 2%N :: [OpEntry fs2 1%N mk]) with
            | Ok (_, c2) =>
                match fc_step c2 (OpEntry fs2 2%N mk) with
                | Ok (b, _) => b = ObsEntry mA 77%N (Ok 154%N)
                | _ => False
                end
            | _ => False
            end
        | _ => False
        end
    | _ => False
    end.
  Proof. vm_compute. auto. Qed.
  (* hypotheses of C07_fresh_version: after the change, path 1 gets version B *)
  Example C07_fresh_ex :
    exists tr c c', fc_run (fc_new true) [OpEntry fs1 1%N mk] = Ok (tr, c) /\
      fc_step c (OpEntry fs2 1%N mk) = Ok (ObsEntry mB 88%N (Ok 176%N), c').
  Proof. repeat eexists. Qed.
  Example C07_no_reload_ex :
    exists tr c c', fc_run (fc_new false) [OpEntry fs1 1%N mk; OpUnpin 1%N] = Ok (tr, c) /\
      fc_step c (OpEntry fs2 1%N mk) = Ok (ObsEntry mA 77%N (Ok 154%N), c').
  Proof. repeat eexists. Qed.
  Example C09_ex :
    exists tr c c' c'', fc_run (fc_new true) [OpEntry fs1 1%N mk] = Ok (tr, c) /\
      fc_step c (OpEntry fs1 3%N mk) = Ok (ObsFail ENotFound, c') /\
      fc_step c (OpEntry fs2 1%N (fun _ => Bad EInvalidData)) = Ok (ObsEntry mB 88%N (Err EInvalidData), c'').
  Proof. repeat eexists. Qed.
End Example.
