(** * Proofs about the file cache model *)

From Verif Require Import Base Util Amap FileCache.

Lemma contains_In : forall l m, contains l m = true <-> In m l.
Proof.
  intros l m. unfold contains. rewrite existsb_exists. split.
  - intros (x & Hx & E). destruct (meta_eqb_spec m x); congruence.
  - intros H. exists m. split; auto. destruct (meta_eqb_spec m m); congruence.
Qed.
Lemma contains_false : forall l m, contains l m = false <-> ~ In m l.
Proof. intros. rewrite <- contains_In. destruct (contains l m); intuition congruence. Qed.
Lemma contains_app : forall l1 l2 m, contains (l1 ++ l2) m = contains l1 m || contains l2 m.
Proof. intros. unfold contains. apply existsb_app. Qed.
Lemma contains_one : forall m x, contains [x] m = meta_eqb m x.
Proof. intros. unfold contains. simpl. apply orb_false_r. Qed.
Lemma meta_eqb_refl : forall m, meta_eqb m m = true.
Proof. intros. destruct (meta_eqb_spec m m); congruence. Qed.
Lemma meta_eqb_sym : forall a b, meta_eqb a b = meta_eqb b a.
Proof. intros. destruct (meta_eqb_spec a b); destruct (meta_eqb_spec b a); congruence. Qed.

Lemma contains_metas : forall pe m,
  contains (metas pe) m =
  contains (pe_previous pe) m ||
  match pe_current pe with Some (_, c) => meta_eqb m c | None => false end.
Proof.
  intros pe m. unfold metas. destruct (pe_current pe) as [[pin c]|]; [|now rewrite orb_false_r].
  destruct (contains (pe_previous pe) c) eqn:E.
  - destruct (meta_eqb_spec m c) as [->|]; [now rewrite E|now rewrite orb_false_r].
  - now rewrite contains_app, contains_one.
Qed.
Lemma NoDup_snoc : forall A (l : list A) x, NoDup l -> ~ In x l -> NoDup (l ++ [x]).
Proof.
  intros A l x Hnd Hx. apply NoDup_rev in Hnd. rewrite <- (rev_involutive (l ++ [x])).
  apply NoDup_rev. rewrite rev_app_distr. simpl. constructor; auto. now rewrite <- in_rev.
Qed.
Lemma NoDup_metas : forall pe, NoDup (pe_previous pe) -> NoDup (metas pe).
Proof.
  intros pe H. unfold metas. destruct (pe_current pe) as [[pin c]|]; auto.
  destruct (contains (pe_previous pe) c) eqn:E; auto.
  apply NoDup_snoc; auto. now apply contains_false.
Qed.

Section Proofs.
  Context {File T : Type}.
  Notation entry := (entry File T).
  Notation file_cache := (file_cache File T).
  Notation fs := (fs File).
  Notation op := (op File T).
  Notation obs := (obs File T).
  Implicit Types (c : file_cache) (es : list (file_meta * entry)).

  Lemma eget_eset_eq : forall m (e : entry) es, eget m (eset m e es) = Some e.
  Proof. intros. apply aget_aset_eq, meta_eqb_spec. Qed.
  Lemma eget_eset_neq : forall m m' (e : entry) es, m <> m' -> eget m (eset m' e es) = eget m es.
  Proof. intros. now apply aget_aset_neq; [apply meta_eqb_spec|]. Qed.
  Lemma pget_pset_eq : forall p pe l, pget p (pset p pe l) = Some pe.
  Proof. intros. apply aget_aset_eq, N.eqb_spec. Qed.
  Lemma pget_pset_neq : forall p q pe l, p <> q -> pget p (pset q pe l) = pget p l.
  Proof. intros. now apply aget_aset_neq; [apply N.eqb_spec|]. Qed.

  (** Number of paths referring to [m]. *)
  Fixpoint cnt (m : file_meta) (l : list (path * path_entry)) : nat :=
    match l with
    | [] => 0
    | (_, pe) :: l' => (if contains (metas pe) m then 1 else 0) + cnt m l'
    end.
  Definition has (m : file_meta) (o : option path_entry) : bool :=
    match o with Some pe => contains (metas pe) m | None => false end.

  Lemma cnt_pset : forall m p pe l, NoDup (akeys l) ->
    cnt m (pset p pe l) + (if has m (pget p l) then 1 else 0)
    = cnt m l + (if contains (metas pe) m then 1 else 0).
  Proof.
    intros m p pe l. unfold pset, pget. induction l as [|[q qe] l IH]; simpl; intros Hnd; [lia|].
    inversion Hnd; subst. destruct (N.eqb_spec p q) as [->|Hne]; simpl.
    - lia.
    - specialize (IH H2). lia.
  Qed.
  Lemma cnt_pdel : forall m p l, NoDup (akeys l) ->
    cnt m (pdel p l) + (if has m (pget p l) then 1 else 0) = cnt m l.
  Proof.
    intros m p l. unfold pdel, pget. induction l as [|[q qe] l IH]; simpl; intros Hnd; [lia|].
    inversion Hnd; subst. destruct (N.eqb_spec p q) as [->|Hne]; simpl.
    - lia.
    - specialize (IH H2). lia.
  Qed.
  Lemma cnt_pos : forall m l, NoDup (akeys l) ->
    (0 < cnt m l <-> exists p, has m (pget p l) = true).
  Proof.
    intros m l. unfold pget. induction l as [|[q qe] l IH]; simpl; intros Hnd.
    - split; [lia|]. intros (p & H). discriminate.
    - inversion Hnd; subst. specialize (IH H2). destruct (contains (metas qe) m) eqn:E.
      + split; [|lia]. intros _. exists q. rewrite N.eqb_refl. exact E.
      + simpl. rewrite IH. split; intros (p & Hp); exists p.
        * destruct (N.eqb_spec p q) as [->|]; auto.
          exfalso. unfold has, path in *. destruct (aget N.eqb q l) as [qe'|] eqn:Eg; [|discriminate].
          apply aget_in in Eg; [|apply N.eqb_spec]. apply H1. apply in_map_iff. now exists (q, qe').
        * destruct (N.eqb_spec p q) as [e|]; auto. simpl in Hp. congruence.
  Qed.

  Record Inv (c : file_cache) : Prop := mkInv {
    inv_pnd : NoDup (akeys (fc_cache c));
    inv_end : NoDup (akeys (fc_entries c));
    inv_pe : forall p pe, pget p (fc_cache c) = Some pe ->
               pe_current pe <> None /\ NoDup (pe_previous pe);
    inv_refs : forall m, match eget m (fc_entries c) with
                         | Some e => e_references e = cnt m (fc_cache c) /\ 0 < cnt m (fc_cache c)
                         | None => cnt m (fc_cache c) = 0
                         end
  }.

  Lemma Inv_new : forall b, Inv (fc_new b).
  Proof. intros b. constructor; simpl; try constructor; try discriminate; auto. Qed.

  (** What [get_or_insert] does. *)
  Lemma get_or_insert_spec : forall w p pe es,
    NoDup (pe_previous pe) ->
    match get_or_insert w p pe es with
    | (Ok meta, pe', es') =>
        fs_stat w p = Good meta /\
        pe_current pe' = Some (Unpinned, meta) /\ NoDup (pe_previous pe') /\
        (forall m, contains (metas pe') m = contains (metas pe) m || meta_eqb m meta) /\
        (forall m, m <> meta -> eget m es' = eget m es) /\
        (exists e', eget meta es' = Some e' /\
          match eget meta es with
          | Some e => e_references e' = e_references e + (if contains (metas pe) meta then 0 else 1) /\
                      e_file e' = e_file e /\ e_value e' = e_value e
          | None => e_references e' = (if contains (metas pe) meta then 0 else 1) /\
                    fs_open w p = Good (e_file e') /\ e_value e' = None
          end) /\
        (NoDup (akeys es) -> NoDup (akeys es'))
    | (Err k, pe', es') => pe' = pe /\ es' = es /\
        (fs_stat w p = Bad k \/ exists m, fs_stat w p = Good m /\ eget m es = None /\ fs_open w p = Bad k)
    | _ => False
    end.
  Proof.
    intros w p pe es Hnd. unfold get_or_insert.
    destruct (fs_stat w p) as [meta|k]; [|now auto].
    set (mid := match eget meta es with Some e => _ | None => _ end).
    assert (Hmid :
      match mid with
      | (Ok e, es1) => eget meta es1 = Some e /\ (forall m, m <> meta -> eget m es1 = eget m es) /\
           (NoDup (akeys es) -> NoDup (akeys es1)) /\
           match eget meta es with
           | Some e0 => e = e0
           | None => fs_open w p = Good (e_file e) /\ e_references e = 0 /\ e_value e = None
           end
      | (Err k, es1) => es1 = es /\ eget meta es = None /\ fs_open w p = Bad k
      | _ => False
      end).
    { unfold mid. destruct (eget meta es) as [e|] eqn:E; [now auto|].
      destruct (fs_open w p) as [f|k]; [|now auto].
      split; [apply eget_eset_eq|]. split; [intros; now apply eget_eset_neq|].
      split; [apply aset_nodup, meta_eqb_spec|]. auto. }
    destruct mid as [[e|k| |] es1]; try tauto.
    2:{ destruct Hmid as (-> & H1 & H2). split; auto. split; auto. right. eauto. }
    destruct Hmid as (Hg & Hne & Hk & Horig).
    set (changed := match pe_current pe with None => true | Some _ => _ end).
    destruct changed eqn:Ech.
    - set (previous := match pe_current pe with Some _ => _ | None => _ end).
      assert (Hprev : forall m, contains previous m = contains (metas pe) m).
      { intros m. unfold previous, metas. destruct (pe_current pe) as [[pin cm]|]; auto. }
      assert (Hpnd : NoDup previous).
      { unfold previous. pose proof (NoDup_metas pe Hnd) as H. unfold metas in H.
        destruct (pe_current pe) as [[pin cm]|]; auto. }
      assert (Hmetas : forall m, contains (metas (PathEntry (Some (Unpinned, meta)) previous)) m
                = contains (metas pe) m || meta_eqb m meta).
      { intros m. rewrite contains_metas. simpl. now rewrite Hprev. }
      rewrite Hprev. split; auto. split; auto. split; auto. split; auto.
      destruct (contains (metas pe) meta) eqn:Ec.
      + split; auto. split; auto. exists e. split; auto.
        destruct (eget meta es) as [e0|]; [subst e0; rewrite Nat.add_0_r; auto|].
        destruct Horig as (H1 & H2 & H3). auto.
      + split. { intros m Hm. rewrite eget_eset_neq by auto. auto. }
        split. { eexists. split; [apply eget_eset_eq|]. simpl.
          destruct (eget meta es) as [e0|]; [subst e0; repeat split; auto; lia|].
          destruct Horig as (H1 & H2 & H3). rewrite H2. auto. }
        intros H. apply aset_nodup; [apply meta_eqb_spec|]. auto.
    - assert (Hcur : exists pin, pe_current pe = Some (pin, meta)).
      { unfold changed in Ech. destruct (pe_current pe) as [[pin cm]|]; [|discriminate].
        destruct (meta_eqb_spec cm meta) as [E|]; [subst cm; eauto|discriminate]. }
      destruct Hcur as [pin Hcur].
      assert (Ec : contains (metas pe) meta = true).
      { rewrite contains_metas, Hcur, meta_eqb_refl. apply orb_true_r. }
      split; auto. split; auto. split; auto. split.
      { intros m. rewrite !contains_metas, Hcur. simpl.
        destruct (meta_eqb m meta); [now rewrite !orb_true_r|now rewrite !orb_false_r]. }
      split; auto. split; auto. exists e. split; auto. rewrite Ec.
      destruct (eget meta es) as [e0|]; [subst e0; rewrite Nat.add_0_r; auto|].
      destruct Horig as (H1 & H2 & H3). auto.
  Qed.

  Lemma Inv_refs_some : forall c m e, Inv c -> eget m (fc_entries c) = Some e ->
    e_references e = cnt m (fc_cache c) /\ 0 < cnt m (fc_cache c).
  Proof. intros c m e H E. pose proof (inv_refs c H m) as X. now rewrite E in X. Qed.
  Lemma Inv_has_entry : forall c p m, Inv c -> has m (pget p (fc_cache c)) = true ->
    exists e, eget m (fc_entries c) = Some e.
  Proof.
    intros c p m H Hh. pose proof (inv_refs c H m) as X.
    destruct (eget m (fc_entries c)) as [e|]; eauto.
    assert (0 < cnt m (fc_cache c)); [|lia]. apply cnt_pos; [apply H|]. eauto.
  Qed.

  (** Data associated with a slot that users can see. *)
  Definition slot (m : file_meta) (c : file_cache) : option (File * option T) :=
    option_map (fun e => (e_file e, e_value e)) (eget m (fc_entries c)).

  (** Everything we need to know about a successful or failed [fc_entry]. *)
  Lemma fc_entry_spec : forall w p c, Inv c ->
    match fc_entry w p c with
    | (Ok meta, c') =>
        Inv c' /\ fc_auto_reload c' = fc_auto_reload c /\
        (exists pe', pget p (fc_cache c') = Some pe' /\
           match pget p (fc_cache c) with
           | Some pe =>
               if negb (fc_auto_reload c) || match pe_current pe with Some (pin, _) => is_pinned pin | None => false end
               then c' = c /\ (exists pin, pe_current pe = Some (pin, meta))
               else pe_current pe' = Some (Unpinned, meta) /\ fs_stat w p = Good meta
           | None => pe_current pe' = Some (Unpinned, meta) /\ fs_stat w p = Good meta
           end) /\
        (forall q, q <> p -> pget q (fc_cache c') = pget q (fc_cache c)) /\
        (forall m, has m (pget p (fc_cache c')) = has m (pget p (fc_cache c)) || meta_eqb m meta) /\
        (forall m, m <> meta -> slot m c' = slot m c) /\
        (exists f v, slot meta c' = Some (f, v) /\
           match slot meta c with
           | Some s => s = (f, v)
           | None => fs_open w p = Good f /\ v = None
           end)
    | (Err k, c') => c' = c /\
        (fs_stat w p = Bad k \/ exists m, fs_stat w p = Good m /\ slot m c = None /\ fs_open w p = Bad k)
    | _ => False
    end.
  Proof.
    intros w p c HI. unfold fc_entry.
    (* The common part: running [get_or_insert] on [pe] standing for [p]. *)
    assert (Hslow : forall pe,
      (pget p (fc_cache c) = Some pe \/ pget p (fc_cache c) = None /\ pe = path_entry_default) ->
      match get_or_insert w p pe (fc_entries c) with
      | (Ok meta, pe', es') =>
          let c' := FileCache (pset p pe' (fc_cache c)) es' (fc_auto_reload c) in
          Inv c' /\ pe_current pe' = Some (Unpinned, meta) /\ fs_stat w p = Good meta /\
          (forall m, has m (pget p (fc_cache c')) = has m (pget p (fc_cache c)) || meta_eqb m meta) /\
          (forall m, m <> meta -> slot m c' = slot m c) /\
          (exists f v, slot meta c' = Some (f, v) /\
             match slot meta c with
             | Some s => s = (f, v)
             | None => fs_open w p = Good f /\ v = None
             end)
      | (Err k, pe', es') => pe' = pe /\ es' = fc_entries c /\
          (fs_stat w p = Bad k \/ exists m, fs_stat w p = Good m /\ slot m c = None /\ fs_open w p = Bad k)
      | _ => False
      end).
    { intros pe Hpe.
      assert (Hnd : NoDup (pe_previous pe)).
      { destruct Hpe as [Hpe|[_ ->]]; [|constructor]. now apply (inv_pe c HI) in Hpe. }
      assert (Hhas : forall m, has m (pget p (fc_cache c)) = contains (metas pe) m).
      { intros m. destruct Hpe as [->|[-> ->]]; reflexivity. }
      pose proof (get_or_insert_spec w p pe (fc_entries c) Hnd) as G.
      destruct (get_or_insert w p pe (fc_entries c)) as [[[meta|k| |] pe'] es']; try tauto.
      - destruct G as (G1 & G2 & G3 & G4 & G5 & (e' & G6 & G7) & G8).
        simpl. set (c' := FileCache _ _ _).
        assert (Hh' : forall m, has m (pget p (fc_cache c')) = has m (pget p (fc_cache c)) || meta_eqb m meta).
        { intros m. unfold c'. simpl. rewrite pget_pset_eq, Hhas. apply G4. }
        assert (Hcnt : forall m, cnt m (fc_cache c') =
                   cnt m (fc_cache c) + (if contains (metas pe) m then 0 else if meta_eqb m meta then 1 else 0)).
        { intros m. pose proof (cnt_pset m p pe' (fc_cache c) (inv_pnd c HI)) as X.
          rewrite Hhas, G4 in X. unfold c'. simpl.
          destruct (contains (metas pe) m); destruct (meta_eqb m meta); simpl in X; lia. }
        split; [|split; [exact G2|split; [exact G1|split; [exact Hh'|split]]]].
        + constructor.
          * unfold c'; simpl. apply aset_nodup; [apply N.eqb_spec|apply HI].
          * unfold c'; simpl. apply G8, HI.
          * intros q qe Hq. unfold c' in Hq; simpl in Hq.
            destruct (N.eq_dec q p) as [->|Hne].
            -- rewrite pget_pset_eq in Hq. injection Hq as <-. rewrite G2. split; [discriminate|auto].
            -- rewrite pget_pset_neq in Hq by auto. now apply (inv_pe c HI) in Hq.
          * intros m. rewrite Hcnt. unfold c' at 1; simpl.
            destruct (meta_eqb_spec m meta) as [->|Hne].
            -- rewrite G6. pose proof (inv_refs c HI meta) as X.
               destruct (eget meta (fc_entries c)) as [e|].
               ++ destruct G7 as (-> & _ & _). destruct X as [-> X].
                  destruct (contains (metas pe) meta); lia.
               ++ destruct G7 as (-> & _ & _). rewrite X.
                  destruct (contains (metas pe) meta) eqn:Ec; [|lia].
                  exfalso. destruct (Inv_has_entry c p meta HI) as [e0 He0]; [now rewrite Hhas|].
                  pose proof (Inv_refs_some c meta e0 HI He0). lia.
            -- rewrite G5 by auto. pose proof (inv_refs c HI m) as X.
               destruct (eget m (fc_entries c)) as [e|]; destruct (contains (metas pe) m); lia.
        + intros m Hm. unfold slot, c'; simpl. now rewrite G5.
        + exists (e_file e'), (e_value e'). unfold slot, c'; simpl. rewrite G6. split; auto.
          destruct (eget meta (fc_entries c)) as [e|]; simpl.
          * destruct G7 as (_ & -> & ->). reflexivity.
          * destruct G7 as (_ & -> & ->). auto.
      - destruct G as (-> & -> & G). split; auto. split; auto.
        destruct G as [G|(m & G1 & G2 & G3)]; [auto|right]. exists m. unfold slot. rewrite G2. auto. }
    destruct (pget p (fc_cache c)) as [pe|] eqn:Ep.
    - specialize (Hslow pe (or_introl eq_refl)).
      destruct (inv_pe c HI _ _ Ep) as [Hcur _].
      destruct (pe_current pe) as [[pin cm]|] eqn:Ec; [|congruence].
      destruct (negb (fc_auto_reload c) || is_pinned pin) eqn:Eb.
      + assert (Hm : has cm (pget p (fc_cache c)) = true).
        { rewrite Ep. simpl. rewrite contains_metas, Ec, meta_eqb_refl. apply orb_true_r. }
        destruct (Inv_has_entry c p cm HI Hm) as [e He]. rewrite He.
        split; auto. split; auto. split.
        { exists pe. split; [auto|]. split; eauto. }
        split; auto. split.
        { intros m. rewrite Ep in Hm |- *. destruct (meta_eqb_spec m cm) as [->|]; [now rewrite Hm|now rewrite orb_false_r]. }
        split; auto. unfold slot. rewrite He. simpl. eauto.
      + destruct (get_or_insert w p pe (fc_entries c)) as [[[meta|k| |] pe'] es']; try tauto.
        * destruct Hslow as (H1 & H2 & H3 & H4 & H5 & H6). split; auto. split; auto. split.
          { exists pe'. split; [simpl; apply pget_pset_eq|]. auto. }
          split; [|auto]. intros q Hq. simpl. now apply pget_pset_neq.
        * destruct Hslow as (-> & -> & H). split; auto.
          assert (Hset : pset p pe (fc_cache c) = fc_cache c).
          { clear -Ep. unfold pset, pget in *. induction (fc_cache c) as [|[q qe] l IH]; simpl in *; [discriminate|].
            destruct (N.eqb_spec p q) as [->|]; [congruence|]. now rewrite IH. }
          rewrite Hset. now destruct c.
    - specialize (Hslow path_entry_default (or_intror (conj eq_refl eq_refl))).
      destruct (get_or_insert w p path_entry_default (fc_entries c)) as [[[meta|k| |] pe'] es']; try tauto.
      + destruct Hslow as (H1 & H2 & H3 & H4 & H5 & H6). split; auto. split; auto. split.
        { exists pe'. split; [simpl; apply pget_pset_eq|]. auto. }
        split; [|auto]. intros q Hq. simpl. now apply pget_pset_neq.
      + destruct Hslow as (-> & -> & H). split; auto. now destruct c.
  Qed.

  (** Filling a slot. *)
  Lemma fc_fill_spec : forall meta init c e, Inv c -> eget meta (fc_entries c) = Some e ->
    let '(r, c') := fc_fill meta init c in
    Inv c' /\ fc_auto_reload c' = fc_auto_reload c /\ fc_cache c' = fc_cache c /\
    (forall m, m <> meta -> slot m c' = slot m c) /\
    match e_value e with
    | Some v => r = Ok v /\ slot meta c' = Some (e_file e, Some v)
    | None => r = of_outcome (init (e_file e)) /\
        slot meta c' = Some (e_file e, match init (e_file e) with Good v => Some v | Bad _ => None end)
    end.
  Proof.
    intros meta init c e HI He. unfold fc_fill. rewrite He.
    set (g := get_or_try_init (e_value e) (of_outcome (init (e_file e)))).
    assert (Hg : g = match e_value e with
                     | Some v => (Ok v, Some v, false)
                     | None => (of_outcome (init (e_file e)),
                                match init (e_file e) with Good v => Some v | Bad _ => None end, true)
                     end).
    { unfold g, get_or_try_init. destruct (e_value e); auto. now destruct (init (e_file e)). }
    destruct g as [[r value'] ran].
    assert (HInv : Inv (FileCache (fc_cache c) (eset meta (Entry (e_references e) (e_file e) value') (fc_entries c)) (fc_auto_reload c))).
    { constructor; simpl.
      - apply HI.
      - apply aset_nodup; [apply meta_eqb_spec|apply HI].
      - apply HI.
      - intros m. destruct (meta_eqb_spec m meta) as [->|Hne].
        + rewrite eget_eset_eq. simpl. eapply Inv_refs_some; eauto.
        + rewrite eget_eset_neq by auto. apply HI. }
    split; auto. split; auto. split; auto. split.
    - intros m Hm. unfold slot; simpl. now rewrite eget_eset_neq.
    - destruct (e_value e) as [v|]; injection Hg as -> -> ->; (split; [auto|]);
        unfold slot; simpl; now rewrite eget_eset_eq.
  Qed.

  (** The eviction loop. *)
  Lemma evict_loop_spec : forall ms es ev,
    NoDup ms -> NoDup (akeys es) ->
    (forall m, In m ms -> exists e, eget m es = Some e /\ 0 < e_references e) ->
    exists es' ev', evict_loop ms es ev = Ok (es', ev') /\ NoDup (akeys es') /\
      (forall m, ~ In m ms -> eget m es' = eget m es) /\
      (forall m e, In m ms -> eget m es = Some e ->
         match e_references e with
         | S (S n) => eget m es' = Some (Entry (S n) (e_file e) (e_value e))
         | _ => eget m es' = None
         end) /\
      (ev' = true <-> ev = true \/ exists m e, In m ms /\ eget m es = Some e /\ e_references e = 1).
  Proof.
    induction ms as [|m ms IH]; intros es ev Hnd Hk Hall; simpl.
    - exists es, ev. repeat split; auto; try tauto.
      intros [H|(m & e & [] & _)]; auto.
    - inversion Hnd as [|? ? Hm Hnd']; subst.
      destruct (Hall m (or_introl eq_refl)) as (e & He & Hpos). rewrite He. simpl bind.
      destruct (e_references e) as [|[|n]] eqn:Er; [lia| |].
      + destruct (IH (edel m es) true) as (es' & ev' & H1 & H2 & H3 & H4 & H5); auto.
        { apply adel_nodup; auto. }
        { intros m' Hm'. assert (m' <> m) by congruence.
          destruct (Hall m' (or_intror Hm')) as (e' & He' & Hp'). exists e'. split; auto.
          unfold edel, eget. rewrite aget_adel_neq; auto. apply meta_eqb_spec. }
        exists es', ev'. split; auto. split; auto. split; [|split].
        * intros m' Hm'. rewrite H3 by tauto. unfold edel, eget.
          apply aget_adel_neq; [apply meta_eqb_spec|]. intros ->. tauto.
        * intros m' e' [<-|Hm'] He'.
          -- assert (e' = e) by congruence. subst e'. rewrite Er.
             rewrite H3 by auto. unfold edel, eget. apply aget_adel_eq; auto. apply meta_eqb_spec.
          -- apply H4; auto. unfold edel, eget.
             rewrite aget_adel_neq; auto; [apply meta_eqb_spec|congruence].
        * rewrite H5. split; auto. intros _. right. exists m, e. auto.
      + set (e1 := Entry (S n) (e_file e) (e_value e)).
        destruct (IH (eset m e1 es) ev) as (es' & ev' & H1 & H2 & H3 & H4 & H5); auto.
        { apply aset_nodup; auto. apply meta_eqb_spec. }
        { intros m' Hm'. assert (m' <> m) by congruence.
          destruct (Hall m' (or_intror Hm')) as (e' & He' & Hp'). exists e'. split; auto.
          now rewrite eget_eset_neq. }
        exists es', ev'. split; auto. split; auto. split; [|split].
        * intros m' Hm'. rewrite H3 by tauto. apply eget_eset_neq. intros ->. tauto.
        * intros m' e' [<-|Hm'] He'.
          -- assert (e' = e) by congruence. subst e'. rewrite Er.
             rewrite H3 by auto. apply eget_eset_eq.
          -- apply H4; auto. rewrite eget_eset_neq; auto. congruence.
        * rewrite H5. split; intros [Hev|(m' & e' & Hin & He' & Hr')]; auto; right.
          -- exists m', e'. split; auto. split; auto. rewrite <- He'.
             symmetry. apply eget_eset_neq. congruence.
          -- destruct Hin as [<-|Hin].
             ++ assert (e' = e) by congruence. subst. congruence.
             ++ exists m', e'. split; auto. split; auto. rewrite eget_eset_neq; auto. congruence.
  Qed.

  Lemma fc_evict_spec : forall p c, Inv c ->
    exists b c', fc_evict p c = Ok (b, c') /\ Inv c' /\ fc_auto_reload c' = fc_auto_reload c /\
      pget p (fc_cache c') = None /\
      (forall q, q <> p -> pget q (fc_cache c') = pget q (fc_cache c)) /\
      (forall m, (exists q, q <> p /\ has m (pget q (fc_cache c)) = true) -> slot m c' = slot m c) /\
      (forall m, ~ (exists q, q <> p /\ has m (pget q (fc_cache c)) = true) -> slot m c' = None) /\
      (b = true <-> exists m, has m (pget p (fc_cache c)) = true /\
                     ~ (exists q, q <> p /\ has m (pget q (fc_cache c)) = true)) /\
      (pget p (fc_cache c) = None -> c' = c).
  Proof.
    intros p c HI. unfold fc_evict.
    assert (Hpd : forall q, q <> p -> pget q (pdel p (fc_cache c)) = pget q (fc_cache c)).
    { intros q Hq. unfold pget, pdel. now apply aget_adel_neq; [apply N.eqb_spec|]. }
    assert (Hpe : pget p (pdel p (fc_cache c)) = None).
    { unfold pget, pdel. apply aget_adel_eq; [apply N.eqb_spec|apply HI]. }
    assert (Hother : forall m, (exists q, q <> p /\ has m (pget q (fc_cache c)) = true)
                               <-> 0 < cnt m (pdel p (fc_cache c))).
    { intros m. rewrite cnt_pos by (apply adel_nodup, HI). split.
      - intros (q & Hq & Hh). exists q. now rewrite Hpd.
      - intros (q & Hq). exists q. destruct (N.eq_dec q p) as [->|Hne].
        + rewrite Hpe in Hq. discriminate.
        + rewrite Hpd in Hq; auto. }
    destruct (pget p (fc_cache c)) as [pe|] eqn:Ep.
    - pose proof (fun m => cnt_pdel m p (fc_cache c) (inv_pnd c HI)) as Hcnt.
      rewrite Ep in Hcnt. simpl has in *.
      destruct (inv_pe c HI _ _ Ep) as [_ Hnd].
      destruct (evict_loop_spec (metas pe) (fc_entries c) false) as (es' & ev' & H1 & H2 & H3 & H4 & H5).
      + now apply NoDup_metas.
      + apply HI.
      + intros m Hm. apply contains_In in Hm.
        destruct (Inv_has_entry c p m HI) as [e He]; [now rewrite Ep|].
        exists e. split; auto. destruct (Inv_refs_some c m e HI He). lia.
      + rewrite H1. simpl bind.
        assert (HInv : Inv (FileCache (pdel p (fc_cache c)) es' (fc_auto_reload c))).
        { constructor; simpl; auto.
          - apply adel_nodup, HI.
          - intros q qe Hq. destruct (N.eq_dec q p) as [->|Hne]; [congruence|].
            rewrite Hpd in Hq by auto. now apply (inv_pe c HI) in Hq.
          - intros m. specialize (Hcnt m). pose proof (inv_refs c HI m) as X.
            destruct (contains (metas pe) m) eqn:Em.
            + pose proof Em as Hin. apply contains_In in Hin.
              destruct (eget m (fc_entries c)) as [e|] eqn:Ee; [|lia].
              specialize (H4 m e Hin Ee). destruct X as [X1 X2].
              destruct (e_references e) as [|[|n]]; rewrite H4; simpl; lia.
            + assert (Hnin : ~ In m (metas pe)) by now apply contains_false.
              rewrite H3 by auto. destruct (eget m (fc_entries c)); lia. }
        assert (Hsome : forall m, 0 < cnt m (pdel p (fc_cache c)) ->
                  option_map (fun e => (e_file e, e_value e)) (eget m es')
                  = option_map (fun e => (e_file e, e_value e)) (eget m (fc_entries c))).
        { intros m Hm. specialize (Hcnt m). pose proof (inv_refs c HI m) as X.
          destruct (contains (metas pe) m) eqn:Em.
          - pose proof Em as Hin. apply contains_In in Hin.
            destruct (eget m (fc_entries c)) as [e|] eqn:Ee; [|lia].
            specialize (H4 m e Hin Ee). destruct X as [X1 X2].
            destruct (e_references e) as [|[|n]]; try lia. rewrite H4. reflexivity.
          - rewrite H3; auto. now apply contains_false. }
        exists ev', (FileCache (pdel p (fc_cache c)) es' (fc_auto_reload c)).
        split; auto. split; auto. split; auto. split; auto. split; auto. split.
        { intros m Hm. apply Hother in Hm. unfold slot; simpl. auto. }
        split.
        { intros m Hm. rewrite Hother in Hm. unfold slot; simpl.
          pose proof (inv_refs _ HInv m) as X. simpl in X.
          destruct (eget m es'); [lia|reflexivity]. }
        split; [|discriminate].
        rewrite H5. split.
        { intros [E|(m & e & Hin & He & Hr)]; [discriminate|].
          exists m. split; [now apply contains_In|]. rewrite Hother.
          destruct (Inv_refs_some c m e HI He). specialize (Hcnt m).
          apply contains_In in Hin. rewrite Hin in Hcnt. lia. }
        { intros (m & Hm & Hno). right. rewrite Hother in Hno.
          destruct (Inv_has_entry c p m HI) as [e He]; [now rewrite Ep|].
          exists m, e. split; [now apply contains_In|]. split; auto.
          destruct (Inv_refs_some c m e HI He). specialize (Hcnt m). rewrite Hm in Hcnt. lia. }
    - exists false, c. split; auto. split; auto. split; auto. split; auto. split; auto. split; auto.
      split.
      { intros m Hm. unfold slot. pose proof (inv_refs c HI m) as X.
        destruct (eget m (fc_entries c)); auto. exfalso. apply Hm.
        destruct X as [_ X]. apply cnt_pos in X; [|apply HI]. destruct X as [q Hq].
        exists q. split; auto. intros ->. rewrite Ep in Hq. discriminate. }
      split; auto. split; [discriminate|]. intros (m & Hm & _). discriminate.
  Qed.

  Lemma set_pin_spec : forall p pin c, Inv c ->
    match set_pin_state p pin c with
    | Some c' => Inv c' /\ fc_auto_reload c' = fc_auto_reload c /\ fc_entries c' = fc_entries c /\
        (forall q, q <> p -> pget q (fc_cache c') = pget q (fc_cache c)) /\
        (forall m, has m (pget p (fc_cache c')) = has m (pget p (fc_cache c))) /\
        (exists pe pe' old m, pget p (fc_cache c) = Some pe /\ pget p (fc_cache c') = Some pe' /\
           pe_current pe = Some (old, m) /\ pe_current pe' = Some (pin, m))
    | None => pget p (fc_cache c) = None
    end.
  Proof.
    intros p pin c HI. unfold set_pin_state.
    destruct (pget p (fc_cache c)) as [pe|] eqn:Ep; auto.
    destruct (inv_pe c HI _ _ Ep) as [Hc Hnd].
    destruct (pe_current pe) as [[old m]|] eqn:Ec; [|congruence].
    set (pe' := PathEntry (Some (pin, m)) (pe_previous pe)).
    assert (Hmetas : forall x, contains (metas pe') x = contains (metas pe) x).
    { intros x. rewrite !contains_metas, Ec. reflexivity. }
    assert (Hcnt : forall x, cnt x (pset p pe' (fc_cache c)) = cnt x (fc_cache c)).
    { intros x. pose proof (cnt_pset x p pe' (fc_cache c) (inv_pnd c HI)) as X.
      rewrite Ep in X. simpl in X. rewrite Hmetas in X. lia. }
    split; [|split; [auto|split; [auto|split; [|split]]]].
    - constructor; simpl.
      + apply aset_nodup; [apply N.eqb_spec|apply HI].
      + apply HI.
      + intros q qe Hq. destruct (N.eq_dec q p) as [->|Hne].
        * rewrite pget_pset_eq in Hq. injection Hq as <-. simpl. split; [discriminate|auto].
        * rewrite pget_pset_neq in Hq by auto. now apply (inv_pe c HI) in Hq.
      + intros x. rewrite Hcnt. apply HI.
    - intros q Hq. simpl. now apply pget_pset_neq.
    - intros x. simpl. rewrite pget_pset_eq. apply Hmetas.
    - exists pe, pe', old, m. simpl. rewrite pget_pset_eq. auto.
  Qed.

  (** ** One step *)

  Definition op_path (o : op) : path :=
    match o with OpEntry _ p _ => p | OpPin p => p | OpUnpin p => p | OpEvict p => p end.

  (** Is [p] pinned, and the slot current for it. *)
  Definition cur (p : path) (c : file_cache) : option (pin_state * file_meta) :=
    match pget p (fc_cache c) with Some pe => pe_current pe | None => None end.

  (** Summary of a step: invariant, references, pin state, data. *)
  Lemma step_spec : forall c o, Inv c ->
    exists b c', fc_step c o = Ok (b, c') /\ Inv c' /\ fc_auto_reload c' = fc_auto_reload c /\
      (forall q, q <> op_path o -> pget q (fc_cache c') = pget q (fc_cache c)) /\
      match o with
      | OpEntry w p init =>
          (exists meta f v, b = ObsEntry meta f v /\
             (forall m, has m (pget p (fc_cache c')) = has m (pget p (fc_cache c)) || meta_eqb m meta) /\
             (forall m, m <> meta -> slot m c' = slot m c) /\
             match slot meta c with
             | Some (f0, Some v0) => f = f0 /\ v = Ok v0 /\ slot meta c' = Some (f0, Some v0)
             | Some (f0, None) => f = f0 /\ v = of_outcome (init f0) /\
                 slot meta c' = Some (f0, match init f0 with Good x => Some x | Bad _ => None end)
             | None => fs_open w p = Good f /\ v = of_outcome (init f) /\
                 slot meta c' = Some (f, match init f with Good x => Some x | Bad _ => None end)
             end /\
             match cur p c with
             | Some (pin, m0) =>
                 if negb (fc_auto_reload c) || is_pinned pin
                 then meta = m0 /\ cur p c' = Some (pin, m0)
                 else fs_stat w p = Good meta /\ cur p c' = Some (Unpinned, meta)
             | None => fs_stat w p = Good meta /\ cur p c' = Some (Unpinned, meta)
             end) \/
          (exists k, b = ObsFail k /\ c' = c /\
             (fs_stat w p = Bad k \/ exists m, fs_stat w p = Good m /\ slot m c = None /\ fs_open w p = Bad k) /\
             match cur p c with
             | Some (pin, m0) => negb (fc_auto_reload c) || is_pinned pin = false
             | None => True
             end)
      | OpPin p | OpUnpin p =>
          (forall m, has m (pget p (fc_cache c')) = has m (pget p (fc_cache c))) /\
          (forall m, slot m c' = slot m c) /\
          match cur p c with
          | Some (_, m) => b = ObsPin true /\
              cur p c' = Some (match o with OpPin _ => Pinned | _ => Unpinned end, m)
          | None => b = ObsPin false /\ c' = c
          end
      | OpEvict p =>
          exists ev, b = ObsEvict ev /\ pget p (fc_cache c') = None /\
          (forall m, (exists q, q <> p /\ has m (pget q (fc_cache c)) = true) -> slot m c' = slot m c) /\
          (forall m, ~ (exists q, q <> p /\ has m (pget q (fc_cache c)) = true) -> slot m c' = None) /\
          (ev = true <-> exists m, has m (pget p (fc_cache c)) = true /\
                     ~ (exists q, q <> p /\ has m (pget q (fc_cache c)) = true)) /\
          (pget p (fc_cache c) = None -> c' = c)
      end.
  Proof.
    intros c o HI. destruct o as [w p init|p|p|p]; simpl op_path.
    - simpl fc_step. pose proof (fc_entry_spec w p c HI) as E.
      destruct (fc_entry w p c) as [[meta|k| |] c1] eqn:Efc; try tauto.
      + destruct E as (I1 & A1 & (pe' & Hpe' & Hcur) & Hq & Hh & Hs & (f & v0 & Hsl & Hold)).
        assert (He : exists e, eget meta (fc_entries c1) = Some e /\ e_file e = f /\ e_value e = v0).
        { unfold slot in Hsl. destruct (eget meta (fc_entries c1)) as [e|]; [|discriminate].
          simpl in Hsl. exists e. repeat split; congruence. }
        destruct He as (e & He & Hf & Hv). rewrite He. simpl bind.
        pose proof (fc_fill_spec meta init c1 e I1 He) as F.
        destruct (fc_fill meta init c1) as [r c2]. destruct F as (I2 & A2 & C2 & S2 & V2).
        exists (ObsEntry meta (e_file e) r), c2. split; auto. split; auto. split; [congruence|].
        split; [intros q Hne; rewrite C2; auto|].
        left. exists meta, (e_file e), r. split; auto. rewrite C2. split; auto.
        split; [intros m Hm; rewrite S2 by auto; auto|]. split.
        * rewrite Hf, Hv in V2. rewrite Hf. destruct (slot meta c) as [[f0 v1]|].
          -- injection Hold as -> ->. destruct v0 as [v|]; destruct V2 as [-> ->]; auto.
          -- destruct Hold as [Ho ->]. destruct V2 as [-> ->]. auto.
        * unfold cur. rewrite C2, Hpe'. destruct (pget p (fc_cache c)) as [pe|] eqn:Ep.
          -- destruct (inv_pe c HI _ _ Ep) as [Hc _].
             destruct (pe_current pe) as [[pin m0]|] eqn:Ec; [|congruence].
             destruct (negb (fc_auto_reload c) || is_pinned pin).
             ++ destruct Hcur as (E1 & (pin' & Hp')). subst c1. injection Hp' as -> ->.
                split; auto. congruence.
             ++ destruct Hcur as (E1 & E2). auto.
          -- destruct Hcur as (E1 & E2). auto.
      + destruct E as (-> & E). exists (ObsFail k), c. split; auto. split; auto. split; auto.
        split; auto. right. exists k. split; auto. split; auto. split; auto.
        unfold cur. destruct (pget p (fc_cache c)) as [pe|] eqn:Ep; auto.
        destruct (pe_current pe) as [[pin m0]|] eqn:Ec; auto.
        destruct (negb (fc_auto_reload c) || is_pinned pin) eqn:Eb; auto. exfalso.
        unfold fc_entry in Efc. rewrite Ep, Ec, Eb in Efc.
        destruct (eget m0 (fc_entries c)); discriminate.
    - simpl fc_step. unfold fc_pin. pose proof (set_pin_spec p Pinned c HI) as E.
      destruct (set_pin_state p Pinned c) as [c'|].
      + destruct E as (I1 & A1 & E1 & Hq & Hh & (pe & pe' & old & m & P1 & P2 & P3 & P4)).
        exists (ObsPin true), c'. split; auto. split; auto. split; auto. split; auto. split; auto.
        split; [intros x; unfold slot; now rewrite E1|].
        unfold cur. rewrite P1, P2, P3. auto.
      + exists (ObsPin false), c. unfold cur. rewrite E. repeat (split; auto).
    - simpl fc_step. unfold fc_unpin. pose proof (set_pin_spec p Unpinned c HI) as E.
      destruct (set_pin_state p Unpinned c) as [c'|].
      + destruct E as (I1 & A1 & E1 & Hq & Hh & (pe & pe' & old & m & P1 & P2 & P3 & P4)).
        exists (ObsPin true), c'. split; auto. split; auto. split; auto. split; auto. split; auto.
        split; [intros x; unfold slot; now rewrite E1|].
        unfold cur. rewrite P1, P2, P3. auto.
      + exists (ObsPin false), c. unfold cur. rewrite E. repeat (split; auto).
    - simpl fc_step.
      destruct (fc_evict_spec p c HI) as (b & c' & E & I1 & A1 & Hp & Hq & H1 & H2 & H3 & H4).
      rewrite E. simpl bind. exists (ObsEvict b), c'. repeat (split; auto).
      exists b. repeat (split; auto); apply H3; auto.
  Qed.

  (** ** Histories *)

  Lemma fc_run_app : forall h1 h2 c tr c',
    fc_run c (h1 ++ h2) = Ok (tr, c') <->
    exists tr1 c1 tr2, fc_run c h1 = Ok (tr1, c1) /\ fc_run c1 h2 = Ok (tr2, c') /\ tr = tr1 ++ tr2.
  Proof.
    induction h1 as [|o h1 IH]; intros h2 c tr c'; simpl.
    - split; [intros H; exists [], c, tr; auto|].
      intros (tr1 & c1 & tr2 & E & H & ->). injection E as <- <-. auto.
    - destruct (fc_step c o) as [[b c1]|k| |]; simpl;
        try (split; [discriminate|intros (? & ? & ? & E & _); discriminate]).
      split.
      + intros H. inv_bind H. destruct a as [tr0 c2]. injection H1 as <- <-.
        apply IH in H0. destruct H0 as (tr1 & c3 & tr2 & E1 & E2 & ->).
        exists ((o, b) :: tr1), c3, tr2. rewrite E1. auto.
      + intros (tr1 & c2 & tr2 & E1 & E2 & ->). inv_bind E1. destruct a as [tr0 c3].
        injection E3 as <- <-.
        assert (X : fc_run c1 (h1 ++ h2) = Ok (tr0 ++ tr2, c')) by (apply IH; eauto 6).
        rewrite X. reflexivity.
  Qed.

  Lemma fc_run_Inv : forall h c, Inv c ->
    exists tr c', fc_run c h = Ok (tr, c') /\ Inv c' /\ fc_auto_reload c' = fc_auto_reload c /\
      map fst tr = h.
  Proof.
    induction h as [|o h IH]; intros c HI; simpl.
    - exists [], c. auto.
    - destruct (step_spec c o HI) as (b & c1 & E & I1 & A1 & _). rewrite E. simpl bind.
      destruct (IH c1 I1) as (tr & c' & E' & I' & A' & M). rewrite E'. simpl bind.
      exists ((o, b) :: tr), c'. split; auto. split; auto. split; [congruence|]. simpl. congruence.
  Qed.
End Proofs.
