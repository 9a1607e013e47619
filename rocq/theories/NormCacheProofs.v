(** * Calls of a [Normalizer] against calls without caches *)

From Verif Require Import Base Util UtilProofs Amap Maps FileCache FileCacheProofs CacheViews Sym Symbolizer SymbolizerElf
  Normalize NormalizeProofs NormCache NormCacheSpec.
Local Open Scope N_scope.

Section Proofs.
  Context {File Sym : Type}.
  Notation nsys := (nsys File Sym).
  Notation nworld := (nworld File).
  Notation call := (call File).
  Notation normalizer := (normalizer File Sym).
  Notation hnd := (hnd File Sym).

  (** ** File caches *)
  Section Cache.
    Context {T : Type}.
    Variable ws : nworld -> Prop.
    Variable ok : File -> T -> Prop.
    Implicit Types (c : file_cache File T).

    Record good_cache c : Prop := Good_cache {
      gc_inv : Inv c;
      gc_reload : fc_auto_reload c = true;
      gc_pin : forall p pin m, cur p c = Some (pin, m) -> pin = Unpinned;
      gc_file : forall m f v w p, slot m c = Some (f, v) -> ws w -> fs_stat (nw_fs w) p = Good m ->
        fs_open (nw_fs w) p = Good f;
      gc_value : forall m f x, slot m c = Some (f, Some x) -> ok f x
    }.
    Lemma good_new : good_cache (fc_new true).
    Proof. constructor; try discriminate; auto. apply Inv_new. Qed.

    Lemma entry_good : forall w p c, good_cache c -> ws w ->
      (forall w' p' m, ws w' -> fs_stat (nw_fs w) p = Good m -> fs_stat (nw_fs w') p' = Good m ->
         fs_open (nw_fs w) p = fs_open (nw_fs w') p') ->
      let '(r, c') := fc_entry (nw_fs w) p c in
      good_cache c' /\
      match fs_stat (nw_fs w) p with
      | Good m =>
          match fs_open (nw_fs w) p with
          | Good f => r = Ok m /\ exists v, slot m c' = Some (f, v)
          | Bad k => r = Err k
          end
      | Bad k => r = Err k
      end.
    Proof.
      intros w p c HG Hw Hh. pose proof (fc_entry_spec (nw_fs w) p c (gc_inv c HG)) as S.
      destruct (fc_entry (nw_fs w) p c) as [[m|k| |] c']; try contradiction.
      - destruct S as (I' & A & (pe' & P1 & P2) & Q & _ & O & (f & v & S1 & S2)).
        rewrite (gc_reload c HG) in *.
        assert (E : pe_current pe' = Some (Unpinned, m) /\ fs_stat (nw_fs w) p = Good m).
        { destruct (pget p (fc_cache c)) as [pe|] eqn:Ep; auto. cbn [negb orb] in P2.
          destruct (pe_current pe) as [[pin x]|] eqn:Ec; auto.
          assert (pin = Unpinned) as ->; auto. apply (gc_pin c HG p pin x). unfold cur. now rewrite Ep. }
        destruct E as [E1 E2]. rewrite E2.
        assert (Ho : fs_open (nw_fs w) p = Good f).
        { destruct (slot m c) as [[f0 v0]|] eqn:Es.
          - injection S2 as <- <-. eapply (gc_file c HG); eauto.
          - tauto. }
        rewrite Ho. split; [|eauto]. constructor; auto.
        + intros q pin x Hq. unfold cur in Hq. destruct (N.eq_dec q p) as [->|Hne].
          * rewrite P1 in Hq. congruence.
          * rewrite (Q q Hne) in Hq. eapply (gc_pin c HG q). exact Hq.
        + intros m' f' v' w' p' Hs Hw' Hst. destruct (meta_eqb_spec m' m) as [->|Hne].
          * rewrite S1 in Hs. injection Hs as <- <-. rewrite <- Ho. symmetry. eapply Hh; eauto.
          * rewrite (O m' Hne) in Hs. eapply (gc_file c HG); eauto.
        + intros m' f' x Hs. destruct (meta_eqb_spec m' m) as [->|Hne].
          * rewrite S1 in Hs. injection Hs as <- ->. destruct (slot m c) as [s0|] eqn:Es.
            -- subst s0. eapply (gc_value c HG); eauto.
            -- destruct S2. discriminate.
          * rewrite (O m' Hne) in Hs. eapply (gc_value c HG); eauto.
      - destruct S as [-> [S|(m & S1 & S2 & S3)]].
        + rewrite S. auto.
        + rewrite S1, S3. auto.
    Qed.

    Lemma set_good : forall c c' m f v v', good_cache c -> slot m c = Some (f, v) ->
      Inv c' -> slot m c' = Some (f, v') -> (forall m', m' <> m -> slot m' c' = slot m' c) ->
      (forall q, cur q c' = cur q c) -> fc_auto_reload c' = fc_auto_reload c ->
      (forall x, v' = Some x -> ok f x) -> good_cache c'.
    Proof.
      intros c c' m f v v' HG S I' S' O C A Hv. constructor; auto.
      - rewrite A. apply HG.
      - intros p pin x. rewrite C. apply (gc_pin c HG).
      - intros m' f' v1 w p Hs. destruct (meta_eqb_spec m' m) as [->|Hne].
        + rewrite S' in Hs. injection Hs as <- <-. eapply (gc_file c HG); eauto.
        + rewrite (O m' Hne) in Hs. eapply (gc_file c HG); eauto.
      - intros m' f' x Hs. destruct (meta_eqb_spec m' m) as [->|Hne].
        + rewrite S' in Hs. injection Hs as <- ->. auto.
        + rewrite (O m' Hne) in Hs. eapply (gc_value c HG); eauto.
    Qed.
    Lemma fill_good : forall (w : fs File) m init c f v, good_cache c -> slot m c = Some (f, v) ->
      (forall x, init f = Good x -> ok f x) ->
      let '(r, c') := fc_fill m init c in
      good_cache c' /\ r = match v with Some x => Ok x | None => of_outcome (init f) end /\
      slot m c' = Some (f, match v with
                           | Some x => Some x
                           | None => match init f with Good x => Some x | Bad _ => None end
                           end).
    Proof.
      intros w m init c f v HG S Hi. pose proof (fc_fill_view w m init c f v (gc_inv c HG) S) as V.
      destruct (fc_fill m init c) as [r c']. destruct V as (I' & S' & O & _ & C & A & R).
      split; [|auto]. eapply set_good; eauto.
      intros x Hx. destruct v as [x0|].
      - injection Hx as ->. eapply (gc_value c HG); eauto.
      - destruct (init f); [|discriminate]. injection Hx as ->. auto.
    Qed.
    Lemma slot_set_good : forall (w : fs File) m c f v x, good_cache c -> slot m c = Some (f, v) -> ok f x ->
      good_cache (slot_set m x c).
    Proof.
      intros w m c f v x HG S Hx. pose proof (slot_set_view w m c f v x (gc_inv c HG) S) as V. cbv zeta in V.
      destruct V as (I' & S' & O & _ & C & A). eapply set_good; eauto. intros x0 [= <-]. exact Hx.
    Qed.
  End Cache.

  (** ** Members of archives *)
  Definition ids_ok (ar : archive) (ids : build_id_map) : Prop :=
    forall b id, aget range_eqb b ids = Some id -> ar_build_id ar (fst b) (snd b) = Good id.
  Lemma range_eqb_spec : forall a b, reflect (a = b) (range_eqb a b).
  Proof.
    intros [a1 a2] [b1 b2]. unfold range_eqb. cbn [fst snd].
    destruct (N.eqb_spec a1 b1); destruct (N.eqb_spec a2 b2); cbn; constructor; congruence.
  Qed.
  Lemma member_build_id_ok : forall cf ar b ids, ids_ok ar ids ->
    let '(r, ids') := member_build_id cf ar b ids in
    ids_ok ar ids' /\ r = if nc_build_ids cf then of_outcome (ar_build_id ar (fst b) (snd b)) else Ok None.
  Proof.
    intros cf ar b ids H. unfold member_build_id. destruct (nc_build_ids cf); auto.
    destruct (nc_cache_build_ids cf); auto.
    destruct (aget range_eqb b ids) as [id|] eqn:E; [rewrite (H _ _ E); auto|].
    destruct (ar_build_id ar (fst b) (snd b)) as [id|k] eqn:Eb; auto. split; auto.
    intros b' id'. destruct (range_eqb_spec b' b) as [->|Hne].
    - rewrite aget_aset_eq by apply range_eqb_spec. intros [= <-]. exact Eb.
    - rewrite aget_aset_neq; auto. apply range_eqb_spec.
  Qed.
  Lemma nz_members_ok : forall m cf ar off path l ids, ids_ok ar ids ->
    let '(r, ids') := nz_members m cf ar off path l ids in
    ids_ok ar ids' /\
    r = translate_members m (nc_build_ids cf) off path
          (map (fun x => match x with
                         | Good (p, o, n) => Good (ZMember p o n (ar_build_id ar o ((o + n) mod two64)))
                         | Bad k => Bad k
                         end) l).
  Proof.
    intros m cf ar off path. induction l as [|[[[p o] n]|k] l IH]; intros ids H; cbn [nz_members map translate_members]; auto.
    cbn [zm_data_offset zm_data_len zm_build_id zm_path].
    destruct (add64 m o n) as [b|k| |] eqn:Ea; cbn [then_ bind]; auto.
    destruct ((o <=? off) && (off <? b)) eqn:Ei; [|apply IH; auto].
    assert (Eb : b = (o + n) mod two64).
    { unfold add64, uadd, wrap in Ea. destruct (o + n <? two64) eqn:El.
      - injection Ea as <-. apply N.ltb_lt in El. symmetry. now apply N.mod_small.
      - destruct m; congruence. }
    pose proof (member_build_id_ok cf ar (o, b) ids H) as V. cbn [fst snd] in V.
    destruct (member_build_id cf ar (o, b) ids) as [r ids']. destruct V as [V ->]. rewrite <- Eb.
    destruct (nc_build_ids cf); [destruct (ar_build_id ar o b)|]; cbn [of_outcome then_ bind]; auto.
  Qed.

  Lemma bind_assoc : forall A B C (r : res A) (f : A -> res B) (g : B -> res C),
    (let* y := (let* x := r in f x) in g y) = (let* x := r in let* y := f x in g y).
  Proof. intros A B C r f g. now destruct r. Qed.

  (** ** The state of a normalizer *)
  Section Calls.
    Variable y : nsys.
    Variable cf : nconf.
    Variable H : list call.
    Variables vs ve : N.
    Hypothesis Hcf : nc_cache_build_ids cf = true -> nc_build_ids cf = true.
    Hypothesis Hhonest : keeps_files cf H -> honest H.
    Hypothesis Hvdso : one_vdso cf H vs ve.
    Hypothesis Hbare : bare_archives cf H.

    Definition ws (w : nworld) : Prop := exists c, In c H /\ cl_world c = w.
    Record good (z : normalizer) : Prop := Good_norm {
      gn_apk : good_cache ws (fun f x => ny_archive y f = Good (fst x) /\ ids_ok (fst x) (snd x)) (nz_apk z);
      gn_ids : good_cache ws (fun f x => ny_build_id y f = Good x) (nz_build_ids z);
      gn_vdso : forall v, nz_vdso z = Some v -> v = ny_vdso y vs ve
    }.
    Lemma good_init : good (Normalizer (fc_new true) None [] (fc_new true)).
    Proof. constructor; cbn; try apply good_new. discriminate. Qed.

    Lemma honest_open : forall w p, keeps_files cf H -> ws w ->
      (forall w' p' m, ws w' -> fs_stat (nw_fs w) p = Good m -> fs_stat (nw_fs w') p' = Good m ->
         fs_open (nw_fs w) p = fs_open (nw_fs w') p') /\
      (forall k, fs_stat (nw_fs w) p = Bad k -> exists k', fs_open (nw_fs w) p = Bad k').
    Proof.
      intros w p Hk (c & Hc & <-). destruct (Hhonest Hk) as [H1 H2]. split; [|eauto].
      intros w' p' m (c' & Hc' & <-) E E'. eauto.
    Qed.

    Section Call.
      Variable c : call.
      Hypothesis Hc : In c H.
      Notation w := (cl_world c).
      Notation env := (uncached y (cl_world c) (cl_pid c)).
      Notation o := (options cf c).
      Lemma ws_c : ws w.
      Proof. exists c. auto. Qed.

      (** A step that does not add to the output *)
      Definition quiet {A} (h : hnd) (x : res A * hnd) (r : res A) : Prop :=
        good (hd_norm (snd x)) /\ hd_out (snd x) = hd_out h /\ nz_entries (hd_norm (snd x)) = nz_entries (hd_norm h) /\
        fst x = r.
      (** One that does *)
      Definition sim (h : hnd) (x : res unit * hnd) (r : res (nstate Sym)) : Prop :=
        good (hd_norm (snd x)) /\ nz_entries (hd_norm (snd x)) = nz_entries (hd_norm h) /\
        r = let* _ := fst x in Ok (hd_out (snd x)).
      Lemma sim_then : forall A h (x : res A * hnd) r f g, quiet h x r ->
        (forall a h', good (hd_norm h') -> hd_out h' = hd_out h -> nz_entries (hd_norm h') = nz_entries (hd_norm h) ->
           r = Ok a -> sim h' (f a h') (g a)) ->
        sim h (then_ x f) (let* a := r in g a).
      Proof.
        intros A h [r0 h0] r f g (Q1 & Q2 & Q3 & Q4) Hf. cbn [fst snd] in *. subst r0.
        destruct r as [a|k| |]; cbn [then_ bind].
        - destruct (Hf a h0 Q1 Q2 Q3 eq_refl) as (S1 & S2 & S3). split; auto. split; auto. congruence.
        - split; auto.
        - split; auto.
        - split; auto.
      Qed.
      Lemma quiet_same : forall A h (r : res A), good (hd_norm h) -> quiet h (r, h) r.
      Proof. intros A h r G. split; auto. Qed.
      Lemma sim_add : forall f h, good (hd_norm h) -> sim h (add_out f h) (Ok (f (hd_out h))).
      Proof. intros f h G. split; auto. Qed.

      (** *** Build IDs *)
      Lemma build_id_quiet : forall path h, good (hd_norm h) ->
        exists r, quiet h (on_norm (nz_read_build_id (cl_mode c) y cf w (path_of path)) h) r /\
          (r = Ok (read_build_id_opt env o path) \/ exists k, r = Err k /\ read_build_id_opt env o path = None).
      Proof.
        intros path h G. unfold on_norm, nz_read_build_id, read_build_id_opt. cbn [no_build_ids options nv_build_id uncached].
        destruct (nc_build_ids cf) eqn:Eb.
        - destruct (nc_cache_build_ids cf) eqn:Ec.
          + assert (Hk : keeps_files cf H) by (left; auto).
            destruct (honest_open w (path_of path) Hk ws_c) as [H1 H2].
            pose proof (entry_good ws _ w (path_of path) _ (gn_ids _ G) ws_c H1) as V.
            destruct (fc_entry (nw_fs w) (path_of path) (nz_build_ids (hd_norm h))) as [r c1]. destruct V as [G1 V].
            destruct (fs_stat (nw_fs w) (path_of path)) as [m|k] eqn:Es.
            * destruct (fs_open (nw_fs w) (path_of path)) as [f|k] eqn:Eo.
              -- destruct V as [-> [v S1]]. cbn [then_].
                 pose proof (fill_good ws _ (nw_fs w) m (ny_build_id y) c1 f v G1 S1 (fun x E => E)) as V.
                 destruct (fc_fill m (ny_build_id y) c1) as [r c2]. destruct V as (G2 & -> & S2).
                 exists (of_outcome (ny_build_id y f)). split.
                 ++ split; [|split; [|split]]; cbn; auto.
                    ** constructor; cbn; auto; apply G.
                    ** destruct v as [x|]; auto. now rewrite (gc_value _ _ _ G1 _ _ _ S1).
                 ++ destruct (ny_build_id y f); cbn [of_outcome]; eauto.
              -- subst r. cbn [then_]. exists (Err k). split; [|eauto].
                 split; [|split; [|split]]; cbn; auto. constructor; cbn; auto; apply G.
            * subst r. cbn [then_]. destruct (H2 k eq_refl) as [k' ->]. exists (Err k). split; [|eauto].
              split; [|split; [|split]]; cbn; auto. constructor; cbn; auto; apply G.
          + eexists. split; [split; [|split; [|split; reflexivity]]; cbn; auto|].
            destruct (fs_open (nw_fs w) (path_of path)) as [f|k]; cbn [of_outcome bind fst]; [|right; eauto].
            destruct (ny_build_id y f); cbn [of_outcome bind fst]; [left; reflexivity|right; eauto].
        - destruct (nc_cache_build_ids cf); [now specialize (Hcf eq_refl)|].
          exists (Ok None). split; [|auto]. destruct (cl_mode c); (split; [|split; [|split]]); cbn; auto; now destruct h.
      Qed.

      (** *** Archives *)
      Lemma translate_quiet : forall off path h, co_apk_to_elf (cl_opts c) = true -> good (hd_norm h) ->
        quiet h (on_norm (nz_translate (cl_mode c) y cf w off path) h)
          (let* members := of_outcome (nv_archive env path) in
           translate_members (cl_mode c) (nc_build_ids cf) off path members).
      Proof.
        intros off path h Ha G. assert (Hk : keeps_files cf H) by (right; eauto).
        destruct (honest_open w (path_of path) Hk ws_c) as [H1 H2].
        unfold on_norm, nz_translate. cbn [nv_archive uncached].
        pose proof (entry_good ws _ w (path_of path) _ (gn_apk _ G) ws_c H1) as V.
        destruct (fc_entry (nw_fs w) (path_of path) (nz_apk (hd_norm h))) as [r c1]. destruct V as [G1 V].
        assert (Hset : forall c', good_cache ws (fun f x => ny_archive y f = Good (fst x) /\ ids_ok (fst x) (snd x)) c' ->
          good (set_apk c' (hd_norm h))) by (intros c' G'; constructor; cbn; auto; apply G).
        destruct (fs_stat (nw_fs w) (path_of path)) as [m|k]; [|subst r; cbn; split; cbn; auto].
        destruct (fs_open (nw_fs w) (path_of path)) as [f|k]; [|subst r; cbn; split; cbn; auto].
        destruct V as [-> [v S1]]. cbn [then_].
        match goal with |- context [fc_fill m ?i c1] => set (init := i) end.
        pose proof (fill_good ws _ (nw_fs w) m init c1 f v G1 S1) as V.
        assert (Hi : forall x, init f = Good x -> ny_archive y f = Good (fst x) /\ ids_ok (fst x) (snd x)).
        { unfold init. intros x E. destruct (ny_archive y f) as [ar|]; [|discriminate]. injection E as <-. split; auto.
          intros b id. discriminate. }
        specialize (V Hi). destruct (fc_fill m init c1) as [r c2]. destruct V as (G2 & Er & S2).
        assert (Hx : (exists ar ids, r = Ok (ar, ids) /\ ny_archive y f = Good ar /\ ids_ok ar ids) \/
                     (exists k, r = Err k /\ ny_archive y f = Bad k)).
        { subst r. destruct v as [[ar ids]|].
          - left. exists ar, ids. split; auto. apply (gc_value _ _ _ G1 _ _ _ S1).
          - unfold init. destruct (ny_archive y f) as [ar|k]; cbn [of_outcome]; [left|right; exists k; auto].
            exists ar, []. split; auto. split; auto. intros b id. discriminate. }
        clear Er. destruct Hx as [(ar & ids & -> & Ear & Hids)|(k & -> & Ek)].
        - rewrite Ear. cbn [then_ of_outcome bind].
          pose proof (nz_members_ok (cl_mode c) cf ar off path (ar_members ar) ids Hids) as V.
          destruct (nz_members (cl_mode c) cf ar off path (ar_members ar) ids) as [r ids']. destruct V as [Hids' ->].
          split; [|split; [|split]]; cbn; auto. apply Hset. eapply slot_set_good; [exact (nw_fs w)|exact G2|exact S2|auto].
        - rewrite Ek. cbn. split; [|split; [|split]]; cbn; auto.
      Qed.

      (** *** The vDSO *)
      Lemma vdso_quiet : forall start end_ h, good (hd_norm h) ->
        (cl_pid c = Slf -> start = vs /\ end_ = ve) ->
        quiet h (on_norm (nz_vdso_parser y w (cl_pid c) start end_) h) (of_outcome (nv_vdso env start end_)).
      Proof.
        intros start end_ h G Hs. unfold on_norm, nz_vdso_parser. cbn [nv_vdso uncached].
        destruct Hvdso as [Ho _]. specialize (Ho c Hc).
        assert (E : create_vdso_parser y w (cl_pid c) start end_ = Good (ny_vdso y vs ve)).
        { unfold create_vdso_parser. destruct (cl_pid c); [now destruct (Hs eq_refl) as [-> ->]|now rewrite Ho]. }
        assert (E' : match cl_pid c, nw_own_vdso w with
                     | Slf, _ => Good (ny_vdso y start end_)
                     | Pid _, Good (Some (s, e)) => Good (ny_vdso y s e)
                     | Pid _, Good None => Bad ENotFound
                     | Pid _, Bad k => Bad k
                     end = Good (ny_vdso y vs ve)).
        { rewrite Ho. destruct (cl_pid c); [now destruct (Hs eq_refl) as [-> ->]|auto]. }
        rewrite E, E'. unfold get_or_try_init. cbn [of_outcome].
        destruct (nz_vdso (hd_norm h)) as [v|] eqn:Ev.
        - pose proof (gn_vdso _ G _ Ev) as ->. split; [|split; [|split]]; cbn; auto.
          constructor; cbn; try apply G. intros v [= <-]. reflexivity.
        - split; [|split; [|split]]; cbn; auto. constructor; cbn; try apply G. intros v [= <-]. reflexivity.
      Qed.
      Lemma handle_vdso_sim : forall addr off start end_ h, good (hd_norm h) ->
        (cl_pid c = Slf -> start = vs /\ end_ = ve) ->
        sim h (nz_handle_vdso y w (cl_pid c) addr off start end_ h)
          (handle_vdso_addr env addr off start end_ (hd_out h)).
      Proof.
        intros addr off start end_ h G Hs. unfold nz_handle_vdso, handle_vdso_addr.
        apply sim_then; [now apply vdso_quiet|]. intros p h' G' E1 E2 _. rewrite <- E1.
        apply sim_then; [now apply quiet_same|]. intros a h1 G1 E3 E4 _.
        destruct a as [a|]; [|rewrite <- E3; now apply sim_add].
        rewrite <- E3. apply sim_then; [now apply quiet_same|]. intros x h2 G2 E5 E6 _. rewrite <- E5.
        destruct x as [s|r]; [now apply (sim_add (fun s0 => NState _ _ _ _))|now apply sim_add].
      Qed.

      (** *** Entries *)
      Lemma add_offset_sim : forall off key f h meta r, good (hd_norm h) -> quiet h (f h) (Ok r) -> meta = r ->
        sim h (nz_add_offset off key f h) (Ok (add_normalized_offset off key meta (hd_out h))).
      Proof.
        intros off key f h meta r G Q ->. unfold nz_add_offset.
        destruct (aget beq key (ns_meta_lookup (hd_out h))) as [i|] eqn:E.
        - split; [|split]; auto. cbn. unfold add_normalized_offset. now rewrite E.
        - change (Ok (add_normalized_offset off key r (hd_out h))) with
            (let* x := Ok r in Ok (add_normalized_offset off key x (hd_out h))).
          apply sim_then; auto. intros a h' G' E1 E2 [= <-]. rewrite <- E1. now apply sim_add.
      Qed.
      Definition fine (e : maps_entry) : Prop :=
        (cl_pid c = Slf -> is_vdso e -> me_start e = vs /\ me_end e = ve) /\ (is_archive e -> me_build_id e = None).
      Lemma handle_sim : forall addr e h, good (hd_norm h) -> fine e ->
        sim h (nz_handle (cl_mode c) y cf w (cl_pid c) (cl_opts c) addr e h)
          (handle_entry_addr (cl_mode c) env o addr e (hd_out h)).
      Proof.
        intros addr e h G [F1 F2]. unfold nz_handle, handle_entry_addr.
        set (cont := fun file_off => match me_path e with Some _ => _ | None => _ end).
        rewrite <- bind_assoc.
        apply sim_then; [now apply quiet_same|]. intros off h' G' E1 E2 _. unfold cont. clear cont.
        rewrite <- E1. clear E1 E2 h G. rename h' into h, G' into G.
        destruct (me_path e) as [[f s|n]|] eqn:Ep; [| |now apply sim_add].
        - cbn [no_map_files no_apk_to_elf no_build_ids options].
          destruct (beq (extension s) str_apk || beq (extension s) str_zip) eqn:Ex.
          + destruct (co_apk_to_elf (cl_opts c)) eqn:Ea.
            * set (path := if co_map_files (cl_opts c) then f else s).
              pose proof (translate_quiet off path h Ea G) as Q.
              rewrite <- bind_assoc. apply sim_then; auto. intros r h' G' E1 E2 _. rewrite <- E1.
              destruct r as [[[eo ep] eb]|]; [|now apply sim_add].
              eapply add_offset_sim; auto. rewrite F2.
              -- destruct (cl_mode c); now apply quiet_same.
              -- exists f, s. split; auto. apply orb_true_iff in Ex. rewrite !beq_eq in Ex. exact Ex.
            * eapply add_offset_sim; auto. now apply quiet_same.
          + destruct (me_build_id e) as [b|].
            * eapply add_offset_sim; auto. now apply quiet_same.
            * set (path := if co_map_files (cl_opts c) then f else s).
              destruct (build_id_quiet path h G) as (r & Q & Hr).
              eapply add_offset_sim; auto.
              destruct (on_norm (nz_read_build_id (cl_mode c) y cf w (path_of path)) h) as [r0 h0].
              destruct Q as (Q1 & Q2 & Q3 & Q4). cbn [fst snd] in *. subst r0.
              split; [|split; [|split]]; cbn; auto.
              destruct Hr as [->|(k & -> & E)]; [reflexivity|]. now rewrite E.
        - destruct (beq n str_vdso) eqn:En; [|now apply sim_add].
          apply handle_vdso_sim; auto. intros Es. apply F1; auto. unfold is_vdso. rewrite Ep. apply beq_eq in En. now subst.
      Qed.

      (** *** The pass over addresses *)
      Section Pass.
        Context {St : Type}.
        Variable entries : N -> St -> option (res maps_entry) * St.
        Variable gst : St -> Prop.
        Hypothesis Hent : forall a st, gst st -> gst (snd (entries a st)) /\
          forall e, fst (entries a st) = Some (Ok e) -> fine e.
        Notation handle := (nz_handle (cl_mode c) y cf w (cl_pid c) (cl_opts c)).

        Lemma find_entry_fine : forall fuel a e st b e' st', fine e -> gst st ->
          find_entry entries fuel a e st = Ok (b, e', st') -> fine e' /\ gst st'.
        Proof.
          induction fuel as [|fuel IH]; intros a e st b e' st' F G; cbn [find_entry];
          destruct (me_end e <=? a); try discriminate; try (intros [= <- <- <-]; auto).
          destruct (Hent a st G) as [G1 G2]. destruct (entries a st) as [[r|] st1]; cbn [fst snd] in *.
          - destruct r as [e1|k| |]; cbn [bind]; try discriminate. intros E. eapply IH; [| |exact E]; auto.
          - intros [= <- <- <-]. auto.
        Qed.
        Lemma loop_sim : forall fuel addrs prev e st h, good (hd_norm h) -> fine e -> gst st ->
          sim h (nz_loop entries handle fuel addrs prev e st h)
            (main_loop entries add_unknown_addr (handle_entry_addr (cl_mode c) env o) fuel addrs prev e st (hd_out h)).
        Proof.
          intros fuel. induction addrs as [|a addrs IH]; intros prev e st h G F Gs; cbn [nz_loop main_loop].
          - split; auto.
          - destruct (a <? prev); [split; auto|].
            destruct (find_entry entries fuel a e st) as [[[b e'] st']|k| |] eqn:Ef; cbn [then_ bind]; try solve [split; auto].
            destruct (find_entry_fine _ _ _ _ _ _ _ F Gs Ef) as [F' Gs'].
            destruct b; cbn [negb orb].
            + destruct (a <? me_start e').
              * apply (IH a e' st' (Hnd (add_unknown_addr a Unmapped (hd_out h)) (hd_norm h))); auto.
              * pose proof (handle_sim a e' h G F') as (S1 & S2 & S3).
                destruct (handle a e' h) as [r h1]. cbn [fst snd] in *. rewrite S3.
                destruct r as [[]|k| |]; cbn [then_ bind]; try solve [split; auto].
                destruct (IH a e' st' h1 S1 F' Gs') as (T1 & T2 & T3). split; auto. split; auto. congruence.
            + apply (IH a e' st' (Hnd (add_unknown_addr a Unmapped (hd_out h)) (hd_norm h))); auto.
        Qed.
        Lemma impl_sim : forall addrs st z, good z -> gst st ->
          let '(r, z') := nz_impl y cf c addrs entries st z in
          good z' /\ nz_entries z' = nz_entries z /\ r = normalize_impl (cl_mode c) env o entries (cl_fuel c) st addrs.
        Proof.
          intros addrs st z G Gs. unfold nz_impl, normalize_impl, nz_pass, normalize_sorted.
          set (prev := match addrs with a :: _ => a | [] => 0 end).
          destruct (Hent prev st Gs) as [G1 G2]. destruct (entries prev st) as [[r|] st1]; cbn [fst snd] in *.
          - destruct r as [e|k| |]; cbn [then_ bind]; auto.
            pose proof (loop_sim (cl_fuel c) addrs prev e st1 (Hnd nstate_new z) G (G2 e eq_refl) G1) as (S1 & S2 & S3).
            destruct (nz_loop _ _ _ _ _ _ _ _) as [r h]. cbn [fst snd hd_norm hd_out] in *. rewrite S3.
            destruct r as [[]|k| |]; cbn [bind]; auto.
          - cbn [bind]. auto.
        Qed.
      End Pass.

      (** *** Mappings *)
      Lemma items_fine : forall a st, (forall e, In (Ok e) st -> fine e) ->
        (forall e, In (Ok e) (snd (iter_next a st)) -> fine e) /\ forall e, fst (iter_next a st) = Some (Ok e) -> fine e.
      Proof.
        intros a [|x st] G; cbn; split; auto; try discriminate.
        - intros e He. apply G. now right.
        - intros e [= ->]. apply G. now left.
      Qed.
      Lemma reports_fine : forall c' e, In c' H -> cl_pid c' = cl_pid c -> reports cf c' e -> fine e.
      Proof.
        intros c' e Hc' Ep Hr. destruct Hvdso as [_ Hv]. split; [|eauto].
        intros Es. apply (Hv c' e); congruence.
      Qed.
      Lemma reads_fine : forall c' es, In c' H -> cl_pid c' = cl_pid c -> reads cf c' es -> forall e, In (Ok e) (map Ok es) -> fine e.
      Proof.
        intros c' es Hc' Ep Hr e He. apply in_map_iff in He. destruct He as (e' & [= ->] & He).
        apply (reports_fine c'); auto. unfold reads, reports in *.
        destruct (mappings cf c') as [[items|q]|]; [|destruct Hr as (l & Hw & -> & _)|contradiction].
        - subst. now apply in_map.
        - apply filter_In in He. destruct He as [He _]. revert He. clear -Hw. 
          induction Hw as [|a e0 l E Hw IH]; [contradiction|]. intros [->|He]; eauto.
      Qed.
      Lemma list_sim : forall addrs es z c', good z -> In c' H -> cl_pid c' = cl_pid c -> reads cf c' es ->
        let '(r, z') := nz_impl y cf c addrs iter_next (map Ok es) z in
        good z' /\ nz_entries z' = nz_entries z /\
        r = fst (normalize_iter (cl_mode c) env o false (cl_fuel c) (Text (map Ok es)) None addrs).
      Proof.
        intros addrs es z c' G Hc' Ep Hr. cbn [normalize_iter fst].
        apply (impl_sim iter_next (fun st => forall e, In (Ok e) st -> fine e)); auto.
        - apply items_fine.
        - intros e. eapply reads_fine; eauto.
      Qed.
      Lemma plain_sim : forall addrs z, nc_cache_vmas cf = false -> good z ->
        let '(r, z') := nz_iter y cf c addrs z in
        good z' /\ nz_entries z' = nz_entries z /\
        r = let* src := of_outcome (mappings cf c) in
            fst (normalize_iter (cl_mode c) env o false (cl_fuel c) src None addrs).
      Proof.
        intros addrs z Ev G. unfold nz_iter, mappings. rewrite Ev. cbn [negb].
        pose proof (fun e => reports_fine c e Hc eq_refl) as Hf. unfold reports, mappings in Hf.
        destruct (nc_query cf).
        - destruct (nw_query w (cl_pid c) (nc_build_ids cf)) as [q|k]; cbn [of_outcome then_ bind]; auto.
          apply (impl_sim (query_next q) (fun _ => True)); auto. intros a st _. split; auto.
          intros e E. apply Hf. exists a. unfold query_next in E. destruct (q a) as [[x|]|k| |]; cbn in E; congruence.
        - destruct (nw_text w (cl_pid c)) as [items|k]; cbn [of_outcome then_ bind]; auto.
          apply (impl_sim iter_next (fun st => forall e, In (Ok e) st -> fine e)); auto.
          apply items_fine.
      Qed.
    End Call.

    (** ** Cached mappings *)
    Definition read (c : call) : res (list maps_entry) :=
      let* src := of_outcome (mappings cf c) in
      match src with Text items => collect items | Query q => query_all (cl_fuel c) q 0 end.
    Lemma collect_iff : forall A (items : list (res A)) es, collect items = Ok es <-> items = map Ok es.
    Proof.
      intros A. induction items as [|x items IH]; intros es; cbn [collect].
      - split; [intros [= <-]; reflexivity|]. now destruct es.
      - split.
        + intros E. ib E a Ea. ib E l El. injection E as <-. cbn [map]. f_equal; [exact Ea|now apply IH].
        + destruct es as [|e es]; [discriminate|]. intros [= -> E]. apply IH in E. cbn [bind]. now rewrite E.
    Qed.
    Lemma query_all_iff : forall fuel q a es, query_all fuel q a = Ok es <->
      exists l, walk q a l /\ es = filter filter_relevant l /\ (length l < fuel)%nat.
    Proof.
      induction fuel as [|fuel IH]; intros q a es; cbn [query_all].
      - split; [discriminate|]. intros (l & _ & _ & Hl). lia.
      - split.
        + intros E. ib E r Er. destruct r as [e|].
          * ib E rest Er'. apply IH in Er'. destruct Er' as (l & Hw & -> & Hl). injection E as <-.
            exists (e :: l). split; [now constructor|]. split; [reflexivity|cbn; lia].
          * injection E as <-. exists []. split; [now constructor|]. split; [auto|cbn; lia].
        + intros (l & Hw & -> & Hl). destruct Hw as [a E|a e l E Hw]; rewrite E; cbn [bind]; auto.
          assert (E' : query_all fuel q (me_end e) = Ok (filter filter_relevant l)).
          { apply IH. exists l. cbn in Hl. split; auto. split; auto. lia. }
          rewrite E'. cbn [bind filter]. reflexivity.
    Qed.
    Lemma read_iff : forall c es, read c = Ok es <-> reads cf c es.
    Proof.
      intros c es. unfold read, reads. destruct (mappings cf c) as [[items|q]|k]; cbn [of_outcome bind].
      - apply collect_iff.
      - apply query_all_iff.
      - split; [discriminate|contradiction].
    Qed.

    Definition opened (c : call) : res unit :=
      if nc_query cf then let* _ := of_outcome (mappings cf c) in Ok tt else Ok tt.
    Lemma iter_cached : forall c addrs z, nc_cache_vmas cf = true ->
      nz_iter y cf c addrs z =
      then_ (opened c, z) (fun _ z => then_ (cached_entries (cl_pid c) (read c) z) (fun es z =>
        nz_impl y cf c addrs iter_next (map Ok es) z)).
    Proof.
      intros c addrs z Ev. unfold nz_iter, opened, read, mappings. rewrite Ev. cbn [negb].
      destruct (nc_query cf).
      - now destruct (nw_query (cl_world c) (cl_pid c) (nc_build_ids cf)).
      - now destruct (nw_text (cl_world c) (cl_pid c)).
    Qed.

    Definition known (h : list call) (z : normalizer) : Prop :=
      forall p, match aget pid_eqb p (nz_entries z) with
                | Some es => first_read cf h p es
                | None => none_read cf h p
                end.
    Lemma pid_eqb_spec : forall a b, reflect (a = b) (pid_eqb a b).
    Proof.
      intros [|n] [|k]; cbn; try (constructor; congruence). destruct (N.eqb_spec n k); constructor; congruence.
    Qed.
    Lemma first_read_app : forall (h h' : list call) p es, first_read cf h p es -> first_read cf (h ++ h') p es.
    Proof.
      intros h h' p es (h1 & c & h2 & -> & F). exists h1, c, (h2 ++ h'). split; auto. now rewrite <- app_assoc.
    Qed.
    Lemma first_read_now : forall (h : list call) c es, none_read cf h (cl_pid c) -> reads cf c es -> first_read cf (h ++ [c]) (cl_pid c) es.
    Proof. intros h c es Hn Hr. exists h, c, []. split; auto. Qed.
    Lemma none_read_app : forall (h : list call) c p, none_read cf h p -> (cl_pid c = p -> forall es, ~ reads cf c es) ->
      none_read cf (h ++ [c]) p.
    Proof. intros h c p Hn Hr c' Hc'. apply in_app_or in Hc'. destruct Hc' as [Hc'|[<-|[]]]; auto. Qed.

    Lemma iter_known : forall h c addrs z, nc_cache_vmas cf = true -> incl (h ++ [c]) H -> good z -> known h z ->
      let '(r, z') := nz_iter y cf c addrs z in
      good z' /\ known (h ++ [c]) z' /\
      r = let* _ := opened c in
          let* es := match aget pid_eqb (cl_pid c) (nz_entries z) with Some es => Ok es | None => read c end in
          fst (normalize_iter (cl_mode c) (uncached y (cl_world c) (cl_pid c)) (options cf c) false (cl_fuel c)
                 (Text (map Ok es)) None addrs).
    Proof.
      intros h c addrs z Ev Hi G K. rewrite (iter_cached c addrs z Ev).
      assert (Hc : In c H) by (apply Hi, in_or_app; right; now left).
      assert (Hsame : forall z', nz_entries z' = nz_entries z ->
                (aget pid_eqb (cl_pid c) (nz_entries z) = None -> forall es, ~ reads cf c es) -> known (h ++ [c]) z').
      { intros z' E Hn p. specialize (K p). rewrite E. destruct (aget pid_eqb p (nz_entries z)) as [es|] eqn:Ep.
        - now apply first_read_app.
        - apply none_read_app; auto. intros <-. auto. }
      destruct (opened c) as [[]|k| |] eqn:Eo; cbn [then_ bind].
      2,3,4: split; auto; split; auto; apply Hsame; auto; intros _ es Hr;
        unfold opened, reads in *; destruct (nc_query cf); try discriminate; destruct (mappings cf c); try discriminate; contradiction.
      unfold cached_entries. destruct (aget pid_eqb (cl_pid c) (nz_entries z)) as [es|] eqn:Ec.
      - cbn [then_ bind]. pose proof (K (cl_pid c)) as F. rewrite Ec in F. destruct F as (h1 & c' & h2 & Eh & Ep & Hr & _).
        assert (Hc' : In c' H). { apply Hi. rewrite Eh. apply in_or_app. left. apply in_or_app. right. now left. }
        pose proof (list_sim c Hc addrs es z c' G Hc' Ep Hr) as S.
        destruct (nz_impl y cf c addrs iter_next (map Ok es) z) as [r z']. destruct S as (S1 & S2 & S3).
        split; auto. split; auto. apply Hsame; auto. discriminate.
      - destruct (read c) as [es|k| |] eqn:Er; cbn [then_ bind].
        2,3,4: split; auto; split; auto; apply Hsame; auto; intros _ es Hr; apply read_iff in Hr; congruence.
        apply read_iff in Er.
        set (z1 := set_entries (aset pid_eqb (cl_pid c) es (nz_entries z)) z).
        assert (G1 : good z1) by (constructor; apply G).
        pose proof (list_sim c Hc addrs es z1 c G1 Hc eq_refl Er) as S.
        destruct (nz_impl y cf c addrs iter_next (map Ok es) z1) as [r z']. destruct S as (S1 & S2 & S3).
        split; auto. split; auto. intros p. rewrite S2. cbn [z1 set_entries nz_entries].
        destruct (pid_eqb_spec p (cl_pid c)) as [->|Hne].
        + rewrite aget_aset_eq by apply pid_eqb_spec. apply first_read_now; auto. specialize (K (cl_pid c)). now rewrite Ec in K.
        + rewrite aget_aset_neq by (auto; apply pid_eqb_spec). specialize (K p).
          destruct (aget pid_eqb p (nz_entries z)); [now apply first_read_app|].
          apply none_read_app; [exact K|congruence].
    Qed.

    (** ** Calls *)
    Lemma call_iter : forall c z (src : res source),
      (forall addrs, fst (nz_iter y cf c addrs z) = let* s := src in
         fst (normalize_iter (cl_mode c) (uncached y (cl_world c) (cl_pid c)) (options cf c) false (cl_fuel c) s None addrs)) ->
      fst (nz_call y cf c z) = let* s := src in alone y cf c s.
    Proof.
      intros c z src E. unfold nz_call, alone, normalize_opts. cbn [no_sorted_addrs options].
      destruct (co_sorted_addrs (cl_opts c)); [apply E|]. unfold with_ordered_elems.
      specialize (E (map fst (isort pair_leb (enumerate (cl_addrs c))))).
      destruct (nz_iter y cf c _ z) as [r z']. cbn [fst] in *. rewrite E.
      destruct src as [s|k| |]; reflexivity.
    Qed.
    Lemma call_state : forall c z, exists addrs, snd (nz_call y cf c z) = snd (nz_iter y cf c addrs z).
    Proof.
      intros c z. unfold nz_call. destruct (co_sorted_addrs (cl_opts c)); [eauto|].
      exists (map fst (isort pair_leb (enumerate (cl_addrs c)))). now destruct (nz_iter y cf c _ z).
    Qed.

    Notation start := (Normalizer (fc_new true) None [] (fc_new true) : normalizer).
    Lemma run_snoc : forall h c z, nz_run y cf (h ++ [c]) z = snd (nz_call y cf c (nz_run y cf h z)).
    Proof. intros h c z. unfold nz_run. now rewrite fold_left_app. Qed.
    Lemma run_plain : forall h, nc_cache_vmas cf = false -> incl h H -> good (nz_run y cf h start).
    Proof.
      intros h Ev. induction h as [|c h IH] using rev_ind; intros Hi; [apply good_init|].
      rewrite run_snoc. destruct (call_state c (nz_run y cf h start)) as [addrs ->].
      assert (Hc : In c H) by (apply Hi, in_or_app; right; now left).
      pose proof (plain_sim c Hc addrs (nz_run y cf h start) Ev) as S.
      destruct (nz_iter y cf c addrs (nz_run y cf h start)) as [r z']. apply S. apply IH.
      intros x Hx. apply Hi. apply in_or_app. now left.
    Qed.
    Lemma run_known : forall h, nc_cache_vmas cf = true -> incl h H ->
      good (nz_run y cf h start) /\ known h (nz_run y cf h start).
    Proof.
      intros h Ev. induction h as [|c h IH] using rev_ind; intros Hi.
      - split; [apply good_init|]. intros p. cbn. intros c Hc. destruct Hc.
      - rewrite run_snoc. destruct (call_state c (nz_run y cf h start)) as [addrs ->].
        destruct IH as [G K]. { intros x Hx. apply Hi. apply in_or_app. now left. }
        pose proof (iter_known h c addrs (nz_run y cf h start) Ev Hi G K) as S.
        destruct (nz_iter y cf c addrs (nz_run y cf h start)) as [r z']. cbn [snd]. tauto.
    Qed.

    Lemma call_plain : forall h c, nc_cache_vmas cf = false -> incl (h ++ [c]) H ->
      fst (nz_call y cf c (nz_run y cf h start)) = let* src := of_outcome (mappings cf c) in alone y cf c src.
    Proof.
      intros h c Ev Hi. assert (Hc : In c H) by (apply Hi, in_or_app; right; now left).
      assert (G : good (nz_run y cf h start)).
      { apply run_plain; auto. intros x Hx. apply Hi. apply in_or_app. now left. }
      apply call_iter. intros addrs. pose proof (plain_sim c Hc addrs _ Ev G) as S.
      destruct (nz_iter y cf c addrs (nz_run y cf h start)) as [r z']. apply S.
    Qed.
    Lemma call_known : forall h c, nc_cache_vmas cf = true -> incl (h ++ [c]) H ->
      fst (nz_call y cf c (nz_run y cf h start)) =
      let* _ := opened c in
      let* es := match aget pid_eqb (cl_pid c) (nz_entries (nz_run y cf h start)) with Some es => Ok es | None => read c end in
      alone y cf c (Text (map Ok es)).
    Proof.
      intros h c Ev Hi. destruct (run_known h Ev) as [G K]. { intros x Hx. apply Hi. apply in_or_app. now left. }
      set (e := match aget pid_eqb (cl_pid c) (nz_entries (nz_run y cf h start)) with Some es => Ok es | None => read c end).
      rewrite (call_iter c _ (let* _ := opened c in let* es := e in Ok (Text (map Ok es)))).
      - destruct (opened c); auto. now destruct e.
      - intros addrs. pose proof (iter_known h c addrs _ Ev Hi G K) as S.
        destruct (nz_iter y cf c addrs (nz_run y cf h start)) as [r z']. cbn [fst]. destruct S as (_ & _ & ->). fold e.
        destruct (opened c); auto. now destruct e.
    Qed.
  End Calls.
End Proofs.
