(** * C60: registered ELF resolvers *)

From Verif Require Import Base Util UtilProofs Amap Maps FileCache FileCacheProofs CacheViews Sym Normalize NormalizeProofs
  Symbolizer SymbolizerSpec SymbolizerElf SymbolizerApk SymbolizerState SymbolizerProcess SymbolizerDemo PropSymBatch PropSymCache.
Local Open Scope N_scope.

Section Register.
  Context {File Parser : Type}.
  Notation world := (world File Parser).
  Notation state := (state File Parser).
  Notation ecache := (file_cache File (elf_data Parser)).

  Definition part (debug : bool) (d : elf_data Parser) : option (elf_res Parser) := if debug then ed_dwarf d else ed_elf d.

  (** What a lookup gives for a file there is data of *)
  Lemma kept_lookup : forall w p mt d (c : ecache) debug, Inv c -> wf c -> kept p mt d c -> emeta (w_fs w) p c = Good mt ->
    (forall x, part debug d = Some x -> fst (elf_resolver w p p debug c) = Ok x) /\
    (forall e x y, part e d = Some x -> fst (elf_resolver w p p debug c) = Ok y -> er_parser y = er_parser x).
  Proof.
    intros w p mt d c debug HI HW [_ (f & v & S & (d' & -> & He & Hd))] Em.
    pose proof (fc_entry_view (w_fs w) p c HI) as V. pose proof (grows_entry (w_fs w) p c HI HW) as G. unfold elf_resolver, elf_debug, elf_none.
    destruct (fc_entry (w_fs w) p c) as [r c1]. unfold efile in V. rewrite Em, S in V.
    destruct V as (-> & I1 & _ & S1 & _). destruct G as [G _]. pose proof (g_wf _ _ G mt f d' S1) as (Hne & Hp).
    cbn [then_]. destruct debug; cbn [part]; rewrite (slot_get_some _ _ _ _ S1); cbn [then_].
    - destruct (ed_dwarf d') as [x'|] eqn:Ed.
      + cbn [then_]. rewrite (slot_get_some _ _ _ _ S1). cbn [then_ fst]. rewrite Ed. cbn [unwrap]. split.
        * intros x Hx. rewrite <- Hd in Hx by congruence. congruence.
        * intros e x y Hx [= <-]. destruct e; cbn [part] in Hx.
          -- rewrite <- Hd in Hx by congruence. congruence.
          -- rewrite <- He in Hx by congruence. symmetry. now apply Hp.
      + split; [intros x Hx; rewrite <- Hd in Hx by congruence; congruence|].
        destruct (ed_elf d') as [y0|] eqn:Ee; [|destruct Hne; congruence].
        intros e x y Hx E. assert (y0 = x).
        { destruct e; cbn [part] in Hx; [rewrite <- Hd in Hx by congruence; congruence|]. rewrite <- He in Hx by congruence. congruence. }
        subst y0. pose proof (grows_from_parser w (er_parser x) c1 I1 (g_wf _ _ G)) as G2.
        pose proof (from_parser_parser w (er_parser x) c1) as FP.
        destruct (from_parser w (er_parser x) c1) as [[z|k| |] c2]; cbn [then_ fst snd] in *; try discriminate.
        destruct (g_slot _ _ G2 mt f _ S1) as (v2 & S2 & (d2 & -> & Ve & Vd)).
        rewrite (slot_get_some _ _ _ _ S2) in E. cbn [then_] in E.
        destruct (ed_dwarf d2) as [x2|] eqn:Ed2; cbn [then_] in E.
        * rewrite (slot_get_some _ _ _ _ S2) in E. cbn [then_ fst] in E. rewrite Ed2 in E. injection E as <-.
          pose proof (g_wf _ _ G2 mt f d2 S2) as (_ & Hp2). symmetry. apply Hp2; auto. rewrite Ve by congruence. exact Ee.
        * destruct (slot_set_view (w_fs w) mt c2 f _ (ElfData (ed_elf d2) (Some z)) (g_inv _ _ G2) S2) as (_ & S3 & _).
          rewrite (slot_get_some _ _ _ _ S3) in E. cbn [then_ fst] in E. injection E as <-. eapply FP; eauto.
    - destruct (ed_elf d') as [x'|] eqn:Ee; cbn [fst].
      + split.
        * intros x Hx. rewrite <- He in Hx by congruence. congruence.
        * intros e x y Hx [= <-]. destruct e; cbn [part] in Hx.
          -- rewrite <- Hd in Hx by congruence. now apply Hp.
          -- rewrite <- He in Hx by congruence. congruence.
      + split; [intros x Hx; rewrite <- He in Hx by congruence; congruence|].
        destruct (ed_dwarf d') as [y0|] eqn:Ed; [|destruct Hne; congruence]. cbn [fst]. intros e x y Hx [= <-]. cbn [er_parser].
        destruct e; cbn [part] in Hx; [rewrite <- Hd in Hx by congruence; congruence|]. rewrite <- He in Hx by congruence. congruence.
  Qed.
  Lemma kept_register : forall w p mt d (c : ecache) x, Inv c -> kept p mt d c -> emeta (w_fs w) p c = Good mt ->
    fst (register w p x c) = Err EAlreadyExists.
  Proof.
    intros w p mt d c x HI [_ (f & v & S & (d' & -> & _))] Em. pose proof (fc_entry_view (w_fs w) p c HI) as V. unfold register.
    destruct (fc_entry (w_fs w) p c) as [r c1]. unfold efile in V. rewrite Em, S in V. destruct V as (-> & I1 & _ & S1 & _).
    cbn [then_]. rewrite (slot_get_some _ _ _ _ S1). reflexivity.
  Qed.
  Lemma entry_has : forall w p (c : ecache) m c', Inv c -> fc_entry w p c = (Ok m, c') -> has m (pget p (fc_cache c')) = true.
  Proof.
    intros w p c m c' HI E. pose proof (fc_entry_spec w p c HI) as V. rewrite E in V. destruct V as (_ & _ & _ & _ & V & _).
    rewrite V, meta_eqb_refl. apply orb_true_r.
  Qed.
  Lemma registered : forall w p x (c : ecache), Inv c -> wf c -> fst (register w p x c) = Ok tt ->
    exists mt, emeta (w_fs w) p c = Good mt /\
      kept p mt (if er_dwarf x then ElfData None (Some x) else ElfData (Some x) None) (snd (register w p x c)).
  Proof.
    intros w p x c HI HW E. unfold register in *. pose proof (fc_entry_view (w_fs w) p c HI) as V.
    pose proof (fun m c' => entry_has (w_fs w) p c m c' HI) as Hh.
    destruct (fc_entry (w_fs w) p c) as [r c1]. destruct (efile (w_fs w) p c) as [[[mt f] v]|k]; [|destruct V as [-> _]; discriminate].
    destruct V as (-> & I1 & Em & S1 & _). specialize (Hh mt c1 eq_refl). cbn [then_] in *. rewrite (slot_get_some _ _ _ _ S1) in *. cbn [then_] in *.
    destruct v as [d|]; [discriminate|]. exists mt. split; auto. cbn [snd]. constructor.
    - unfold slot_set. destruct (eget mt (fc_entries c1)); exact Hh.
    - exists f. eexists. split; [apply (slot_set_view (w_fs w) mt c1 f _ _ I1 S1)|apply vle_refl].
  Qed.

  (** From then on it is used for the path, for as long as the path refers to the file it
      referred to and is not evicted, whatever else is asked for, cached, registered or
      evicted. It answers itself if asked for what it was made for (with debug information or
      without); otherwise what it has parsed is made use of, too. *)
  Theorem C60_used : forall w p x (s : state), reachable s -> fst (register_elf_resolver w p x s) = Ok tt ->
    let s1 := snd (register_elf_resolver w p x s) in
    exists mt, file_at (w_fs w) (s_elf s) p = Good mt /\
      forall h w', Forall (keeps_elf p) h -> file_at (w_fs w') (s_elf (run h s1)) p = Good mt ->
        (forall m cf k addrs, fst (symbolize m cf w' (SElf p (er_dwarf x)) k addrs (run h s1)) = with_elf m cf k addrs x) /\
        (forall debug y, fst (elf_resolver w' p p debug (s_elf (run h s1))) = Ok y -> er_parser y = er_parser x).
  Proof.
    intros w p x s Hr E s1. pose proof (reachable_ok s Hr) as H. pose proof (mono_register w p x s H) as M. fold s1 in M.
    unfold register_elf_resolver, on_elf in *.
    destruct (registered w p x (s_elf s) (so_elf s H) (so_wf s H)) as (mt & Em & Hk).
    { destruct (register w p x (s_elf s)); exact E. }
    exists mt. split; [now rewrite file_at_emeta|]. intros h w' Hh Em'. rewrite file_at_emeta in Em'.
    assert (H1 : state_ok s1) by apply (after_ok (ORegister w p x) s H).
    assert (Hk1 : kept p mt (if er_dwarf x then ElfData None (Some x) else ElfData (Some x) None) (s_elf s1)).
    { subst s1. destruct (register w p x (s_elf s)); exact Hk. }
    pose proof (run_kept p mt _ h s1 H1 Hh Hk1) as Hk2. pose proof (run_ok h s1 H1) as H2. split.
    - intros m cf k addrs. rewrite symbolize_elf. unfold on_elf.
      pose proof (proj1 (kept_lookup w' p mt _ _ (er_dwarf x) (so_elf _ H2) (so_wf _ H2) Hk2 Em') x) as L.
      destruct (elf_resolver w' p p (er_dwarf x) (s_elf (run h s1))) as [r c2]. cbn [fst] in L.
      rewrite L; [reflexivity|]. destruct (er_dwarf x); reflexivity.
    - intros debug y Hy. apply (proj2 (kept_lookup w' p mt _ _ debug (so_elf _ H2) (so_wf _ H2) Hk2 Em') (er_dwarf x) x y); auto.
      destruct (er_dwarf x); reflexivity.
  Qed.

  (** If there is data of the file already, by any lookup of the path since it was last
      evicted, registering fails and what is there is used as before. *)
  Lemma looked_up : forall w p debug (c : ecache) y, Inv c -> wf c -> fst (elf_resolver w p p debug c) = Ok y ->
    exists mt d, emeta (w_fs w) p c = Good mt /\ kept p mt d (snd (elf_resolver w p p debug c)) /\ part debug d = Some y.
  Proof.
    intros w p debug c y HI HW E. pose proof (fc_entry_view (w_fs w) p c HI) as V. pose proof (grows_entry (w_fs w) p c HI HW) as G.
    pose proof (fun m c' => entry_has (w_fs w) p c m c' HI) as Hh. unfold elf_resolver, elf_debug, elf_none in *.
    destruct (fc_entry (w_fs w) p c) as [r c1].
    destruct (efile (w_fs w) p c) as [[[mt f] v]|k]; [|destruct V as [-> _]; destruct debug; discriminate].
    destruct V as (-> & I1 & Em & S1 & _). destruct G as [G _]. specialize (Hh mt c1 eq_refl). exists mt.
    assert (K : forall c2 d2, grows c1 c2 -> slot mt c2 = Some (f, Some d2) -> part debug d2 = Some y ->
      exists d, emeta (w_fs w) p c = Good mt /\ kept p mt d c2 /\ part debug d = Some y).
    { intros c2 d2 G2 S2 P2. exists d2. split; auto. split; auto. constructor; [now apply (g_has _ _ G2)|].
      exists f, (Some d2). split; auto. apply vle_refl. }
    assert (Hs : forall c2 v2 d2, grows c1 c2 -> slot mt c2 = Some (f, v2) -> vle v2 (Some d2) -> wf_data d2 -> part debug d2 = Some y ->
      exists d, emeta (w_fs w) p c = Good mt /\ kept p mt d (slot_set mt d2 c2) /\ part debug d = Some y).
    { intros c2 v2 d2 G2 S2 L2 W2 P2. apply (K _ d2); auto.
      - eapply grows_trans; [exact G2|]. eapply grows_set; eauto; apply G2.
      - apply (slot_set_view (w_fs w) mt c2 f v2 d2 (g_inv _ _ G2) S2). }
    pose proof (grows_refl c1 I1 (g_wf _ _ G)) as R1.
    cbn [then_] in *. destruct debug; rewrite (slot_get_some _ _ _ _ S1) in *; cbn [then_] in *.
    - destruct v as [d|].
      + destruct (ed_dwarf d) as [x|] eqn:Ed.
        * cbn [then_] in *. rewrite (slot_get_some _ _ _ _ S1) in *. cbn [then_ fst snd] in *. rewrite Ed in E. injection E as ->. now apply (K c1 d).
        * destruct (ed_elf d) as [z|] eqn:Ee; [|discriminate].
          pose proof (grows_from_parser w (er_parser z) c1 I1 (g_wf _ _ G)) as G2.
          pose proof (from_parser_parser w (er_parser z) c1) as FP.
          destruct (from_parser w (er_parser z) c1) as [[x|k| |] c2]; cbn [then_ fst snd] in *; try discriminate.
          destruct (g_slot _ _ G2 mt f _ S1) as (v2 & S2 & (d2 & -> & Ve & Vd)).
          rewrite (slot_get_some _ _ _ _ S2) in *. cbn [then_] in *.
          destruct (ed_dwarf d2) as [x2|] eqn:Ed2; cbn [then_] in *.
          -- rewrite (slot_get_some _ _ _ _ S2) in *. cbn [then_ fst snd] in *. rewrite Ed2 in E. injection E as ->. now apply (K c2 d2).
          -- destruct (slot_set_view (w_fs w) mt c2 f _ (ElfData (ed_elf d2) (Some x)) (g_inv _ _ G2) S2) as (_ & S3 & _).
             rewrite (slot_get_some _ _ _ _ S3) in *. cbn [then_ fst snd] in *. injection E as ->.
             apply (Hs c2 (Some d2)); auto.
             ++ simpl. eexists. split; eauto. simpl. rewrite Ed2. split; auto. congruence.
             ++ rewrite Ve, Ee by (rewrite Ee; discriminate). split; simpl; [left; discriminate|].
                intros x' y' H1 H2. injection H1 as <-. injection H2 as <-. symmetry. eapply FP; eauto.
      + destruct (w_elf_parse w f p) as [P|k]; [|discriminate].
        pose proof (grows_from_parser w P c1 I1 (g_wf _ _ G)) as G2.
        destruct (from_parser w P c1) as [[x|k| |] c2]; cbn [then_ fst snd] in *; try discriminate.
        destruct (g_slot _ _ G2 mt f _ S1) as (v2 & S2 & _).
        rewrite (slot_get_some _ _ _ _ S2) in *. cbn [then_] in *. destruct v2 as [d2|]; cbn [fst snd] in *.
        * destruct (ed_dwarf d2) as [x2|] eqn:Ed2; [|discriminate]. injection E as ->. now apply (K c2 d2).
        * injection E as ->. apply (Hs c2 None); simpl; auto. split; simpl; [right; discriminate|discriminate].
    - destruct v as [d|].
      + destruct (ed_elf d) as [x|] eqn:Ee.
        * cbn [fst snd] in *. injection E as ->. now apply (K c1 d).
        * destruct (ed_dwarf d) as [z|] eqn:Ed; [|discriminate]. cbn [fst snd] in *. injection E as <-.
          apply (Hs c1 (Some d)); simpl; auto.
          -- eexists. split; eauto. simpl. rewrite Ee. split; auto. congruence.
          -- split; simpl; [left; discriminate|]. intros x' y' H1 H2. injection H1 as <-. injection H2 as <-. reflexivity.
      + destruct (w_elf_parse w f p) as [P|k]; [|discriminate]. cbn [fst snd] in *. injection E as <-.
        apply (Hs c1 None); simpl; auto. split; simpl; [left; discriminate|discriminate].
  Qed.
  Theorem C60_present : forall m cf w p debug k addrs l (s : state), reachable s ->
    symbolize m cf w (SElf p debug) k addrs s = (Ok l, snd (symbolize m cf w (SElf p debug) k addrs s)) ->
    let s1 := snd (symbolize m cf w (SElf p debug) k addrs s) in
    forall h w', Forall (keeps_elf p) h -> file_at (w_fs w') (s_elf (run h s1)) p = file_at (w_fs w) (s_elf s) p ->
      (forall x, fst (register_elf_resolver w' p x (run h s1)) = Err EAlreadyExists) /\
      fst (symbolize m cf w' (SElf p debug) k addrs (run h s1)) = Ok l.
  Proof.
    intros m cf w p debug k addrs l s Hr E s1 h w' Hh Hf. pose proof (reachable_ok s Hr) as H.
    assert (H1 : state_ok s1) by apply (after_ok (OSymbolize m cf w (SElf p debug) k addrs) s H).
    unfold s1 in *. clear s1. rewrite symbolize_elf in *. unfold on_elf in *.
    pose proof (looked_up w p debug (s_elf s)) as L. 
    destruct (elf_resolver w p p debug (s_elf s)) as [[y|e| |] c1]; cbn [then_ fst snd] in *; try discriminate.
    destruct (L y (so_elf s H) (so_wf s H) eq_refl) as (mt & d & Em & Hk & Hp). injection E as E.
    set (s1 := set_elf c1 s) in *. rewrite !file_at_emeta in Hf. rewrite Em in Hf.
    pose proof (run_kept p mt d h s1 H1 Hh Hk) as Hk2. pose proof (run_ok h s1 H1) as H2. split.
    - intros x. unfold register_elf_resolver, on_elf.
      pose proof (kept_register w' p mt d (s_elf (run h s1)) x (so_elf _ H2) Hk2 Hf) as R.
      destruct (register w' p x (s_elf (run h s1))); exact R.
    - rewrite symbolize_elf. unfold on_elf.
      pose proof (proj1 (kept_lookup w' p mt _ _ debug (so_elf _ H2) (so_wf _ H2) Hk2 Hf) y Hp) as R.
      destruct (elf_resolver w' p p debug (s_elf (run h s1))) as [r c2]. cbn [fst] in R. rewrite R. exact E.
  Qed.

  (** It succeeds for a file that has not been looked at by any path. *)
  Theorem C60_new : forall w p x mt f (s : state), reachable s ->
    file_at (w_fs w) (s_elf s) p = Good mt -> fs_open (w_fs w) p = Good f ->
    (forall q pe, pget q (fc_cache (s_elf s)) = Some pe -> ~ In mt (metas pe)) ->
    fst (register_elf_resolver w p x s) = Ok tt.
  Proof.
    intros w p x mt f s Hr Em Ho Hn. pose proof (reachable_ok s Hr) as H. pose proof (so_elf s H) as HI.
    unfold register_elf_resolver, on_elf, register. rewrite file_at_emeta in Em.
    pose proof (fc_entry_view (w_fs w) p (s_elf s) HI) as V. destruct (fc_entry (w_fs w) p (s_elf s)) as [r c1].
    assert (Hs : slot mt (s_elf s) = None).
    { unfold slot. pose proof (inv_refs _ HI mt) as R. destruct (eget mt (fc_entries (s_elf s))) as [e|]; [|reflexivity].
      exfalso. destruct R as [_ R]. apply cnt_pos in R; [|apply HI]. destruct R as (q & Hq). unfold has in Hq.
      destruct (pget q (fc_cache (s_elf s))) as [pe|] eqn:Ep; [|discriminate]. apply (Hn q pe Ep). now apply contains_In. }
    unfold efile in V. rewrite Em, Hs, Ho in V. destruct V as (-> & I1 & _ & S1 & _). cbn [then_].
    rewrite (slot_get_some _ _ _ _ S1). reflexivity.
  Qed.
  (** A file that is not there cannot be registered for. *)
  Theorem C60_missing : forall w p x e (s : state), reachable s -> file_at (w_fs w) (s_elf s) p = Bad e ->
    fst (register_elf_resolver w p x s) = Err e /\ s_elf (snd (register_elf_resolver w p x s)) = s_elf s.
  Proof.
    intros w p x e s Hr Em. pose proof (reachable_ok s Hr) as H. rewrite file_at_emeta in Em.
    unfold register_elf_resolver, on_elf, register. pose proof (fc_entry_view (w_fs w) p (s_elf s) (so_elf s H)) as V.
    destruct (fc_entry (w_fs w) p (s_elf s)) as [r c1]. unfold efile in V. rewrite Em in V. destruct V as [-> ->]. auto.
  Qed.
End Register.

(** ** Examples *)

Definition own (n : N) (debug : bool) : elf_res N := ElfRes n debug (demo_resolver n).
Definition look2 (w : world N N) debug p s := brief_all (fst (symbolize Checked demo_config w (SElf p debug) VirtOffset [4200] s)).
Example C60_used_ex :
  fst (register_elf_resolver w_before 3 (own 9 true) demo_new) = Ok tt /\
  let s1 := snd (register_elf_resolver w_before 3 (own 9 true) demo_new) in
  let h := [OSymbolize Checked demo_config w_before (SElf 3 false) VirtOffset [4200]; OCache w_before (TElf 3);
            ORegister w_before 3 (own 11 true); OEvict demo_config (EvElf 4)] in
  Forall (keeps_elf 3) h /\
  look2 w_before true 3 (run h s1) = Ok [inl ([9; 4192], 4192, 8)] /\
  look2 w_before false 3 (run h s1) = Ok [inl ([9; 4192], 4192, 8)] /\
  look2 w_before true 3 demo_new = Ok [inl ([1005; 4192], 4192, 8)] /\
  look2 w_later true 3 s1 = Ok [inl ([1006; 4192], 4192, 8)] /\
  fst (register_elf_resolver w_before 3 (own 11 false) (run h s1)) = Err EAlreadyExists /\
  fst (register_elf_resolver w_gone 3 (own 11 false) demo_new) = Err ENotFound.
Proof.
  split; [reflexivity|]. cbv zeta. split; [repeat (apply Forall_cons; [simpl; try discriminate; auto|]); apply Forall_nil|].
  repeat split; vm_compute; reflexivity.
Qed.

(** "This method will fail if a cached [ElfResolver] is already present for the given path":
    it fails, too, if there is one for another path of the same file only; and ... *)
Theorem C60_link_refuted : exists (w : world N N) (s : state N N) p q, reachable s /\ q <> p /\
  s = snd (symbolize Checked demo_config w (SElf q false) VirtOffset [4200] demo_new) /\
  fst (register_elf_resolver w p (own 9 false) s) = Err EAlreadyExists.
Proof.
  exists w_before, (snd (symbolize Checked demo_config w_before (SElf 4 false) VirtOffset [4200] demo_new)), 3, 4.
  split; [|split; [discriminate|split; vm_compute; reflexivity]].
  apply (reachable_run [OSymbolize Checked demo_config w_before (SElf 4 false) VirtOffset [4200]] demo_new). apply demo_reachable.
Qed.
(** ... and what is registered is used for other paths of that file, too. *)
Theorem C60_other_refuted : exists (w : world N N) (s : state N N) p q, reachable s /\ q <> p /\
  fst (register_elf_resolver w p (own 9 false) s) = Ok tt /\
  look2 w false q s = Ok [inl ([5; 4192], 4192, 8)] /\
  look2 w false q (snd (register_elf_resolver w p (own 9 false) s)) = Ok [inl ([9; 4192], 4192, 8)].
Proof.
  exists w_before, demo_new, 3, 4. split; [apply demo_reachable|]. split; [discriminate|]. repeat split; vm_compute; reflexivity.
Qed.
Print Assumptions C60_used.
Print Assumptions C60_present.
Print Assumptions C60_new.
Print Assumptions C60_missing.
Print Assumptions C60_link_refuted.
Print Assumptions C60_other_refuted.
