(** * What operations do to a [Symbolizer]'s state, whatever the world *)

From Verif Require Import Base Util Amap Maps FileCache FileCacheProofs CacheViews Sym Normalize Symbolizer
  SymbolizerSpec SymbolizerElf SymbolizerApk.
Local Open Scope N_scope.

Section Grow.
  Context {File T : Type}.
  Implicit Types (c : file_cache File T).
  Lemma slot_set_cur : forall m x c q, cur q (slot_set m x c) = cur q c.
  Proof. intros m x c q. unfold slot_set. destruct (eget m (fc_entries c)); reflexivity. Qed.
  Lemma slot_set_auto : forall m x c, fc_auto_reload (slot_set m x c) = fc_auto_reload c.
  Proof. intros m x c. unfold slot_set. destruct (eget m (fc_entries c)); reflexivity. Qed.
  Lemma fc_entry_pinned : forall w p m c, Inv c -> cur p c = Some (Pinned, m) -> fc_entry w p c = (Ok m, c).
  Proof.
    intros w p m c HI Hc. unfold cur in Hc. destruct (pget p (fc_cache c)) as [pe|] eqn:Ep; [|discriminate].
    destruct (Inv_has_entry c p m HI) as [e He].
    { rewrite Ep. simpl. rewrite contains_metas, Hc, meta_eqb_refl. apply orb_true_r. }
    unfold fc_entry. rewrite Ep, Hc. simpl is_pinned. rewrite orb_true_r, He. reflexivity.
  Qed.
  Lemma cur_slot : forall p pin m c, Inv c -> cur p c = Some (pin, m) -> slot m c <> None.
  Proof.
    intros p pin m c HI Hc. unfold cur in Hc. destruct (pget p (fc_cache c)) as [pe|] eqn:Ep; [|discriminate].
    destruct (Inv_has_entry c p m HI) as [e He].
    { rewrite Ep. simpl. rewrite contains_metas, Hc, meta_eqb_refl. apply orb_true_r. }
    unfold slot. rewrite He. discriminate.
  Qed.
End Grow.

Section State.
  Context {File Parser : Type}.
  Notation cache := (file_cache File (elf_data Parser)).
  Notation world := (world File Parser).
  Notation state := (state File Parser).
  Implicit Types (c : cache) (w : world) (s : state).

  (** ** The cache of ELF resolvers *)
  Definition wf_data (d : elf_data Parser) : Prop :=
    (ed_elf d <> None \/ ed_dwarf d <> None) /\
    forall x y, ed_elf d = Some x -> ed_dwarf d = Some y -> er_parser x = er_parser y.
  Definition wf c : Prop := forall m f d, slot m c = Some (f, Some d) -> wf_data d.
  Definition vle (v v' : option (elf_data Parser)) : Prop :=
    match v with
    | None => True
    | Some d =>
        exists d', v' = Some d' /\ (ed_elf d <> None -> ed_elf d' = ed_elf d) /\
          (ed_dwarf d <> None -> ed_dwarf d' = ed_dwarf d)
    end.
  Lemma vle_refl : forall v, vle v v.
  Proof. intros [d|]; simpl; eauto. Qed.
  Lemma vle_trans : forall v1 v2 v3, vle v1 v2 -> vle v2 v3 -> vle v1 v3.
  Proof.
    intros [d1|] v2 v3 H12 H23; simpl in *; auto. destruct H12 as (d2 & -> & A & B).
    simpl in H23. destruct H23 as (d3 & -> & A' & B'). exists d3. split; auto. split; intros H.
    - rewrite <- A by auto. apply A'. rewrite A; auto.
    - rewrite <- B by auto. apply B'. rewrite B; auto.
  Qed.

  Record grows c c' : Prop := Grows {
    g_inv : Inv c';
    g_wf : wf c';
    g_auto : fc_auto_reload c' = fc_auto_reload c;
    g_slot : forall m f v, slot m c = Some (f, v) -> exists v', slot m c' = Some (f, v') /\ vle v v';
    g_pin : forall q m, cur q c = Some (Pinned, m) -> cur q c' = Some (Pinned, m);
    g_has : forall q m, has m (pget q (fc_cache c)) = true -> has m (pget q (fc_cache c')) = true
  }.
  Lemma grows_refl : forall c, Inv c -> wf c -> grows c c.
  Proof. intros c HI HW. constructor; auto. intros m f v H. exists v. split; auto. apply vle_refl. Qed.
  Lemma grows_trans : forall c1 c2 c3, grows c1 c2 -> grows c2 c3 -> grows c1 c3.
  Proof.
    intros c1 c2 c3 [I1 W1 A1 S1 P1 H1] [I2 W2 A2 S2 P2 H2]. constructor; auto; [congruence|].
    intros m f v H. destruct (S1 m f v H) as (v' & E & L). destruct (S2 m f v' E) as (v2 & E2 & L2).
    exists v2. split; auto. eapply vle_trans; eauto.
  Qed.

  Lemma grows_entry : forall (d : fs File) p c, Inv c -> wf c ->
    let '(r, c') := fc_entry d p c in grows c c' /\ (forall m, r = Ok m -> exists f v, slot m c' = Some (f, v)).
  Proof.
    intros dk p c HI HW. pose proof (fc_entry_spec dk p c HI) as V. pose proof (fun m c => fc_entry_pinned (T:=elf_data Parser) dk p m c) as Pn.
    destruct (fc_entry dk p c) as [[m|k| |] c'] eqn:Ef; try tauto.
    - destruct V as (I' & A & _ & Q & Hh & O & (f & v & S & S')). split.
      + assert (Hs : forall m1 f1 v1, slot m1 c = Some (f1, v1) -> slot m1 c' = Some (f1, v1)).
        { intros m1 f1 v1 H. destruct (meta_eqb_spec m1 m) as [->|Hne]; [|now rewrite O].
          rewrite H in S'. congruence. }
        constructor; auto.
        * intros m1 f1 d H. destruct (meta_eqb_spec m1 m) as [->|Hne].
          -- destruct (slot m c) as [[f0 v0]|] eqn:E0.
             ++ injection S' as -> ->. apply (HW m f d). congruence.
             ++ destruct S' as [_ ->]. congruence.
          -- rewrite O in H by auto. eapply HW; eauto.
        * intros m1 f1 v1 H. exists v1. split; auto. apply vle_refl.
        * intros q m1 H. destruct (N.eq_dec q p) as [->|Hq].
          -- rewrite (Pn m1 c HI H) in Ef. injection Ef as _ <-. auto.
          -- unfold cur in *. now rewrite Q.
        * intros q m1 H. destruct (N.eq_dec q p) as [->|Hq]; [now rewrite Hh, H|now rewrite Q].
      + intros m1 E. injection E as <-. eauto.
    - destruct V as [-> _]. split; [now apply grows_refl|]. discriminate.
  Qed.
  Lemma grows_set : forall m c f v d, Inv c -> wf c -> slot m c = Some (f, v) -> vle v (Some d) -> wf_data d ->
    grows c (slot_set m d c).
  Proof.
    intros m c f v d HI HW Hs Hv Hd.
    destruct (slot_set_view (Fs (fun _ => Bad ENone) (fun _ => Bad ENone)) m c f v d HI Hs) as (I' & S & O & _ & C & A).
    constructor; auto.
    - intros m1 f1 d1 H. destruct (meta_eqb_spec m1 m) as [->|Hne].
      + rewrite S in H. injection H as <- <-. auto.
      + rewrite O in H by auto. eapply HW; eauto.
    - intros m1 f1 v1 H. destruct (meta_eqb_spec m1 m) as [->|Hne].
      + rewrite Hs in H. injection H as <- <-. eauto.
      + rewrite O by auto. exists v1. split; auto. apply vle_refl.
    - intros q m1 H. now rewrite C.
    - intros q m1 H. unfold slot_set. destruct (eget m (fc_entries c)); exact H.
  Qed.

  Lemma grows_none : forall w p r c, Inv c -> wf c -> grows c (snd (elf_none w p r c)).
  Proof.
    intros w p r c HI HW. unfold elf_none. pose proof (grows_entry (w_fs w) p c HI HW) as G.
    destruct (fc_entry (w_fs w) p c) as [[m|k| |] c1]; cbn [then_ snd]; try apply G.
    destruct G as [G Hm]. destruct (Hm m eq_refl) as (f & v & S). pose proof (g_inv _ _ G) as I1. pose proof (g_wf _ _ G) as W1.
    rewrite (slot_get_some _ _ _ _ S). cbn [then_]. destruct v as [d|].
    - destruct (ed_elf d) as [x|] eqn:Ee; auto. destruct (ed_dwarf d) as [y|] eqn:Ed; auto. simpl.
      eapply grows_trans; [exact G|]. eapply grows_set; eauto.
      + simpl. eexists. split; eauto. simpl. rewrite Ee. split; auto. congruence.
      + split; simpl; [left; discriminate|]. intros x' y' H1 H2. injection H1 as <-. injection H2 as <-. reflexivity.
    - destruct (w_elf_parse w f r) as [P|k]; auto. simpl. eapply grows_trans; [exact G|].
      eapply grows_set; eauto; simpl; auto. split; simpl; [left; discriminate|]. discriminate.
  Qed.
  Lemma grows_from_parser : forall w P c, Inv c -> wf c -> grows c (snd (from_parser w P c)).
  Proof.
    intros w P c HI HW. unfold from_parser.
    assert (L : grows c (snd (deref_link w P c))).
    { unfold deref_link. destruct (w_link w P) as [[[q sum]|]|k| |]; cbn [then_ snd]; try now apply grows_refl.
      pose proof (grows_none w q q c HI HW) as G. destruct (elf_none w q q c) as [[x|k| |] c1]; cbn [then_ snd] in *; auto.
      destruct (w_crc w (er_parser x) =? sum); auto. }
    destruct (deref_link w P c) as [[l|k| |] c1]; cbn [then_ snd] in *; auto.
    pose proof (g_inv _ _ L) as I1. pose proof (g_wf _ _ L) as W1.
    assert (D : grows c1 (snd (find_dwp w P c1))).
    { unfold find_dwp. destruct (w_dwp w P) as [q|]; [|now apply grows_refl].
      pose proof (grows_none w q q c1 I1 W1) as G. destruct (elf_none w q q c1) as [[x|[]| |] c2]; auto. }
    destruct (find_dwp w P c1) as [r c2]. cbn [snd] in D. pose proof (grows_trans _ _ _ L D) as G.
    destruct r as [d|k| |]; cbn [then_ snd]; auto. destruct (w_dwarf w P l d); auto.
  Qed.
  Lemma from_parser_parser : forall w P c x c', from_parser w P c = (Ok x, c') -> er_parser x = P.
  Proof.
    intros w P c x c' E. unfold from_parser in E.
    destruct (deref_link w P c) as [[l|k| |] c1]; cbn [then_] in E; try discriminate.
    destruct (find_dwp w P c1) as [[d|k| |] c2]; cbn [then_] in E; try discriminate.
    destruct (w_dwarf w P l d); cbn [of_outcome then_] in E; [|discriminate]. injection E as <- _. reflexivity.
  Qed.
  Lemma grows_debug : forall w p r c, Inv c -> wf c -> grows c (snd (elf_debug w p r c)).
  Proof.
    intros w p r c HI HW. unfold elf_debug. pose proof (grows_entry (w_fs w) p c HI HW) as G.
    destruct (fc_entry (w_fs w) p c) as [[m|k| |] c1]; cbn [then_ snd]; try apply G.
    destruct G as [G Hm]. destruct (Hm m eq_refl) as (f & v & S). pose proof (g_inv _ _ G) as I1. pose proof (g_wf _ _ G) as W1.
    rewrite (slot_get_some _ _ _ _ S). cbn [then_]. destruct v as [d|].
    - destruct (ed_dwarf d) as [x|] eqn:Ed.
      { cbn [then_]. rewrite (slot_get_some _ _ _ _ S). cbn [then_]. auto. }
      destruct (ed_elf d) as [y|] eqn:Ee; [|cbn [then_ snd]; auto].
      pose proof (grows_from_parser w (er_parser y) c1 I1 W1) as G2.
      pose proof (from_parser_parser w (er_parser y) c1) as FP.
      destruct (from_parser w (er_parser y) c1) as [r2 c2]. cbn [snd] in G2. pose proof (grows_trans _ _ _ G G2) as G12.
      destruct r2 as [x|k| |]; cbn [then_ snd]; auto.
      destruct (g_slot _ _ G2 m f _ S) as (v2 & S2 & (d2 & -> & Ve & Vd)).
      rewrite (slot_get_some _ _ _ _ S2). cbn [then_].
      destruct (ed_dwarf d2) as [x2|] eqn:Ed2.
      { cbn [then_]. rewrite (slot_get_some _ _ _ _ S2). cbn [then_ snd]. auto. }
      cbn [then_]. assert (G3 : grows c2 (slot_set m (ElfData (ed_elf d2) (Some x)) c2)).
      { eapply grows_set; eauto; try apply G12.
        - simpl. eexists. split; eauto. simpl. rewrite Ed2. split; auto. congruence.
        - rewrite Ve, Ee by (rewrite Ee; discriminate). split; simpl; [left; discriminate|].
          intros x' y' H1 H2. injection H1 as <-. injection H2 as <-. symmetry. eapply FP; eauto. }
      destruct (slot_get m (slot_set m (ElfData (ed_elf d2) (Some x)) c2)) as [[f3 [v3|]]|k| |] eqn:E3;
        cbn [then_ snd]; try (eapply grows_trans; eauto).
      exfalso. destruct (slot_set_view (w_fs w) m c2 f _ (ElfData (ed_elf d2) (Some x)) (g_inv _ _ G12) S2) as (_ & S3 & _).
      rewrite (slot_get_some _ _ _ _ S3) in E3. discriminate.
    - destruct (w_elf_parse w f r) as [P|k]; [|cbn [then_ snd]; auto].
      pose proof (grows_from_parser w P c1 I1 W1) as G2.
      destruct (from_parser w P c1) as [r2 c2]. cbn [snd] in G2. pose proof (grows_trans _ _ _ G G2) as G12.
      destruct r2 as [x|k| |]; cbn [then_ snd]; auto.
      destruct (g_slot _ _ G2 m f _ S) as (v2 & S2 & _).
      rewrite (slot_get_some _ _ _ _ S2). cbn [then_]. destruct v2 as [d2|]; cbn [snd]; auto.
      eapply grows_trans; [exact G12|]. eapply grows_set; eauto; try apply G12; simpl; auto.
      split; simpl; [right; discriminate|]. discriminate.
  Qed.
  Lemma grows_elf : forall w p r debug c, Inv c -> wf c -> grows c (snd (elf_resolver w p r debug c)).
  Proof. intros w p r [] c HI HW; [now apply grows_debug|now apply grows_none]. Qed.
  Lemma grows_register : forall w p x c, Inv c -> wf c -> grows c (snd (register w p x c)).
  Proof.
    intros w p x c HI HW. unfold register. pose proof (grows_entry (w_fs w) p c HI HW) as G.
    destruct (fc_entry (w_fs w) p c) as [[m|k| |] c1]; cbn [then_ snd]; try apply G.
    destruct G as [G Hm]. destruct (Hm m eq_refl) as (f & v & S).
    rewrite (slot_get_some _ _ _ _ S). cbn [then_]. destruct v as [d|]; auto. simpl.
    eapply grows_trans; [exact G|]. eapply grows_set; eauto; try apply G; simpl; auto.
    destruct (er_dwarf x); split; simpl; try discriminate; [right|left]; discriminate.
  Qed.

  (** ** The whole state *)
  Record state_ok s : Prop := StateOk {
    so_elf : Inv (s_elf s);
    so_wf : wf (s_elf s);
    so_apk : Inv (s_apk s);
    so_breakpad : Inv (s_breakpad s);
    so_gsym : Inv (s_gsym s);
    so_perf : Inv (s_perf s);
    so_vmas : NoDup (akeys (s_vmas s))
  }.
  Record mono s s' : Prop := Mono {
    mo_ok : state_ok s';
    mo_elf : grows (s_elf s) (s_elf s');
    mo_vmas : s_vmas s' = s_vmas s
  }.
  Lemma mono_refl : forall s, state_ok s -> mono s s.
  Proof. intros s H. constructor; auto. apply grows_refl; apply H. Qed.
  Lemma mono_trans : forall s1 s2 s3, mono s1 s2 -> mono s2 s3 -> mono s1 s3.
  Proof. intros s1 s2 s3 [A1 B1 C1] [A2 B2 C2]. constructor; auto; [eapply grows_trans; eauto|congruence]. Qed.

  Lemma mono_elf : forall A (f : cache -> res A * cache) s, state_ok s ->
    (Inv (s_elf s) -> wf (s_elf s) -> grows (s_elf s) (snd (f (s_elf s)))) -> mono s (snd (on_elf f s)).
  Proof.
    intros A f s H G. specialize (G (so_elf s H) (so_wf s H)). unfold on_elf.
    destruct (f (s_elf s)) as [r c]. simpl in *. constructor; auto. constructor; simpl; try apply H; apply G.
  Qed.
  Lemma mono_apk : forall A (f : file_cache File apk_data -> res A * _) s, state_ok s ->
    (Inv (s_apk s) -> Inv (snd (f (s_apk s)))) -> mono s (snd (on_apk f s)).
  Proof.
    intros A f s H G. specialize (G (so_apk s H)). unfold on_apk.
    destruct (f (s_apk s)) as [r c]. simpl in *. constructor; simpl; auto; [constructor; simpl; auto; apply H|].
    apply grows_refl; apply H.
  Qed.
  Lemma mono_breakpad : forall A (f : file_cache File resolver -> res A * _) s, state_ok s ->
    (Inv (s_breakpad s) -> Inv (snd (f (s_breakpad s)))) -> mono s (snd (on_breakpad f s)).
  Proof.
    intros A f s H G. specialize (G (so_breakpad s H)). unfold on_breakpad.
    destruct (f (s_breakpad s)) as [r c]. simpl in *. constructor; simpl; auto; [constructor; simpl; auto; apply H|].
    apply grows_refl; apply H.
  Qed.
  Lemma mono_gsym : forall A (f : file_cache File resolver -> res A * _) s, state_ok s ->
    (Inv (s_gsym s) -> Inv (snd (f (s_gsym s)))) -> mono s (snd (on_gsym f s)).
  Proof.
    intros A f s H G. specialize (G (so_gsym s H)). unfold on_gsym.
    destruct (f (s_gsym s)) as [r c]. simpl in *. constructor; simpl; auto; [constructor; simpl; auto; apply H|].
    apply grows_refl; apply H.
  Qed.
  Lemma mono_perf : forall A (f : file_cache File resolver -> res A * _) s, state_ok s ->
    (Inv (s_perf s) -> Inv (snd (f (s_perf s)))) -> mono s (snd (on_perf f s)).
  Proof.
    intros A f s H G. specialize (G (so_perf s H)). unfold on_perf.
    destruct (f (s_perf s)) as [r c]. simpl in *. constructor; simpl; auto; [constructor; simpl; auto; apply H|].
    apply grows_refl; apply H.
  Qed.
  Lemma apk_inv : forall m w p r off debug (c : file_cache File apk_data), Inv c -> Inv (snd (apk_resolver m w p r off debug c)).
  Proof.
    intros m w p r off debug c HI. pose proof (apk_resolver_ok m w p r off debug c HI) as V.
    destruct (apk_resolver m w p r off debug c). apply V.
  Qed.
  Lemma file_inv : forall w init p (c : file_cache File resolver), Inv c -> Inv (snd (file_resolver w init p c)).
  Proof.
    intros w init p c HI. pose proof (file_resolver_ok w init p c HI) as V.
    destruct (file_resolver w init p c). apply V.
  Qed.
  (** The resolver for perf maps in terms of that for files *)
  Lemma perf_map_as_file : forall cf w p (c : file_cache File resolver), Inv c ->
    perf_map_resolver cf w p c =
    match efile (w_fs w) (perf_path cf p) c with
    | Bad ENotFound => (Ok None, c)
    | _ => then_ (file_resolver w (w_perf_map w) (perf_path cf p) c) (fun r z => (Ok (Some r), z))
    end.
  Proof.
    intros cf w p c HI. unfold perf_map_resolver, file_resolver.
    pose proof (fc_entry_view (w_fs w) (perf_path cf p) c HI) as V.
    destruct (fc_entry (w_fs w) (perf_path cf p) c) as [r c1].
    destruct (efile (w_fs w) (perf_path cf p) c) as [[[m f] v]|k].
    - destruct V as (-> & _). cbn [then_]. destruct (fc_fill _ _ c1) as [[x|k| |] c2]; reflexivity.
    - destruct V as [-> ->]. cbn [then_]. destruct k; reflexivity.
  Qed.
  Lemma perf_inv : forall cf w p (c : file_cache File resolver), Inv c -> Inv (snd (perf_map_resolver cf w p c)).
  Proof.
    intros cf w p c HI. rewrite perf_map_as_file by auto.
    pose proof (file_inv w (w_perf_map w) (perf_path cf p) c HI) as I1.
    assert (G : Inv (snd (then_ (file_resolver w (w_perf_map w) (perf_path cf p) c) (fun r z => (Ok (Some r), z))))).
    { destruct (file_resolver w (w_perf_map w) (perf_path cf p) c) as [[x|k| |] c1]; auto. }
    destruct (efile (w_fs w) (perf_path cf p) c) as [x|k]; auto. destruct k; auto.
  Qed.

  (** ** Handling addresses in processes *)
  Definition from s (h : hstate File Parser) : Prop := mono s (hs_state h).
  Lemma from_ok : forall s h, from s h -> state_ok (hs_state h).
  Proof. intros s h H. apply H. Qed.
  Lemma from_push : forall s x h, from s h -> from s (push x h).
  Proof. intros s x h H. exact H. Qed.
  Lemma from_on_state : forall A (f : state -> res A * state) s h, from s h ->
    (state_ok (hs_state h) -> mono (hs_state h) (snd (f (hs_state h)))) -> from s (snd (on_state f h)).
  Proof.
    intros A f s h H G. specialize (G (from_ok _ _ H)). unfold on_state, from in *.
    destruct (f (hs_state h)). simpl in *. eapply mono_trans; eauto.
  Qed.
  Lemma from_then : forall A B s (x : res A * hstate File Parser) (f : A -> hstate File Parser -> res B * hstate File Parser),
    from s (snd x) -> (forall a h, from s h -> from s (snd (f a h))) -> from s (snd (then_ x f)).
  Proof. intros A B s [[a|k| |] h] f H G; simpl in *; auto. Qed.
  Lemma from_push_sym : forall s m cf a r h, from s h -> from s (snd (push_sym m cf a r h)).
  Proof. intros s m cf a r h H. unfold push_sym. apply from_then; auto. Qed.
  Lemma from_push_translated : forall s m cf a r h, from s h -> from s (snd (push_translated m cf a r h)).
  Proof. intros s m cf a r h H. unfold push_translated. apply from_then; auto. intros [x|] h' H'; auto. now apply from_push_sym. Qed.
  Lemma mono_vdso : forall w p a b s, state_ok s -> mono s (snd (vdso_parser w p a b s)).
  Proof.
    intros w p a b s H. unfold vdso_parser. destruct (get_or_try_init _ _) as [[r cell] ran]. simpl.
    constructor; simpl; auto; [constructor; simpl; apply H|]. apply grows_refl; apply H.
  Qed.
  Lemma mono_dispatch : forall w a b name s, state_ok s -> mono s (snd (dispatch_resolver w a b name s)).
  Proof.
    intros w a b name s H. unfold dispatch_resolver. destruct (w_dispatch w) as [d|]; [|now apply mono_refl].
    destruct (aget path_name_eqb name (s_process s)); [now apply mono_refl|].
    destruct (d a b name); [|now apply mono_refl]. simpl.
    constructor; simpl; auto; [constructor; simpl; apply H|]. apply grows_refl; apply H.
  Qed.
  Lemma from_handle_default : forall m cf w p o a off e s h, from s h -> from s (snd (handle_default m cf w p o a off e h)).
  Proof.
    intros m cf w p o a off e s h H. unfold handle_default. destruct (me_path e) as [[mf sym|comp]|].
    - destruct (beq (extension sym) str_apk || beq (extension sym) str_zip).
      + unfold handle_apk_addr. apply from_then.
        * apply from_on_state; auto. intros Hok. apply mono_apk; auto. apply apk_inv.
        * intros [[r addr]|] h' H'; auto. now apply from_push_sym.
      + unfold handle_elf_addr. apply from_then.
        * apply from_on_state; auto. intros Hok. apply mono_elf; auto. intros. now apply grows_elf.
        * intros x h' H'. now apply from_push_translated.
    - destruct (po_vdso o && beq comp str_vdso); auto. unfold handle_vdso_addr. apply from_then.
      + apply from_on_state; auto. apply mono_vdso.
      + intros x h' H'. now apply from_push_translated.
    - destruct (po_perf_map o); auto. unfold handle_perf_map_addr. apply from_then.
      + apply from_on_state; auto. intros Hok. apply mono_perf; auto. apply perf_inv.
      + intros [x|] h' H'; auto. now apply from_push_sym.
  Qed.
  Lemma from_handle_entry : forall m cf w p o a e s h, from s h -> from s (snd (handle_entry m cf w p o a e h)).
  Proof.
    intros m cf w p o a e s h H. unfold handle_entry. apply from_then; auto. intros off h' H'.
    destruct (me_path e) as [name|]; [|now apply from_handle_default]. apply from_then.
    - apply from_on_state; auto. apply mono_dispatch.
    - intros [r|] h2 H2; [now apply from_push_translated|now apply from_handle_default].
  Qed.

  Lemma pass_keeps : forall H (P : H -> Prop) unknown handle,
    (forall a r h, P h -> P (unknown a r h)) -> (forall a e h, P h -> P (snd (handle a e h))) ->
    forall addrs items h, P h -> P (snd (pass unknown handle addrs items h)).
  Proof.
    intros H P unknown handle Hu Hh addrs items h Hp. unfold pass.
    destruct items as [|[e|k| |] items]; simpl; auto.
    generalize (match addrs with [] => 0 | a :: _ => a end) as prev.
    generalize (S (length items)) as fuel. intros fuel prev. revert prev e items h Hp.
    induction addrs as [|a addrs IH]; intros prev e items h Hp; simpl; auto.
    destruct (a <? prev); auto.
    destruct (find_entry iter_next fuel a e items) as [[[found e'] st]|k| |]; cbn [then_]; auto.
    destruct (negb found || (a <? me_start e')); auto.
    specialize (Hh a e' h Hp). destruct (handle a e' h) as [[[]|k| |] h']; cbn [then_ snd] in *; auto.
  Qed.
  Lemma mono_user_addrs : forall m cf w p o addrs s, state_ok s -> mono s (snd (user_addrs m cf w p o addrs s)).
  Proof.
    intros m cf w p o addrs s H. unfold user_addrs.
    set (x := then_ _ _). assert (G : from s (snd x)).
    { unfold x. apply from_then; [now apply mono_refl|]. intros items h Hh.
      apply (pass_keeps _ (from s)); auto. intros a e h' H'. now apply from_handle_entry. }
    destruct x as [r h]. exact G.
  Qed.

  (** ** Symbolization *)
  Lemma each_keeps : forall (P : state -> Prop) (f : N -> state -> res symbolized * state) fold addrs s, P s ->
    (forall a s, P s -> P (snd (f a s))) -> P (snd (each f fold addrs s)).
  Proof.
    intros P f fold addrs s Hp Hf. revert s Hp. induction addrs as [|a addrs IH]; intros s Hp; simpl; auto.
    specialize (Hf a s Hp). destruct (f a s) as [r s1]. simpl in Hf.
    destruct (match r with Err k => fold k | _ => r end) as [x|k| |]; cbn [then_ snd]; auto.
    specialize (IH s1 Hf). destruct (each f fold addrs s1) as [[l|k| |] s2]; cbn [then_ snd] in *; auto.
  Qed.
  Lemma mono_then : forall A B s (x : res A * state) (f : A -> state -> res B * state),
    mono s (snd x) -> (forall a s', mono s s' -> mono s (snd (f a s'))) -> mono s (snd (then_ x f)).
  Proof. intros A B s [[a|k| |] s'] f H G; simpl in *; auto. Qed.
  Lemma mono_symbolize_impl : forall m cf w src k addrs fold s, state_ok s ->
    mono s (snd (symbolize_impl m cf w src k addrs fold s)).
  Proof.
    intros m cf w src k addrs fold s H. pose proof (mono_refl s H) as R.
    assert (Hpure : forall s' (f : N -> state -> res symbolized * state), mono s s' -> (forall a s, snd (f a s) = s) ->
      mono s (snd (each f fold addrs s'))).
    { intros s' f Hs Hf. apply (each_keeps (mono s)); auto. intros a s0 Hs0. now rewrite Hf. }
    unfold symbolize_impl. destruct src as [p debug|p|p debug|n|p o|data|p].
    - destruct k; auto. apply (each_keeps (mono s)); auto. intros a s' H'. apply mono_then.
      + eapply mono_trans; [exact H'|]. apply mono_apk; [apply H'|]. apply apk_inv.
      + intros [[r addr]|] s2 H2; auto.
    - destruct k; auto. apply mono_then; [|intros; apply Hpure; auto].
      apply mono_breakpad; auto. apply file_inv.
    - apply mono_then; [apply mono_elf; auto; intros; now apply grows_elf|].
      intros x s' H'. destruct k; auto.
    - destruct k; auto. apply mono_then; auto.
    - destruct k; auto. now apply mono_user_addrs.
    - destruct k; auto. apply mono_then; auto.
    - destruct k; auto. apply mono_then; [|intros; apply Hpure; auto].
      apply mono_gsym; auto. apply file_inv.
  Qed.
  Lemma mono_single : forall m cf w src k addr s, state_ok s -> mono s (snd (symbolize_single m cf w src k addr s)).
  Proof.
    intros m cf w src k addr s H. unfold symbolize_single. apply mono_then; [now apply mono_symbolize_impl|]. auto.
  Qed.

  (** ** Caching and evicting *)
  Lemma grows_not_pin : forall p pin c, Inv c -> wf c -> Inv (or_same (set_pin_state p pin c) c) /\ wf (or_same (set_pin_state p pin c) c) /\
    (forall q, q <> p -> cur q (or_same (set_pin_state p pin c) c) = cur q c) /\
    (forall m, slot m (or_same (set_pin_state p pin c) c) = slot m c) /\
    fc_auto_reload (or_same (set_pin_state p pin c) c) = fc_auto_reload c /\
    cur p (or_same (set_pin_state p pin c) c) = match cur p c with Some (_, m) => Some (pin, m) | None => None end.
  Proof.
    intros p pin c HI HW. pose proof (set_pin_spec p pin c HI) as V.
    destruct (set_pin_state p pin c) as [c'|]; simpl.
    - destruct V as (I' & A & E & Q & _ & (pe & pe' & old & m & P1 & P2 & C1 & C2)).
      assert (S : forall m, slot m c' = slot m c) by (intros m0; unfold slot; now rewrite E).
      split; auto. split; [intros m0 f d Hm; rewrite S in Hm; eapply HW; eauto|].
      split; [intros q Hq; unfold cur; now rewrite Q|]. split; auto. split; auto.
      unfold cur. now rewrite P1, P2, C1, C2.
    - split; auto. split; auto. split; auto. split; auto. split; auto. unfold cur. now rewrite V.
  Qed.

  Lemma pin_has : forall p pin (c : cache) q m, Inv c ->
    has m (pget q (fc_cache (or_same (set_pin_state p pin c) c))) = has m (pget q (fc_cache c)).
  Proof.
    intros p pin c q m HI. pose proof (set_pin_spec p pin c HI) as V. destruct (set_pin_state p pin c) as [c'|]; simpl; auto.
    destruct V as (_ & _ & _ & Q & Hh & _). destruct (N.eq_dec q p) as [->|Hq]; [apply Hh|now rewrite Q].
  Qed.
  Lemma evict_slot : forall T p (c c' : file_cache File T) b m x, Inv c -> fc_evict p c = Ok (b, c') ->
    slot m c' = Some x -> slot m c = Some x.
  Proof.
    intros T p c c' b m x HI E Hx. destruct (fc_evict_spec p c HI) as (b' & c1 & E1 & _ & _ & _ & _ & S1 & S2 & _).
    rewrite E1 in E. injection E as -> ->.
    destruct (existsb (fun q => negb (q =? p) && has m (pget q (fc_cache c))) (akeys (fc_cache c))) eqn:Ex.
    - apply existsb_exists in Ex. destruct Ex as (q & _ & Hq). apply andb_true_iff in Hq. destruct Hq as [Hq Hh].
      rewrite <- S1; auto. exists q. split; auto. apply negb_true_iff, N.eqb_neq in Hq. auto.
    - rewrite S2 in Hx; [discriminate|]. intros (q & Hq & Hh).
      assert (Hin : In q (akeys (fc_cache c))).
      { destruct (in_dec N.eq_dec q (akeys (fc_cache c))) as [H|H]; auto.
        exfalso. apply (aget_none _ N.eqb_spec) in H. change (pget q (fc_cache c) = None) in H. rewrite H in Hh. discriminate. }
      assert (Ht : existsb (fun q => negb (q =? p) && has m (pget q (fc_cache c))) (akeys (fc_cache c)) = true).
      { apply existsb_exists. exists q. split; auto. rewrite Hh. apply N.eqb_neq in Hq. now rewrite Hq. }
      congruence.
  Qed.
  Lemma pid_eqb_spec : forall a b, reflect (a = b) (pid_eqb a b).
  Proof.
    intros [|n] [|k]; simpl; try (constructor; congruence). destruct (N.eqb_spec n k); constructor; congruence.
  Qed.

  (** What caching does to the cache of ELF resolvers *)
  Definition cache_elf w p c : res (elf_res Parser) * cache :=
    let c := or_same (fc_unpin p c) c in
    let '(result, c) := elf_none w p p c in (result, or_same (fc_pin p c) c).
  Lemma cache_elf_eq : forall w p s,
    Symbolizer.cache w (TElf p) s =
    then_ (on_elf (cache_elf w p) s) (fun x s => (of_outcome (w_elf_cache w (er_parser x)), s)).
  Proof. reflexivity. Qed.
  Record cached_elf p c c' : Prop := CachedElf {
    ce_inv : Inv c';
    ce_wf : wf c';
    ce_auto : fc_auto_reload c' = fc_auto_reload c;
    ce_slot : forall m f v, slot m c = Some (f, v) -> exists v', slot m c' = Some (f, v') /\ vle v v';
    ce_pin : forall q m, q <> p -> cur q c = Some (Pinned, m) -> cur q c' = Some (Pinned, m);
    ce_has : forall q m, has m (pget q (fc_cache c)) = true -> has m (pget q (fc_cache c')) = true
  }.
  Lemma cache_elf_ok : forall w p c, Inv c -> wf c -> cached_elf p c (snd (cache_elf w p c)).
  Proof.
    intros w p c HI HW. unfold cache_elf, fc_unpin, fc_pin.
    destruct (grows_not_pin p Unpinned c HI HW) as (I1 & W1 & C1 & S1 & A1 & _).
    set (c1 := or_same (set_pin_state p Unpinned c) c) in *.
    pose proof (grows_none w p p c1 I1 W1) as G. destruct (elf_none w p p c1) as [r c2]. cbn [snd] in *.
    destruct (grows_not_pin p Pinned c2 (g_inv _ _ G) (g_wf _ _ G)) as (I3 & W3 & C3 & S3 & A3 & _).
    set (c3 := or_same (set_pin_state p Pinned c2) c2) in *.
    constructor; auto.
    - rewrite A3, (g_auto _ _ G). auto.
    - intros m f v H. rewrite <- S1 in H. rewrite S3. apply (g_slot _ _ G); auto.
    - intros q m Hq H. rewrite C3 by auto. apply (g_pin _ _ G). rewrite C1; auto.
    - intros q m H. unfold c3. rewrite pin_has by apply G. apply (g_has _ _ G). unfold c1. now rewrite pin_has.
  Qed.

  Lemma cache_ok : forall w t s, state_ok s -> state_ok (snd (Symbolizer.cache w t s)).
  Proof.
    intros w [p|p vmas] s H.
    - rewrite cache_elf_eq. pose proof (cache_elf_ok w p (s_elf s) (so_elf s H) (so_wf s H)) as C.
      unfold on_elf. destruct (cache_elf w p (s_elf s)) as [r c]. cbn [snd] in C.
      assert (G : state_ok (set_elf c s)) by (constructor; simpl; try apply H; apply C).
      destruct r; cbn [then_ snd]; auto.
    - simpl. destruct vmas; auto. destruct (let* _ := _ in _) as [es|k| |]; cbn [then_ snd]; auto.
      constructor; simpl; try apply H. apply (aset_nodup _ pid_eqb_spec). apply H.
  Qed.
  Lemma evict_elf_ok : forall cf p s, state_ok s ->
    exists b c, fc_evict p (s_elf s) = Ok (b, c) /\ Inv c /\ wf c /\
      evict cf (EvElf p) s = Ok (set_process (filter (fun x => negb (refers p (fst x))) (s_process s)) (set_elf c s)).
  Proof.
    intros cf p s H. destruct (fc_evict_spec p (s_elf s) (so_elf s H)) as (b & c & E & I & _).
    exists b, c. simpl. rewrite E. split; auto. split; auto. split; auto.
    intros m f d Hm. apply (so_wf s H m f d). eapply evict_slot; eauto. apply H.
  Qed.
  Lemma evict_process_ok : forall cf p s, state_ok s ->
    exists pc : file_cache File resolver, Inv pc /\ evict cf (EvProcess p) s = Ok (set_perf pc (set_vmas (adel pid_eqb p (s_vmas s)) s)).
  Proof.
    intros cf p s H. destruct (fc_evict_spec (perf_path cf p) (s_perf s) (so_perf s H)) as (b & c & E & I & _).
    exists c. simpl. rewrite E. auto.
  Qed.
  Lemma evict_ok : forall cf t s, state_ok s -> exists s', evict cf t s = Ok s' /\ state_ok s'.
  Proof.
    intros cf [p|p] s H.
    - destruct (evict_elf_ok cf p s H) as (b & c & _ & I & W & E). eexists. split; [exact E|].
      constructor; simpl; try apply H; auto.
    - destruct (evict_process_ok cf p s H) as (c & I & E). eexists. split; [exact E|].
      constructor; simpl; try apply H; auto. apply (adel_nodup _). apply H.
  Qed.
  Lemma mono_register : forall w p x s, state_ok s -> mono s (snd (register_elf_resolver w p x s)).
  Proof. intros w p x s H. apply mono_elf; auto. intros. now apply grows_register. Qed.
  Lemma new_ok : forall b, state_ok (s_new b).
  Proof. intros b. constructor; simpl; try apply Inv_new; [|constructor]. intros m f d H. discriminate. Qed.
  Lemma after_ok : forall o s, state_ok s -> state_ok (after o s).
  Proof.
    intros [m cf w src k addrs|m cf w src k addr|w t|cf t|w p x] s H; simpl.
    - now apply (mono_symbolize_impl m cf w src k addrs _ s).
    - now apply (mono_single m cf w src k addr s).
    - now apply cache_ok.
    - destruct (evict_ok cf t s H) as (s' & -> & H'). auto.
    - now apply (mono_register w p x s).
  Qed.
  Lemma run_ok : forall h s, state_ok s -> state_ok (run h s).
  Proof. induction h as [|o h IH]; intros s H; simpl; auto. apply IH. now apply after_ok. Qed.
  Theorem reachable_ok : forall s, reachable s -> state_ok s.
  Proof. intros s (b & h & ->). apply run_ok, new_ok. Qed.

  (** ** Cached files stay. *)
  Record holds p (x : elf_res Parser) c : Prop := Holds {
    ho_ex : exists m f d, cur p c = Some (Pinned, m) /\ slot m c = Some (f, Some d) /\ ed_elf d = Some x
  }.
  Lemma vle_elf : forall d v x, vle (Some d) v -> ed_elf d = Some x -> exists d', v = Some d' /\ ed_elf d' = Some x.
  Proof. intros d v x (d' & -> & He & _) E. exists d'. split; auto. rewrite He; congruence. Qed.
  Lemma grows_holds : forall p x c c', grows c c' -> holds p x c -> holds p x c'.
  Proof.
    intros p x c c' G [(m & f & d & C & S & E)]. constructor.
    destruct (g_slot _ _ G _ _ _ S) as (v & S' & L). destruct (vle_elf _ _ _ L E) as (d' & -> & E').
    exists m, f, d'. split; [now apply (g_pin _ _ G)|auto].
  Qed.
  Lemma after_holds : forall p x o s, state_ok s -> leaves_elf p o -> holds p x (s_elf s) -> holds p x (s_elf (after o s)).
  Proof.
    intros p x o s H L Hh. destruct o as [m cf w src k addrs|m cf w src k addr|w t|cf t|w q y]; cbn [after leaves_elf leaves_vmas] in *.
    - eapply grows_holds; eauto. now apply (mono_symbolize_impl m cf w src k addrs _ s).
    - eapply grows_holds; eauto. now apply (mono_single m cf w src k addr s).
    - destruct t as [q|q vmas].
      + rewrite cache_elf_eq. pose proof (cache_elf_ok w q (s_elf s) (so_elf s H) (so_wf s H)) as C.
        unfold on_elf. destruct (cache_elf w q (s_elf s)) as [r c]. cbn [snd] in C.
        assert (G : holds p x c).
        { destruct Hh as [(m & f & d & Hc & S & E)]. constructor. destruct (ce_slot _ _ _ C _ _ _ S) as (v & S' & Lv).
          destruct (vle_elf _ _ _ Lv E) as (d' & -> & E'). exists m, f, d'. split; auto. apply (ce_pin _ _ _ C); auto. }
        destruct r; exact G.
      + simpl. destruct vmas; auto. destruct (let* _ := _ in _); auto.
    - destruct t as [q|q].
      + destruct (evict_elf_ok cf q s H) as (b & c & Ee & I & W & E). rewrite E. simpl.
        destruct (fc_evict_spec q (s_elf s) (so_elf s H)) as (b' & c1 & E1 & _ & _ & _ & Q & S1 & _).
        rewrite E1 in Ee. injection Ee as -> ->. destruct Hh as [(m & f & d & Hc & S & E0)]. constructor.
        exists m, f, d. unfold cur in *. rewrite Q by auto. split; auto. split; auto. rewrite S1; auto.
        exists p. split; auto. destruct (pget p (fc_cache (s_elf s))) as [pe|]; [|discriminate]. simpl.
        rewrite contains_metas, Hc, meta_eqb_refl. apply orb_true_r.
      + destruct (evict_process_ok cf q s H) as (c & I & E). rewrite E. exact Hh.
    - eapply grows_holds; eauto. now apply (mono_register w q y s).
  Qed.
  Lemma run_holds : forall p x h s, state_ok s -> Forall (leaves_elf p) h -> holds p x (s_elf s) -> holds p x (s_elf (run h s)).
  Proof.
    induction h as [|o h IH]; intros s H L Hh; simpl; auto. inversion L; subst.
    apply IH; auto; [now apply after_ok|now apply after_holds].
  Qed.
  Lemma holds_none : forall w p r x c, Inv c -> holds p x c -> elf_none w p r c = (Ok x, c).
  Proof.
    intros w p r x c HI [(m & f & d & C & S & E)]. unfold elf_none.
    rewrite (fc_entry_pinned (w_fs w) p m c HI C). cbn [then_]. rewrite (slot_get_some _ _ _ _ S). cbn [then_]. now rewrite E.
  Qed.
  (** What was cached *)
  Lemma cache_holds : forall w p s, state_ok s -> fst (Symbolizer.cache w (TElf p) s) = Ok tt ->
    exists x, holds p x (s_elf (snd (Symbolizer.cache w (TElf p) s))).
  Proof.
    intros w p s H E. rewrite cache_elf_eq in *. unfold on_elf, cache_elf, fc_unpin, fc_pin in *.
    destruct (grows_not_pin p Unpinned (s_elf s) (so_elf s H) (so_wf s H)) as (I1 & W1 & _).
    set (c1 := or_same (set_pin_state p Unpinned (s_elf s)) (s_elf s)) in *.
    pose proof (elf_none_ok w p p c1 I1) as V. pose proof (grows_none w p p c1 I1 W1) as G.
    unfold elf_none in *. pose proof (fc_entry_view (w_fs w) p c1 I1) as Vf.
    pose proof (grows_entry (w_fs w) p c1 I1 W1) as Ge.
    destruct (fc_entry (w_fs w) p c1) as [[m|k| |] c2]; cbn [then_ fst snd] in *; try discriminate.
    destruct (efile (w_fs w) p c1) as [[[m1 f1] v1]|]; [|destruct Vf; discriminate].
    destruct Vf as (Em & I2 & _ & S2 & _ & _ & _ & _ & (pin & C2)). injection Em as <-.
    rewrite (slot_get_some _ _ _ _ S2) in *. cbn [then_] in *.
    assert (F : forall x c3, Inv c3 -> wf c3 -> cur p c3 = Some (pin, m) ->
      (exists d, slot m c3 = Some (f1, Some d) /\ ed_elf d = Some x) -> holds p x (or_same (set_pin_state p Pinned c3) c3)).
    { intros x c3 I3 W3 C3 (d & S3 & E3). destruct (grows_not_pin p Pinned c3 I3 W3) as (_ & _ & _ & S4 & _ & C4).
      constructor. exists m, f1, d. rewrite C4, C3, S4. auto. }
    destruct v1 as [d|].
    - destruct (ed_elf d) as [x|] eqn:Ee.
      + exists x. apply F; auto; [apply G|]. eauto.
      + destruct (ed_dwarf d) as [y|]; [|cbn in E; discriminate]. eexists. cbn [then_ snd fst s_elf set_elf] in *.
        apply F; try apply G; [now rewrite slot_set_cur|].
        eexists. split; [apply (slot_set_view (w_fs w) m c2 f1 _ _ I2 S2)|reflexivity].
    - destruct (w_elf_parse w f1 p) as [P|k]; [|cbn in E; discriminate]. eexists. cbn [then_ snd fst s_elf set_elf] in *.
      apply F; try apply G; [now rewrite slot_set_cur|].
      eexists. split; [apply (slot_set_view (w_fs w) m c2 f1 _ _ I2 S2)|reflexivity].
  Qed.

  (** ** Data of a file stays as long as a path leading to it is not evicted. *)
  Record kept p m d c : Prop := Kept {
    ke_has : has m (pget p (fc_cache c)) = true;
    ke_slot : exists f v, slot m c = Some (f, v) /\ vle (Some d) v
  }.
  Lemma grows_kept : forall p m d c c', grows c c' -> kept p m d c -> kept p m d c'.
  Proof.
    intros p m d c c' G [H (f & v & S & L)]. constructor; [now apply (g_has _ _ G)|].
    destruct (g_slot _ _ G _ _ _ S) as (v' & S' & L'). exists f, v'. split; auto. eapply vle_trans; eauto.
  Qed.
  Lemma after_kept : forall p m d o s, state_ok s -> keeps_elf p o -> kept p m d (s_elf s) -> kept p m d (s_elf (after o s)).
  Proof.
    intros p mt d o s H L Hh. destruct o as [m cf w src k addrs|m cf w src k addr|w t|cf t|w q y]; cbn [after keeps_elf] in *.
    - eapply grows_kept; eauto. now apply (mono_symbolize_impl m cf w src k addrs _ s).
    - eapply grows_kept; eauto. now apply (mono_single m cf w src k addr s).
    - destruct t as [q|q vmas].
      + rewrite cache_elf_eq. pose proof (cache_elf_ok w q (s_elf s) (so_elf s H) (so_wf s H)) as C.
        unfold on_elf. destruct (cache_elf w q (s_elf s)) as [r c]. cbn [snd] in C.
        assert (G : kept p mt d c).
        { destruct Hh as [Hh (f & v & S & Lv)]. constructor; [now apply (ce_has _ _ _ C)|].
          destruct (ce_slot _ _ _ C _ _ _ S) as (v' & S' & Lv'). exists f, v'. split; auto. eapply vle_trans; eauto. }
        destruct r; exact G.
      + simpl. destruct vmas; auto. destruct (let* _ := _ in _); auto.
    - destruct t as [q|q].
      + destruct (evict_elf_ok cf q s H) as (b & c & Ee & I & W & E). rewrite E. simpl.
        destruct (fc_evict_spec q (s_elf s) (so_elf s H)) as (b' & c1 & E1 & _ & _ & _ & Q & S1 & _).
        rewrite E1 in Ee. injection Ee as -> ->. destruct Hh as [Hh (f & v & S & Lv)].
        assert (Hq : p <> q) by auto. constructor; [now rewrite Q|].
        exists f, v. split; auto. rewrite S1; auto. exists p. auto.
      + destruct (evict_process_ok cf q s H) as (c & I & E). rewrite E. exact Hh.
    - eapply grows_kept; eauto. now apply (mono_register w q y s).
  Qed.
  Lemma run_kept : forall p m d h s, state_ok s -> Forall (keeps_elf p) h -> kept p m d (s_elf s) -> kept p m d (s_elf (run h s)).
  Proof.
    induction h as [|o h IH]; intros s H L Hh; simpl; auto. inversion L; subst.
    apply IH; auto; [now apply after_ok|now apply after_kept].
  Qed.

  (** ** Cached mappings stay. *)
  Lemma after_vmas : forall p o s, state_ok s -> leaves_vmas p o ->
    aget pid_eqb p (s_vmas (after o s)) = aget pid_eqb p (s_vmas s).
  Proof.
    intros p o s H L. destruct o as [m cf w src k addrs|m cf w src k addr|w t|cf t|w q y]; cbn [after leaves_elf leaves_vmas] in *.
    - unfold symbolize. now rewrite (mo_vmas _ _ (mono_symbolize_impl m cf w src k addrs _ s H)).
    - now rewrite (mo_vmas _ _ (mono_single m cf w src k addr s H)).
    - destruct t as [q|q vmas].
      + rewrite cache_elf_eq. unfold on_elf. destruct (cache_elf w q (s_elf s)) as [[]]; reflexivity.
      + simpl. destruct vmas; auto. destruct (let* _ := _ in _) as [es|k| |]; auto. simpl.
        apply (aget_aset_neq _ pid_eqb_spec). auto.
    - destruct t as [q|q].
      + destruct (evict_elf_ok cf q s H) as (b & c & Ee & I & W & E). now rewrite E.
      + destruct (evict_process_ok cf q s H) as (c & I & E). rewrite E. simpl.
        apply (aget_adel_neq _ pid_eqb_spec). auto.
    - now rewrite (mo_vmas _ _ (mono_register w q y s H)).
  Qed.
  Lemma run_vmas : forall p h s, state_ok s -> Forall (leaves_vmas p) h ->
    aget pid_eqb p (s_vmas (run h s)) = aget pid_eqb p (s_vmas s).
  Proof.
    induction h as [|o h IH]; intros s H L; simpl; auto. inversion L; subst.
    rewrite IH; auto; [now apply after_vmas|now apply after_ok].
  Qed.
End State.
