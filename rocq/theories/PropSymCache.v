(** * C46 and C56: caching, evicting, and lookups of ELF files *)

From Verif Require Import Base Util UtilProofs Amap Maps FileCache FileCacheProofs CacheViews Sym Normalize NormalizeProofs
  Symbolizer SymbolizerSpec SymbolizerElf SymbolizerApk SymbolizerState SymbolizerProcess SymbolizerDemo PropSymBatch.
Local Open Scope N_scope.

Section Cache.
  Context {File Parser : Type}.
  Notation world := (world File Parser).
  Notation state := (state File Parser).
  Notation ecache := (file_cache File (elf_data Parser)).

  Lemma reachable_run : forall h (s : state), reachable s -> reachable (run h s).
  Proof.
    intros h s (a & h0 & ->). exists a, (h0 ++ h). unfold run. now rewrite fold_left_app.
  Qed.
  Lemma reachable_cache : forall w t (s : state), reachable s -> reachable (snd (cache w t s)).
  Proof. intros w t s H. apply (reachable_run [OCache w t] s H). Qed.

  (** ** C46: files *)

  (** What a lookup gives in terms of the resolver *)
  Definition with_elf m cf k addrs (x : elf_res Parser) : res (list symbolized) :=
    match k with
    | VirtOffset => fst (each (fun a s => (with_resolver m cf a (er_resolver x), s)) ignoring addrs tt)
    | AbsAddr => Err EUnsupported
    | FileOffset => fst (each (fun a s => (translated m cf a (er_resolver x), s)) ignoring addrs tt)
    end.
  Lemma each_pure : forall S S' (g : N -> res symbolized) fold addrs (s : S) (s' : S'),
    fst (each (fun a s => (g a, s)) fold addrs s) = fst (each (fun a s => (g a, s)) fold addrs s') /\
    snd (each (fun a s => (g a, s)) fold addrs s) = s.
  Proof.
    intros S S' g fold. induction addrs as [|a addrs IH]; intros s s'; cbn [each]; auto.
    destruct (IH s s') as [E1 E2].
    destruct (g a) as [x|k| |]; [|destruct (fold k)| |]; cbn [then_]; try (split; reflexivity);
    destruct (each (fun a s => (g a, s)) fold addrs s) as [r t]; destruct (each (fun a s => (g a, s)) fold addrs s') as [r' t'];
    cbn [fst snd] in E1, E2; subst r' t; destruct r; split; reflexivity.
  Qed.
  Lemma symbolize_elf : forall m cf w p debug k addrs (s : state),
    symbolize m cf w (SElf p debug) k addrs s =
    then_ (on_elf (elf_resolver w p p debug) s) (fun x s => (with_elf m cf k addrs x, s)).
  Proof.
    intros m cf w p debug k addrs s. unfold symbolize. fold ignoring. cbn [symbolize_impl].
    destruct (on_elf (elf_resolver w p p debug) s) as [[x|e| |] s1]; cbn [then_]; auto.
    unfold with_elf. destruct k; auto.
    - destruct (each_pure _ _ (fun a => with_resolver m cf a (er_resolver x)) ignoring addrs s1 tt) as [E1 E2].
      rewrite <- E1. rewrite <- E2 at 3. now rewrite <- surjective_pairing.
    - destruct (each_pure _ _ (fun a => translated m cf a (er_resolver x)) ignoring addrs s1 tt) as [E1 E2].
      rewrite <- E1. rewrite <- E2 at 3. now rewrite <- surjective_pairing.
  Qed.
  Lemma symbolize_holds : forall m cf w p k addrs (s : state) x, state_ok s -> holds p x (s_elf s) ->
    symbolize m cf w (SElf p false) k addrs s = (with_elf m cf k addrs x, s).
  Proof.
    intros m cf w p k addrs s x H Hx. rewrite symbolize_elf. unfold on_elf, elf_resolver.
    rewrite (holds_none w p p x _ (so_elf s H) Hx). destruct s; reflexivity.
  Qed.

  (** Once cached, whatever happens (including to files), lookups of symbols
      use what was cached. *)
  Theorem C46_file : forall w p (s : state), reachable s -> fst (cache w (TElf p) s) = Ok tt ->
    let s1 := snd (cache w (TElf p) s) in
    forall h, Forall (leaves_elf p) h -> forall m cf w' k addrs,
    fst (symbolize m cf w' (SElf p false) k addrs (run h s1)) = fst (symbolize m cf w (SElf p false) k addrs s1).
  Proof.
    intros w p s Hr E s1 h Hh m cf w' k addrs. apply reachable_ok in Hr.
    destruct (cache_holds w p s Hr E) as [x Hx]. fold s1 in Hx. assert (H1 : state_ok s1) by now apply cache_ok.
    rewrite (symbolize_holds m cf w p k addrs s1 x H1 Hx).
    rewrite (symbolize_holds m cf w' p k addrs (run h s1) x); auto; [now apply run_ok|now apply run_holds].
  Qed.

  (** And that is the file as it was when cached, unless one identified as the
      same was looked up earlier. *)
  Lemma view_new : forall w p r (c : ecache) mt, emeta (w_fs w) p c = Good mt -> slot mt c = None ->
    fs_stat (w_fs w) p = Good mt -> forall b, none_view w p r c = none_view w p r (fc_new b).
  Proof.
    intros w p r c mt Em Es Hs b. unfold none_view, efile, emeta in *. rewrite Em, Es. cbn [cur pget fc_cache fc_new aget slot eget fc_entries option_map].
    unfold cur, slot. simpl. rewrite Hs. destruct (fs_open (w_fs w) p); auto.
  Qed.
  Lemma symbolize_none : forall m cf w p k addrs (s : state), state_ok s ->
    fst (symbolize m cf w (SElf p false) k addrs s) =
    let* x := none_view w p p (s_elf s) in with_elf m cf k addrs x.
  Proof.
    intros m cf w p k addrs s H. rewrite symbolize_elf. unfold on_elf, elf_resolver.
    pose proof (elf_none_ok w p p (s_elf s) (so_elf s H)) as V. destruct (elf_none w p p (s_elf s)) as [r c].
    destruct V as (-> & _). destruct (none_view w p p (s_elf s)) as [x|e| |]; reflexivity.
  Qed.
  Lemma cache_view : forall w p (s : state), state_ok s ->
    fst (cache w (TElf p) s) =
    let* x := none_view w p p (or_same (fc_unpin p (s_elf s)) (s_elf s)) in of_outcome (w_elf_cache w (er_parser x)).
  Proof.
    intros w p s H. rewrite cache_elf_eq. unfold on_elf, cache_elf.
    destruct (grows_not_pin p Unpinned (s_elf s) (so_elf s H) (so_wf s H)) as (I1 & _). unfold fc_unpin.
    pose proof (elf_none_ok w p p _ I1) as V. destruct (elf_none w p p _) as [r c]. destruct V as (-> & _).
    destruct (none_view w p p _) as [x|e| |]; reflexivity.
  Qed.
  Lemma cache_holds_view : forall w p (s : state) x, state_ok s -> fst (cache w (TElf p) s) = Ok tt ->
    holds p x (s_elf (snd (cache w (TElf p) s))) ->
    none_view w p p (or_same (fc_unpin p (s_elf s)) (s_elf s)) = Ok x.
  Proof.
    intros w p s x H E Hx. rewrite cache_view in E by auto.
    destruct (grows_not_pin p Unpinned (s_elf s) (so_elf s H) (so_wf s H)) as (I1 & W1 & _). fold (fc_unpin p (s_elf s)) in *.
    rewrite cache_elf_eq in Hx. unfold on_elf, cache_elf in Hx.
    set (c1 := or_same (fc_unpin p (s_elf s)) (s_elf s)) in *.
    pose proof (elf_none_ok w p p c1 I1) as V. pose proof (grows_none w p p c1 I1 W1) as G.
    destruct (elf_none w p p c1) as [r c]. destruct V as (Er & I2 & M2 & A2 & _ & V). cbn [snd] in G.
    assert (Hs : s_elf (snd (then_ (r, set_elf (or_same (fc_pin p c) c) s)
                 (fun x s => (of_outcome (w_elf_cache w (er_parser x)), s)))) = or_same (fc_pin p c) c).
    { destruct r; reflexivity. }
    assert (Hx' : holds p x (or_same (fc_pin p c) c)) by (rewrite <- Hs; exact Hx). clear Hx Hs.
    destruct (grows_not_pin p Pinned c I2 (g_wf _ _ G)) as (_ & _ & _ & S3 & _ & C3). fold (fc_pin p c) in *.
    destruct Hx' as [(m & f & d & C & S & Ed)]. rewrite C3 in C. rewrite S3 in S.
    destruct (efile (w_fs w) p c1) as [[[m1 f1] v1]|k] eqn:Ef.
    2:{ unfold none_view in E. rewrite Ef in E. discriminate. }
    destruct V as (S1 & _ & (pin & C1)). rewrite C1 in C. injection C as <-. rewrite S1 in S. injection S as <- Ev.
    rewrite Er in Ev. unfold none_view in *. rewrite Ef in *. destruct v1 as [d1|].
    - destruct (ed_elf d1) as [x1|] eqn:E1; cbn [none_value] in Ev.
      + injection Ev as <-. simpl in Ed. congruence.
      + destruct (ed_dwarf d1) as [y|]; [|discriminate]. injection Ev as <-. simpl in Ed. congruence.
    - destruct (w_elf_parse w f1 p) as [P|k]; [|discriminate]. cbn [none_value] in Ev. injection Ev as <-. simpl in Ed. congruence.
  Qed.
  Definition auto_reloads (s : state) : Prop := fc_auto_reload (s_elf s) = true.
  Theorem C46_fresh : forall w p (s : state) mt b, reachable s -> auto_reloads s -> fst (cache w (TElf p) s) = Ok tt ->
    fs_stat (w_fs w) p = Good mt -> eget mt (fc_entries (s_elf s)) = None ->
    let s1 := snd (cache w (TElf p) s) in
    forall m cf k addrs,
    fst (symbolize m cf w (SElf p false) k addrs s1) = fst (symbolize m cf w (SElf p false) k addrs (s_new b)).
  Proof.
    intros w p s mt b Hr Ha E Hs He s1 m cf k addrs. apply reachable_ok in Hr.
    destruct (cache_holds w p s Hr E) as [x Hx]. pose proof (cache_holds_view w p s x Hr E Hx) as V. fold s1 in Hx.
    rewrite (symbolize_holds m cf w p k addrs s1 x); auto; [|now apply cache_ok].
    rewrite symbolize_none by apply new_ok. cbn [fst].
    destruct (grows_not_pin p Unpinned (s_elf s) (so_elf s Hr) (so_wf s Hr)) as (I1 & W1 & _ & S1 & A1 & C1).
    fold (fc_unpin p (s_elf s)) in *. set (c1 := or_same (fc_unpin p (s_elf s)) (s_elf s)) in *.
    assert (Em : emeta (w_fs w) p c1 = Good mt).
    { unfold emeta. rewrite C1, A1, Ha. destruct (cur p (s_elf s)) as [[pin m0]|]; auto. }
    assert (Es : slot mt c1 = None) by (rewrite S1; unfold slot; now rewrite He).
    cbn [s_elf s_new]. rewrite <- (view_new w p p c1 mt Em Es Hs b), V. reflexivity.
  Qed.

  (** With debug information, the file itself is not consulted either. *)
  Record agree_but (p : path) (w w' : world) : Prop := AgreeBut {
    ab_rest : forall d, World d (w_elf_parse w) (w_elf_plain w) (w_elf_cache w) (w_link w) (w_crc w) (w_dwp w) (w_dwarf w)
      (w_archive w) (w_apk_dispatch w) (w_apk_default w) (w_breakpad w) (w_gsym w) (w_perf_map w) (w_gsym_data w)
      (w_kernel w) (w_maps w) (w_image w) (w_dispatch w) =
      World d (w_elf_parse w') (w_elf_plain w') (w_elf_cache w') (w_link w') (w_crc w') (w_dwp w') (w_dwarf w')
      (w_archive w') (w_apk_dispatch w') (w_apk_default w') (w_breakpad w') (w_gsym w') (w_perf_map w') (w_gsym_data w')
      (w_kernel w') (w_maps w') (w_image w') (w_dispatch w');
    ab_stat : forall q, q <> p -> fs_stat (w_fs w) q = fs_stat (w_fs w') q;
    ab_open : forall q, q <> p -> fs_open (w_fs w) q = fs_open (w_fs w') q
  }.
  Lemma entry_agree : forall d d' p q x (c : ecache), Inv c -> holds p x c ->
    (forall q, q <> p -> fs_stat d q = fs_stat d' q) -> (forall q, q <> p -> fs_open d q = fs_open d' q) ->
    fc_entry d q c = fc_entry d' q c.
  Proof.
    intros d d' p q x c HI [(m & f & v & C & S & E)] Hs Ho. destruct (N.eq_dec q p) as [->|Hq].
    - now rewrite !(fc_entry_pinned _ p m c HI C).
    - unfold fc_entry, get_or_insert. rewrite (Hs q Hq), (Ho q Hq). reflexivity.
  Qed.
  Lemma none_agree : forall p w w' q r x (c : ecache), agree_but p w w' -> Inv c -> wf c -> holds p x c ->
    elf_none w q r c = elf_none w' q r c /\ Inv (snd (elf_none w q r c)) /\ wf (snd (elf_none w q r c)) /\
    holds p x (snd (elf_none w q r c)).
  Proof.
    intros p w w' q r x c [R Hs Ho] HI HW Hx. pose proof (grows_none w q r c HI HW) as G. split.
    - specialize (R (w_fs w)). injection R as E1 E2 _ _ _ _ _ _ _ _ _ _ _ _ _ _ _ _. unfold elf_none.
      rewrite (entry_agree (w_fs w) (w_fs w') p q x c); auto. rewrite E1, E2. reflexivity.
    - split; [apply G|]. split; [apply G|]. eapply grows_holds; eauto.
  Qed.
  Lemma debug_agree : forall p w w' x (c : ecache), agree_but p w w' -> Inv c -> wf c -> holds p x c ->
    elf_debug w p p c = elf_debug w' p p c.
  Proof.
    intros p w w' x c A HI HW Hx.
    assert (F : forall P c, Inv c -> wf c -> holds p x c -> from_parser w P c = from_parser w' P c).
    { intros P c0 I0 W0 H0. unfold from_parser, deref_link, find_dwp. destruct A as [R Hs Ho].
      pose proof (R (w_fs w)) as R'. injection R' as E1 E2 _ E4 E5 E6 E7 _ _ _ _ _ _ _ _ _ _ _.
      rewrite <- E4, <- E5, <- E6, <- E7.
      assert (A : agree_but p w w') by (constructor; auto).
      assert (D : forall c, Inv c -> wf c -> holds p x c ->
        match w_dwp w P with None => (Ok None, c) | Some path => let '(r, c) := elf_none w path path c in
          match r with Ok x => (Ok (Some (er_parser x)), c) | Err ENotFound => (Ok None, c) | Err k => (Err k, c)
          | Panic => (Panic, c) | NoFuel => (NoFuel, c) end end =
        match w_dwp w P with None => (Ok None, c) | Some path => let '(r, c) := elf_none w' path path c in
          match r with Ok x => (Ok (Some (er_parser x)), c) | Err ENotFound => (Ok None, c) | Err k => (Err k, c)
          | Panic => (Panic, c) | NoFuel => (NoFuel, c) end end).
      { intros c1 I1 W1 H1. destruct (w_dwp w P) as [q|]; auto. now rewrite (proj1 (none_agree p w w' q q x c1 A I1 W1 H1)). }
      destruct (w_link w P) as [[[q sum]|]|k| |]; cbn [then_]; auto.
      - destruct (none_agree p w w' q q x c0 A I0 W0 H0) as (E & I1 & W1 & H1). rewrite <- E.
        destruct (elf_none w q q c0) as [[y|k| |] c1]; cbn [then_ snd] in *; auto.
        destruct (w_crc w (er_parser y) =? sum); cbn [then_]; auto. now rewrite D.
      - now rewrite D. }
    destruct Hx as [(m & f & d & C & S & Ed)]. unfold elf_debug.
    rewrite !(fc_entry_pinned _ p m c HI C). cbn [then_]. rewrite (slot_get_some _ _ _ _ S). cbn [then_].
    destruct (ed_dwarf d) as [y|]; auto. rewrite Ed. rewrite F; auto. constructor. exists m, f, d. auto.
  Qed.
  Theorem C46_debug : forall w p (s : state), reachable s -> fst (cache w (TElf p) s) = Ok tt ->
    let s1 := snd (cache w (TElf p) s) in
    forall h, Forall (leaves_elf p) h -> forall m cf w1 w2 debug k addrs, agree_but p w1 w2 ->
    symbolize m cf w1 (SElf p debug) k addrs (run h s1) = symbolize m cf w2 (SElf p debug) k addrs (run h s1).
  Proof.
    intros w p s Hr E s1 h Hh m cf w1 w2 debug k addrs A. apply reachable_ok in Hr.
    destruct (cache_holds w p s Hr E) as [x Hx]. fold s1 in Hx. assert (H1 : state_ok s1) by now apply cache_ok.
    assert (H2 : state_ok (run h s1)) by now apply run_ok.
    assert (Hx2 : holds p x (s_elf (run h s1))) by now apply run_holds.
    rewrite !symbolize_elf. unfold on_elf. destruct debug; unfold elf_resolver.
    - now rewrite (debug_agree p w1 w2 x _ A (so_elf _ H2) (so_wf _ H2) Hx2).
    - now rewrite (proj1 (none_agree p w1 w2 p p x _ A (so_elf _ H2) (so_wf _ H2) Hx2)).
  Qed.

  (** Caching again when the file is gone: an error, and the file as cached
      before is used on. *)
  Theorem C46_gone : forall w p (s : state) w2 e, reachable s -> fst (cache w (TElf p) s) = Ok tt ->
    let s1 := snd (cache w (TElf p) s) in
    forall h, Forall (leaves_elf p) h -> let s2 := run h s1 in
    (fs_stat (w_fs w2) p = Bad e \/
     exists mt, fs_stat (w_fs w2) p = Good mt /\ eget mt (fc_entries (s_elf s2)) = None /\ fs_open (w_fs w2) p = Bad e) ->
    auto_reloads s2 ->
    fst (cache w2 (TElf p) s2) = Err e /\
    forall m cf w' k addrs,
      fst (symbolize m cf w' (SElf p false) k addrs (snd (cache w2 (TElf p) s2))) =
      fst (symbolize m cf w (SElf p false) k addrs s1).
  Proof.
    intros w p s w2 e Hr E s1 h Hh s2 Hgone Ha2. unfold auto_reloads in Ha2. apply reachable_ok in Hr.
    destruct (cache_holds w p s Hr E) as [x Hx]. fold s1 in Hx. assert (H1 : state_ok s1) by now apply cache_ok.
    assert (H2 : state_ok s2) by now apply run_ok.
    assert (Hx2 : holds p x (s_elf s2)) by now apply run_holds.
    destruct (grows_not_pin p Unpinned (s_elf s2) (so_elf _ H2) (so_wf _ H2)) as (I3 & W3 & _ & S3 & A3 & C3).
    assert (Eb : efile (w_fs w2) p (or_same (fc_unpin p (s_elf s2)) (s_elf s2)) = Bad e).
    { unfold efile, emeta, fc_unpin. rewrite C3, A3, Ha2. destruct Hx2 as [(m & f & d & C & _)]. rewrite C. simpl.
      destruct Hgone as [->|(mt & -> & He & ->)]; auto. rewrite S3. unfold slot. now rewrite He. }
    assert (Ec : snd (cache w2 (TElf p) s2) =
      set_elf (or_same (fc_pin p (or_same (fc_unpin p (s_elf s2)) (s_elf s2))) (or_same (fc_unpin p (s_elf s2)) (s_elf s2))) s2).
    { rewrite cache_elf_eq. unfold on_elf, cache_elf. pose proof (elf_none_ok w2 p p _ I3) as V. fold (fc_unpin p (s_elf s2)) in V.
      destruct (elf_none w2 p p _) as [r c]. destruct V as (-> & _ & _ & _ & _ & V). rewrite Eb in V. subst c.
      unfold none_view. rewrite Eb. reflexivity. }
    split.
    - rewrite cache_view by auto. unfold none_view. now rewrite Eb.
    - intros m cf w' k addrs. rewrite (symbolize_holds m cf w p k addrs s1 x H1 Hx).
      rewrite (symbolize_holds m cf w' p k addrs _ x); auto; [now apply cache_ok|]. rewrite Ec. cbn [s_elf set_elf].
      destruct (grows_not_pin p Pinned _ I3 W3) as (_ & _ & _ & S4 & _ & C4). fold (fc_unpin p (s_elf s2)) in *.
      destruct Hx2 as [(m0 & f & d & C & S & Ed)]. constructor. exists m0, f, d. unfold fc_pin, fc_unpin in *.
      rewrite C4, C3, C, S4, S3. auto.
  Qed.

  (** ** C46: processes *)
  Section Vmas.
    Variable v : list (pid * list maps_entry).
    Definition lift (h : hstate File Parser) : hstate File Parser := HState (hs_syms h) (set_vmas v (hs_state h)).
    Definition lifts {A} (f : hstate File Parser -> res A * hstate File Parser) : Prop :=
      forall h, f (lift h) = (fst (f h), lift (snd (f h))).
    Lemma lifts_then : forall A B (f : hstate File Parser -> res A * hstate File Parser) (g : A -> hstate File Parser -> res B * hstate File Parser),
      lifts f -> (forall a, lifts (g a)) -> lifts (fun h => then_ (f h) g).
    Proof.
      intros A B f g Hf Hg h. rewrite Hf. destruct (f h) as [[a|k| |] h1]; cbn [fst snd then_]; auto. apply Hg.
    Qed.
    Lemma lifts_push_sym : forall m cf a r, lifts (push_sym m cf a r).
    Proof. intros m cf a r h. unfold push_sym. destruct (with_resolver m cf a r); reflexivity. Qed.
    Lemma lifts_push_translated : forall m cf a r, lifts (push_translated m cf a r).
    Proof.
      intros m cf a r h. unfold push_translated. destruct (r_virt r a) as [[x|]|k| |]; cbn [then_]; auto. apply lifts_push_sym.
    Qed.
    Lemma lifts_default : forall m cf w p o a off e, lifts (handle_default m cf w p o a off e).
    Proof.
      intros m cf w p o a off e. unfold handle_default. destruct (me_path e) as [[mf sy|comp]|].
      - destruct (_ || _).
        + unfold handle_apk_addr. apply lifts_then.
          * intros [l [c1 c2 c3 c4 c5 c6 c7 c8]]. unfold on_state, on_apk. simpl. destruct (apk_resolver _ _ _ _ _ _ c2) as [x c]; reflexivity.
          * intros [[r ad]|]; [apply lifts_push_sym|]. intros h. reflexivity.
        + unfold handle_elf_addr. apply lifts_then.
          * intros [l [c1 c2 c3 c4 c5 c6 c7 c8]]. unfold on_state, on_elf. simpl. destruct (elf_resolver _ _ _ _ c1) as [x c]; reflexivity.
          * intros x. apply lifts_push_translated.
      - destruct (_ && _); [|intros h; reflexivity]. unfold handle_vdso_addr. apply lifts_then.
        + intros [l [c1 c2 c3 c4 c5 c6 c7 c8]]. unfold on_state, vdso_parser, get_or_try_init. simpl. destruct c8; auto.
          destruct (create_vdso_parser w p (me_start e) (me_end e)); reflexivity.
        + intros x. apply lifts_push_translated.
      - destruct (po_perf_map o); [|intros h; reflexivity]. unfold handle_perf_map_addr. apply lifts_then.
        + intros [l [c1 c2 c3 c4 c5 c6 c7 c8]]. unfold on_state, on_perf. simpl. destruct (perf_map_resolver _ _ _ c5) as [x c]; reflexivity.
        + intros [r|]; [apply lifts_push_sym|]. intros h. reflexivity.
    Qed.
    Lemma lifts_entry : forall m cf w p o a e, lifts (handle_entry m cf w p o a e).
    Proof.
      intros m cf w p o a e. unfold handle_entry. apply lifts_then; [intros h; reflexivity|]. intros off.
      destruct (me_path e) as [name|]; [|apply lifts_default]. apply lifts_then.
      - intros [l [c1 c2 c3 c4 c5 c6 c7 c8]]. unfold on_state, dispatch_resolver. simpl.
        destruct (w_dispatch w) as [d|]; auto. destruct (aget path_name_eqb name c7); auto.
        destruct (d (me_start e) (me_end e) name); reflexivity.
      - intros [r|]; [apply lifts_push_translated|apply lifts_default].
    Qed.
    Lemma lifts_pass : forall m cf w p o addrs items,
      lifts (pass (fun _ r h => push (Unknown r) h) (handle_entry m cf w p o) addrs items).
    Proof.
      intros m cf w p o addrs items h. unfold pass. destruct items as [|[e|k| |] items]; cbn [then_]; auto.
      generalize (match addrs with [] => 0 | a :: _ => a end) as prev. generalize (S (length items)) as fuel.
      revert e items h. induction addrs as [|a addrs IH]; intros e items h fuel prev; cbn [pass_loop]; auto.
      destruct (a <? prev); auto. destruct (find_entry iter_next fuel a e items) as [[[found e'] st]|k| |]; cbn [then_]; auto.
      destruct (negb found || (a <? me_start e')).
      - change (push (Unknown Unmapped) (lift h)) with (lift (push (Unknown Unmapped) h)). apply IH.
      - rewrite lifts_entry. destruct (handle_entry m cf w p o a e' h) as [[u|k| |] h1]; cbn [then_ fst snd]; auto.
    Qed.
  End Vmas.
  (** The mappings of processes are not looked at by handlers. *)
  Lemma apk_find_maps : forall m (w : world) p items actual repr debug off archive map,
    apk_find m (with_maps p items w) actual repr debug off archive map = apk_find m w actual repr debug off archive map.
  Proof.
    intros m w p items actual repr debug off archive map. revert map.
    induction archive as [|x archive IH]; intros map; [reflexivity|]. cbn [apk_find]. destruct x as [mb|k]; auto.
    change (member_resolver (with_maps p items w) actual repr debug mb) with (member_resolver w actual repr debug mb).
    destruct (add64 m (mb_offset mb) (mb_len mb)) as [e|k| |]; cbn [then_]; auto. destruct (_ && _); auto.
  Qed.
  Lemma apk_maps : forall m (w : world) p items actual repr off debug (c : file_cache File apk_data),
    apk_resolver m (with_maps p items w) actual repr off debug c = apk_resolver m w actual repr off debug c.
  Proof.
    intros m w p items actual repr off debug c. unfold apk_resolver. cbn [w_fs w_archive with_maps].
    destruct (fc_entry (w_fs w) actual c) as [[mt|k| |] c1]; cbn [then_]; auto.
    match goal with |- context [fc_fill mt ?i c1] => destruct (fc_fill mt i c1) as [[[archive map]|k| |] c2] end; cbn [then_]; auto. now rewrite apk_find_maps.
  Qed.
  Lemma vdso_maps : forall (w : world) p items start end_ (s : state),
    vdso_parser (with_maps p items w) p start end_ s = vdso_parser w p start end_ s.
  Proof. intros w [|n] items start end_ s; reflexivity. Qed.
  Lemma default_maps : forall m cf (w : world) items p o a off e h,
    handle_default m cf (with_maps p items w) p o a off e h = handle_default m cf w p o a off e h.
  Proof.
    intros m cf w items p o a off e h. unfold handle_default. destruct (me_path e) as [[mf sy|comp]|]; auto.
    - destruct (_ || _); auto. unfold handle_apk_addr, on_state, on_apk. now rewrite apk_maps.
    - destruct (_ && _); auto. unfold handle_vdso_addr, on_state. now rewrite vdso_maps.
  Qed.
  Lemma entry_maps : forall m cf (w : world) items p o a e h,
    handle_entry m cf (with_maps p items w) p o a e h = handle_entry m cf w p o a e h.
  Proof.
    intros m cf w items p o a e h. unfold handle_entry.
    destruct (let* d := sub64 m a (me_start e) in add64 m d (me_offset e)) as [off|k| |]; cbn [then_]; auto.
    destruct (me_path e) as [name|]; [|apply default_maps].
    change (dispatch_resolver (with_maps p items w)) with (dispatch_resolver w).
    destruct (on_state _ h) as [[[r|]|k| |] h1]; cbn [then_]; auto. apply default_maps.
  Qed.
  Lemma pass_ext : forall H unknown (f g : N -> maps_entry -> H -> res unit * H), (forall a e h, f a e h = g a e h) ->
    forall addrs items h, pass unknown f addrs items h = pass unknown g addrs items h.
  Proof.
    intros H unknown f g E addrs items h. unfold pass. destruct items as [|[e|k| |] items]; cbn [then_]; auto.
    generalize (match addrs with [] => 0 | a :: _ => a end) as prev. generalize (S (length items)) as fuel.
    revert e items h. induction addrs as [|a addrs IH]; intros e items h fuel prev; cbn [pass_loop]; auto.
    destruct (a <? prev); auto. destruct (find_entry iter_next fuel a e items) as [[[found e'] st]|k| |]; cbn [then_]; auto.
    destruct (negb found || (a <? me_start e')); auto. rewrite E. destruct (g a e' h) as [[u|k| |] h1]; cbn [then_]; auto.
  Qed.
  Lemma collect_items : forall (items : list (res maps_entry)) es, collect items = Ok es -> items = map Ok es.
  Proof.
    induction items as [|i items IH]; intros es E; simpl in E; [now injection E as <-|].
    ib E x Ex. ib E xs Exs. injection E as <-. simpl. subst i. f_equal. auto.
  Qed.
  (** Once its mappings are cached, a process is seen as having these, no
      matter whether it still exists. *)
  Definition forgetting (p : pid) (s : state) : state := set_vmas (adel pid_eqb p (s_vmas s)) s.
  Theorem C46_process : forall w p (s : state), reachable s -> fst (cache w (TProcess p true) s) = Ok tt ->
    let s1 := snd (cache w (TProcess p true) s) in
    forall h, Forall (leaves_vmas p) h -> forall m cf w' o k addrs,
    fst (symbolize m cf w' (SProcess p o) k addrs (run h s1)) =
    fst (symbolize m cf (with_maps p (w_maps w p) w') (SProcess p o) k addrs (forgetting p (run h s1))).
  Proof.
    intros w p s Hr E s1 h Hh m cf w' o k addrs. apply reachable_ok in Hr.
    assert (H1 : state_ok s1) by now apply cache_ok. assert (H2 : state_ok (run h s1)) by now apply run_ok.
    assert (V : exists es, w_maps w p = Good (map Ok es) /\ aget pid_eqb p (s_vmas s1) = Some es).
    { subst s1. simpl in *. destruct (w_maps w p) as [items|e]; [|discriminate]. cbn [of_outcome bind] in *.
      destruct (collect items) as [es|e| |] eqn:Ec; try discriminate. cbn [then_ snd s_vmas set_vmas] in *.
      exists es. rewrite (collect_items items es Ec). split; auto. now rewrite aget_aset_eq by apply pid_eqb_spec. }
    destruct V as (es & Em & Ev). rewrite <- (run_vmas p h s1 H1 Hh) in Ev.
    unfold symbolize. cbn [symbolize_impl]. destruct k; auto. unfold user_addrs.
    rewrite Ev. unfold forgetting at 1. cbn [s_vmas set_vmas].
    rewrite aget_adel_eq by (apply pid_eqb_spec || apply H2). cbn [w_maps with_maps].
    destruct (pid_eqb_spec p p) as [_|Hp]; [|congruence]. rewrite Em. cbn [of_outcome then_].
    change (HState [] (forgetting p (run h s1))) with (lift (adel pid_eqb p (s_vmas (run h s1))) (HState [] (run h s1))).
    rewrite (pass_ext _ _ _ _ (entry_maps m cf w' _ p o)).
    rewrite (lifts_pass _ m cf w' p o). destruct (pass _ _ _ _ _) as [r h']. reflexivity.
  Qed.
  Theorem C46_process_failed : forall w p b (s : state), fst (cache w (TProcess p b) s) <> Ok tt ->
    snd (cache w (TProcess p b) s) = s.
  Proof.
    intros w p [] s E; simpl in *; [|tauto]. destruct (let* items := of_outcome (w_maps w p) in collect items); auto. simpl in E. tauto.
  Qed.

  (** ** C46: evicting *)
  Theorem C46_evict_ok : forall cf t (s : state), reachable s -> exists s', evict cf t s = Ok s'.
  Proof. intros cf t s Hr. destruct (evict_ok cf t s (reachable_ok s Hr)) as (s' & E & _). eauto. Qed.
  (** Afterwards, the file is the one at the path now, and unless another path
      led to it before, it is read as by a new instance. *)
  Theorem C46_evict : forall cf p (s s' : state), reachable s -> evict cf (EvElf p) s = Ok s' ->
    (forall w, file_at w (s_elf s') p = fs_stat w p) /\
    forall w mt b, fs_stat (w_fs w) p = Good mt ->
      (forall q pe, q <> p -> pget q (fc_cache (s_elf s)) = Some pe -> ~ In mt (metas pe)) ->
      forall m cf k addrs,
      fst (symbolize m cf w (SElf p false) k addrs s') = fst (symbolize m cf w (SElf p false) k addrs (s_new b)).
  Proof.
    intros cf p s s' Hr E. apply reachable_ok in Hr. pose proof (evict_ok cf (EvElf p) s Hr) as (s2 & E2 & H2).
    rewrite E in E2. injection E2 as <-.
    destruct (fc_evict_spec p (s_elf s) (so_elf s Hr)) as (b0 & c & Ec & I & A & P & _ & _ & S & _).
    simpl in E. rewrite Ec in E. cbn [bind] in E. injection E as <-. cbn [s_elf set_process set_elf] in *.
    split. { intros w. unfold file_at. now rewrite P. }
    intros w mt b Hs Ho m cf' k addrs. rewrite !symbolize_none by (auto; apply new_ok). cbn [s_elf set_process set_elf s_new].
    rewrite (view_new w p p c mt) with (b := b); auto.
    - unfold emeta, cur. rewrite P. exact Hs.
    - apply S. intros (q & Hq & Hh). unfold has in Hh. destruct (pget q (fc_cache (s_elf s))) as [pe|] eqn:Ep; [|discriminate].
      apply (Ho q pe Hq Ep). apply contains_In. exact Hh.
  Qed.
  Theorem C46_evict_process : forall cf p (s s' : state), reachable s -> evict cf (EvProcess p) s = Ok s' ->
    aget pid_eqb p (s_vmas s') = None /\ (forall q, q <> p -> aget pid_eqb q (s_vmas s') = aget pid_eqb q (s_vmas s)) /\
    (forall w, file_at w (s_perf s') (perf_path cf p) = fs_stat w (perf_path cf p)).
  Proof.
    intros cf p s s' Hr E. apply reachable_ok in Hr.
    destruct (fc_evict_spec (perf_path cf p) (s_perf s) (so_perf s Hr)) as (b0 & c & Ec & I & A & P & _).
    simpl in E. rewrite Ec in E. cbn [bind] in E. injection E as <-. simpl. split; [|split].
    - apply aget_adel_eq; [apply pid_eqb_spec|apply Hr].
    - intros q Hq. apply aget_adel_neq; auto. apply pid_eqb_spec.
    - intros w. unfold file_at. now rewrite P.
  Qed.

  (** ** C56 *)

  Lemma none_safe : forall w q r (c : ecache), Inv c -> wf c -> safe (fst (elf_none w q r c)).
  Proof.
    intros w q r c HI HW. pose proof (elf_none_ok w q r c HI) as V. destruct (elf_none w q r c) as [res c'].
    destruct V as (-> & _). simpl. unfold none_view, efile. destruct (emeta (w_fs w) q c) as [m|k]; auto.
    destruct (slot m c) as [[f [d|]]|] eqn:Es.
    - destruct (HW m f d Es) as [Hd _]. destruct (ed_elf d); auto. destruct (ed_dwarf d); auto. destruct Hd; congruence.
    - destruct (w_elf_parse w f r); auto.
    - destruct (fs_open (w_fs w) q) as [f|k]; auto. destruct (w_elf_parse w f r); auto.
  Qed.
  Definition other_file w (P : Parser) (mt : file_meta) (c : ecache) : Prop :=
    forall q, debug_path w P q -> emeta (w_fs w) q c <> Good mt.
  Lemma from_parser_safe : forall w P (c : ecache), Inv c -> wf c -> safe (w_link w P) ->
    safe (fst (from_parser w P c)) /\
    forall mt, other_file w P mt c -> slot mt (snd (from_parser w P c)) = slot mt c.
  Proof.
    intros w P c HI HW HL. unfold from_parser.
    assert (N1 : forall q (c : ecache) mt, Inv c -> emeta (w_fs w) q c <> Good mt -> slot mt (snd (elf_none w q q c)) = slot mt c).
    { intros q c0 mt I0 Hne. pose proof (elf_none_ok w q q c0 I0) as V. destruct (elf_none w q q c0) as [r c1].
      destruct V as (_ & _ & _ & _ & _ & V). cbn [snd]. destruct (efile (w_fs w) q c0) as [[[m f] v]|k] eqn:Ef; [|now subst].
      apply V. apply efile_meta in Ef. congruence. }
    assert (N2 : forall q (c : ecache), Inv c -> same_meta (w_fs w) c (snd (elf_none w q q c))).
    { intros q c0 I0. pose proof (elf_none_ok w q q c0 I0) as V. destruct (elf_none w q q c0) as [r c1]. apply V. }
    assert (L : safe (fst (deref_link w P c)) /\ Inv (snd (deref_link w P c)) /\ wf (snd (deref_link w P c)) /\
      same_meta (w_fs w) c (snd (deref_link w P c)) /\
      forall mt, other_file w P mt c -> slot mt (snd (deref_link w P c)) = slot mt c).
    { unfold deref_link. destruct (w_link w P) as [[[q sum]|]|k| |] eqn:El; cbn [then_ fst snd].
      - pose proof (none_safe w q q c HI HW) as S. pose proof (grows_none w q q c HI HW) as G.
        pose proof (N2 q c HI) as M. pose proof (fun mt => N1 q c mt HI) as N.
        assert (O : forall mt, other_file w P mt c -> slot mt (snd (elf_none w q q c)) = slot mt c).
        { intros mt H. apply N, H. econstructor; eauto. }
        destruct (elf_none w q q c) as [r c1]. cbn [fst snd] in *. pose proof (g_inv _ _ G). pose proof (g_wf _ _ G).
        destruct r as [x|k| |]; cbn [then_ fst snd]; auto 7; try (destruct S; congruence). destruct (_ =? _); cbn [fst snd]; auto 7.
      - split; auto. split; auto. split; auto. split; auto. intros q. reflexivity.
      - split; auto. split; auto. split; auto. split; auto. intros q. reflexivity.
      - destruct HL; congruence.
      - destruct HL; congruence. }
    destruct L as (S1 & I1 & W1 & M1 & O1). destruct (deref_link w P c) as [r1 c1]. cbn [fst snd] in *.
    destruct r1 as [l|k| |]; cbn [then_ fst snd]; try (split; auto; destruct S1; congruence).
    assert (D : safe (fst (find_dwp w P c1)) /\ forall mt, other_file w P mt c1 -> slot mt (snd (find_dwp w P c1)) = slot mt c1).
    { unfold find_dwp. destruct (w_dwp w P) as [q|] eqn:Ed; [|split; [apply safe_ok|reflexivity]].
      pose proof (none_safe w q q c1 I1 W1) as S. pose proof (fun mt => N1 q c1 mt I1) as N.
      assert (O : forall mt, other_file w P mt c1 -> slot mt (snd (elf_none w q q c1)) = slot mt c1).
      { intros mt H. apply N, H. now apply DpPackage. }
      destruct (elf_none w q q c1) as [r c2]. cbn [fst snd] in *. destruct r as [x|[]| |]; cbn [fst snd]; split; auto; destruct S; congruence. }
    destruct D as (S2 & O2).
    assert (O : forall mt, other_file w P mt c -> slot mt (snd (find_dwp w P c1)) = slot mt c).
    { intros mt H. rewrite O2, O1; auto. intros q Hq. rewrite (M1 q). now apply H. }
    destruct (find_dwp w P c1) as [r2 c2]. cbn [fst snd] in *.
    destruct r2 as [d|k| |]; cbn [then_ fst snd]; try (split; auto; destruct S2; congruence). destruct (w_dwarf w P l d); cbn [of_outcome then_ fst snd]; auto.
  Qed.
  Theorem C56_safe : forall w p r debug (s : state), reachable s ->
    (debug = true -> forall P, parser_of w (s_elf s) p r P -> safe (w_link w P) /\
      forall q mt, debug_path w P q -> file_at (w_fs w) (s_elf s) p = Good mt -> file_at (w_fs w) (s_elf s) q <> Good mt) ->
    safe (fst (elf_resolver w p r debug (s_elf s))).
  Proof.
    intros w p r debug s Hr Hd. apply reachable_ok in Hr. pose proof (so_elf s Hr) as HI. pose proof (so_wf s Hr) as HW.
    destruct debug; unfold elf_resolver; [|now apply none_safe]. specialize (Hd eq_refl).
    set (c := s_elf s) in *. unfold elf_debug.
    pose proof (fc_entry_view (w_fs w) p c HI) as V. pose proof (grows_entry (w_fs w) p c HI HW) as G.
    destruct (fc_entry (w_fs w) p c) as [r1 c1]. destruct (efile (w_fs w) p c) as [[[m f] v]|k] eqn:Ef.
    2:{ destruct V as [-> ->]. simpl. auto. }
    destruct V as (-> & I1 & Em & S1 & _ & M1 & _). destruct G as [G _]. cbn [then_].
    rewrite (slot_get_some _ _ _ _ S1). cbn [then_].
    assert (Hp : forall P x, none_view w p r c = Ok x -> er_parser x = P -> safe (w_link w P) /\ other_file w P m c1).
    { intros P x Ex <-. apply parser_of_view in Ex. destruct (Hd _ Ex) as [L1 L2]. split; auto. intros q Hq. rewrite (M1 q).
      rewrite <- file_at_emeta in *. now apply L2. }
    unfold none_view in Hp. rewrite Ef in Hp. destruct v as [d|].
    - destruct (ed_dwarf d) as [x|] eqn:Ed.
      { cbn [then_]. rewrite (slot_get_some _ _ _ _ S1). cbn [then_]. rewrite Ed. simpl. auto. }
      destruct (HW m f d) as [Hw _].
      { unfold efile in Ef. rewrite Em in Ef. destruct (slot m c) as [[f0 v0]|] eqn:Es; [congruence|]. destruct (fs_open (w_fs w) p); discriminate. }
      destruct (ed_elf d) as [y|] eqn:Ee; [|destruct Hw; congruence].
      destruct (Hp (er_parser y) y eq_refl eq_refl) as [L1 L2].
      destruct (from_parser_safe w (er_parser y) c1 I1 (g_wf _ _ G) L1) as [F1 F2]. specialize (F2 m L2).
      pose proof (grows_from_parser w (er_parser y) c1 I1 (g_wf _ _ G)) as G2.
      destruct (from_parser w (er_parser y) c1) as [r2 c2]. cbn [fst snd] in *. rewrite S1 in F2.
      destruct r2 as [x|k| |]; cbn [then_ fst]; auto; try (destruct F1; congruence).
      rewrite (slot_get_some _ _ _ _ F2). cbn [then_]. rewrite Ed. cbn [then_].
      destruct (slot_set_view (w_fs w) m c2 f _ (ElfData (Some y) (Some x)) (g_inv _ _ G2) F2) as (_ & S3 & _).
      rewrite Ee, (slot_get_some _ _ _ _ S3). simpl. auto.
    - destruct (w_elf_parse w f r) as [P|k]; cbn [then_ fst]; auto.
      destruct (Hp P _ eq_refl eq_refl) as [L1 L2].
      destruct (from_parser_safe w P c1 I1 (g_wf _ _ G) L1) as [F1 F2]. specialize (F2 m L2).
      destruct (from_parser w P c1) as [r2 c2]. cbn [fst snd] in *. rewrite S1 in F2.
      destruct r2 as [x|k| |]; cbn [then_ fst]; auto; try (destruct F1; congruence).
      rewrite (slot_get_some _ _ _ _ F2). cbn [then_ fst]. auto.
  Qed.
End Cache.

(** ** Examples *)

(** File 5 at path 3 is cached, and replaced later on. *)
Definition w_before := demo (with_file (fun _ => Some 5) plain_setup).
Definition w_later := demo (with_file (fun _ => Some 6) plain_setup).
Definition w_gone := demo (with_file (fun _ => None) plain_setup).
Definition w_broken := demo (with_file (fun _ => Some 200) plain_setup).
Definition look (w : world N N) p s := brief_all (fst (symbolize Checked demo_config w (SElf p false) VirtOffset [4200] s)).
Definition cached_5 := snd (cache w_before (TElf 3) demo_new).
Example C46_file_ex :
  fst (cache w_before (TElf 3) demo_new) = Ok tt /\
  (let h := [OSymbolize Checked demo_config w_later (SElf 3 true) VirtOffset [4200];
             OCache w_later (TElf 4); OEvict demo_config (EvElf 4);
             ORegister w_gone 3 (ElfRes 9 false (demo_resolver 9))] in
   Forall (leaves_elf 3) h /\ look w_later 3 (run h cached_5) = Ok [inl ([5; 4192], 4192, 8)] /\
   look w_later 4 (run h cached_5) = Ok [inl ([6; 4192], 4192, 8)]) /\
  fst (cache w_gone (TElf 3) cached_5) = Err ENotFound /\
  look w_later 3 (snd (cache w_gone (TElf 3) cached_5)) = Ok [inl ([5; 4192], 4192, 8)] /\
  look w_later 3 (snd (cache w_later (TElf 3) cached_5)) = Ok [inl ([6; 4192], 4192, 8)] /\
  (exists s, evict demo_config (EvElf 3) cached_5 = Ok s /\ look w_later 3 s = Ok [inl ([6; 4192], 4192, 8)]) /\
  look w_later 3 (snd (symbolize Checked demo_config w_before (SElf 3 false) VirtOffset [4200] demo_new)) =
    Ok [inl ([6; 4192], 4192, 8)].
Proof.
  split; [reflexivity|]. split.
  { cbv zeta. split; [|split; vm_compute; reflexivity]. repeat (apply Forall_cons; [simpl; try discriminate; auto|]). apply Forall_nil. }
  split; [reflexivity|]. split; [vm_compute; reflexivity|]. split; [vm_compute; reflexivity|].
  split; [eexists; split; [vm_compute; reflexivity|vm_compute; reflexivity]|]. vm_compute. reflexivity.
Qed.
(** The process is gone, but its mappings are cached. *)
Definition w_exited := demo plain_setup.
Definition cached_process := snd (cache ex_process (TProcess Slf true) demo_new).
Definition look_process (w : world N N) s := brief_all (fst (symbolize Checked demo_config w (SProcess Slf ex_opts) AbsAddr [1500; 2500] s)).
Example C46_process_ex :
  fst (cache ex_process (TProcess Slf true) demo_new) = Ok tt /\
  look_process w_exited cached_process = Ok [inl ([98; 4592], 4592, 4); inr Unmapped] /\
  look_process w_exited demo_new = Err ENotFound /\
  fst (cache w_exited (TProcess Slf true) cached_process) = Err ENotFound /\
  snd (cache w_exited (TProcess Slf true) cached_process) = cached_process /\
  (exists s, evict demo_config (EvProcess Slf) cached_process = Ok s /\ look_process w_exited s = Err ENotFound).
Proof.
  split; [reflexivity|]. split; [vm_compute; reflexivity|]. split; [reflexivity|]. split; [reflexivity|].
  split; [reflexivity|]. eexists. split; [vm_compute; reflexivity|vm_compute; reflexivity].
Qed.
Definition look_debug (w : world N N) p s := fst (symbolize Checked demo_config w (SElf p true) VirtOffset [4200] s).
Definition w_package := demo (with_dwp (fun _ => Some 8) (with_file (fun p => Some p) plain_setup)).
Example C56_ex :
  brief_all (look_debug w_package 3 demo_new) = Ok [inl ([1003; 4192], 4192, 8)].
Proof. vm_compute. reflexivity. Qed.

(** ** Not so *)

(** "If this method fails, any previously cached data is left untouched and
    will be used subsequently as if no failure occurred": not if the file has
    been replaced by one that is not valid, ... *)
Theorem C46_broken_refuted : exists (w w' : world N N) (s : state N N) p, reachable s /\
  fst (cache w (TElf p) s) = Ok tt /\
  let s1 := snd (cache w (TElf p) s) in
  fst (cache w' (TElf p) s1) = Err EInvalidData /\
  look w' p s1 = Ok [inl ([5; 4192], 4192, 8)] /\
  look w' p (snd (cache w' (TElf p) s1)) = Err EInvalidData.
Proof.
  exists w_before, w_broken, demo_new, 3. split; [apply demo_reachable|]. split; [reflexivity|]. cbv zeta.
  split; [reflexivity|]. split; vm_compute; reflexivity.
Qed.
(** ... and data cached by a lookup only is not reloaded from then on. *)
Theorem C46_pins_refuted : exists (w w_fail w' : world N N) (s : state N N) p, reachable s /\
  let s1 := snd (symbolize Checked demo_config w (SElf p false) VirtOffset [4200] s) in
  fst (cache w_fail (TElf p) s1) = Err ENotFound /\
  look w' p s1 = Ok [inl ([6; 4192], 4192, 8)] /\
  look w' p (snd (cache w_fail (TElf p) s1)) = Ok [inl ([5; 4192], 4192, 8)].
Proof.
  exists w_before, w_gone, w_later, demo_new, 3. split; [apply demo_reachable|]. cbv zeta.
  split; [reflexivity|]. split; vm_compute; reflexivity.
Qed.
(** Without automatic reloads, caching again succeeds, but nothing is cached
    anew. *)
Theorem C46_again_refuted : exists (w w' : world N N) p,
  let s1 := snd (cache w (TElf p) (s_new false)) in
  fst (cache w (TElf p) (s_new false)) = Ok tt /\ fst (cache w' (TElf p) s1) = Ok tt /\
  look w p s1 = Ok [inl ([5; 4192], 4192, 8)] /\
  look w' p (s_new false) = Ok [inl ([6; 4192], 4192, 8)] /\
  look w' p (snd (cache w' (TElf p) s1)) = Ok [inl ([5; 4192], 4192, 8)].
Proof.
  exists w_before, w_later, 3. cbv zeta. repeat split; vm_compute; reflexivity.
Qed.
(** The package with debug information of a module being a link to that
    module: a panic *)
Definition w_self := demo (with_dwp (fun _ => Some 8) (with_file (fun _ => Some 5) plain_setup)).
Theorem C56_self_refuted : exists (w : world N N) (s : state N N) p q, reachable s /\
  w_dwp w 5 = Some q /\ q <> p /\ fs_stat (w_fs w) p = fs_stat (w_fs w) q /\
  look_debug w p s = Panic.
Proof.
  exists w_self, demo_new, 3, 8. split; [apply demo_reachable|]. split; [reflexivity|]. split; [discriminate|].
  split; [reflexivity|]. vm_compute. reflexivity.
Qed.
Print Assumptions C46_file.
Print Assumptions C46_fresh.
Print Assumptions C46_debug.
Print Assumptions C46_gone.
Print Assumptions C46_process.
Print Assumptions C46_process_failed.
Print Assumptions C46_evict_ok.
Print Assumptions C46_evict.
Print Assumptions C46_evict_process.
Print Assumptions C46_broken_refuted.
Print Assumptions C46_pins_refuted.
Print Assumptions C46_again_refuted.
Print Assumptions C56_safe.
Print Assumptions C56_self_refuted.
