(** * C65: a [Symbolizer] used for many calls *)

From Verif Require Import Base Util Amap Maps FileCache FileCacheProofs CacheViews Sym Normalize Symbolizer SymbolizerSpec
  SymbolizerState SymbolizerDemo HistorySpec HistoryProofs SymHistorySpec SymHistory.
From Verif Require Nom.
From Coq Require Import String.
Local Close Scope string_scope.
Local Open Scope N_scope.

Section History.
  Context {File Parser : Type}.
  Notation world := (world File Parser).
  Notation op := (@op File Parser).
  Implicit Types (w : world) (h : list op).

  Lemma run_good : forall h o, Forall unforced h -> undisturbed (h ++ [o]) -> good (h ++ [o]) (run h (s_new true)).
  Proof.
    intros h o Hu HH. apply good_run; auto; [|apply good_new]. intros x Hx. apply in_or_app. now left.
  Qed.

  (** The result is that of a new symbolizer. *)
  Theorem C65_symbolize : forall h m cf w src k addrs,
    Forall unforced h -> undisturbed (h ++ [OSymbolize m cf w src k addrs]) ->
    fst (symbolize m cf w src k addrs (run h (s_new true))) = fst (symbolize m cf w src k addrs (s_new true)).
  Proof.
    intros h m cf w src k addrs Hu HH. pose proof (run_good h _ Hu HH) as G. set (h' := h ++ [_]) in *.
    assert (Ha : asked h' cf w src) by (left; exists m, k, addrs; apply in_or_app; right; now left).
    destruct (constant_symbolize h' HH m cf w src k addrs Ha) as [v Hv].
    rewrite (proj1 (Hv _ G)), (proj1 (Hv _ (good_new h'))). reflexivity.
  Qed.
  Theorem C65_single : forall h m cf w src k addr,
    Forall unforced h -> undisturbed (h ++ [OSingle m cf w src k addr]) ->
    fst (symbolize_single m cf w src k addr (run h (s_new true))) = fst (symbolize_single m cf w src k addr (s_new true)).
  Proof.
    intros h m cf w src k addr Hu HH. pose proof (run_good h _ Hu HH) as G. set (h' := h ++ [_]) in *.
    assert (Ha : asked h' cf w src) by (right; exists m, k, addr; apply in_or_app; right; now left).
    destruct (constant_single h' HH m cf w src k addr Ha) as [v Hv].
    rewrite (proj1 (Hv _ G)), (proj1 (Hv _ (good_new h'))). reflexivity.
  Qed.

  (** In terms of the files as they are now *)
  Theorem C65_elf : forall h m cf w p d addr,
    Forall unforced h -> undisturbed (h ++ [OSingle m cf w (SElf p d) VirtOffset addr]) ->
    fst (symbolize_single m cf w (SElf p d) VirtOffset addr (run h (s_new true))) =
    (let* r := elf_alone w p p d in
     let* x := r_find r addr (cf_opts cf) in
     match x with
     | inl s => let* s := convert_sym m cf addr s in Ok (Known s)
     | inr reason => Ok (Unknown reason)
     end).
  Proof.
    intros h m cf w p d addr Hu HH. pose proof (run_good h _ Hu HH) as G. set (h' := h ++ [_]) in *.
    set (s := run h (s_new true)) in *. clearbody s.
    assert (Ha : asked h' cf w (SElf p d)) by (right; exists m, VirtOffset, addr; apply in_or_app; right; now left).
    assert (Hr : reads_elf h' p p d) by (eapply ReElf; eauto).
    unfold symbolize_single, symbolize_impl, on_elf. destruct (elf_resolver w p p d (s_elf s)) as [x c] eqn:E.
    destruct (elf_resolver_alone (worlds h') _ _ (ud_elf h' HH) w p p d (s_elf s) x c) as [<- _]; auto.
    - exists cf, (SElf p d). exact Ha.
    - eapply AeFile; eauto.
    - now intros ->.
    - apply G.
    - destruct x as [x|k| |]; auto. cbn [then_ bind each].
      change (let* x0 := r_find (er_resolver x) addr (cf_opts cf) in _) with (with_resolver m cf addr (er_resolver x)).
      now destruct (with_resolver m cf addr (er_resolver x)).
  Qed.
  Theorem C65_breakpad : forall h m cf w p off,
    Forall unforced h -> undisturbed (h ++ [OSingle m cf w (SBreakpad p) FileOffset off]) ->
    fst (symbolize_single m cf w (SBreakpad p) FileOffset off (run h (s_new true))) =
    (let* r := file_alone w (w_breakpad w) p in with_resolver m cf off r).
  Proof.
    intros h m cf w p off Hu HH. pose proof (run_good h _ Hu HH) as G. set (h' := h ++ [_]) in *.
    set (s := run h (s_new true)) in *. clearbody s.
    assert (Ha : asked h' cf w (SBreakpad p)) by (right; exists m, FileOffset, off; apply in_or_app; right; now left).
    unfold symbolize_single, symbolize_impl, on_breakpad. destruct (file_resolver w (w_breakpad w) p (s_breakpad s)) as [x c] eqn:E.
    destruct (file_resolver_alone (worlds h') (reads_breakpad h') w_breakpad) with (w := w) (p := p) (c := s_breakpad s) (r := x) (c' := c)
      as [-> _]; auto.
    - intros w1 w2 H1 H2. apply (la_program _ _ _ (ud_elf h' HH) w1 w2 H1 H2).
    - apply HH.
    - exists cf, (SBreakpad p). exact Ha.
    - split; eauto.
    - apply G.
    - destruct (file_alone w (w_breakpad w) p) as [r|k| |]; auto. cbn [then_ bind each].
      now destruct (with_resolver m cf off r).
  Qed.
  Theorem C65_gsym : forall h m cf w p off,
    Forall unforced h -> undisturbed (h ++ [OSingle m cf w (SGsymFile p) VirtOffset off]) ->
    fst (symbolize_single m cf w (SGsymFile p) VirtOffset off (run h (s_new true))) =
    (let* r := file_alone w (w_gsym w) p in with_resolver m cf off r).
  Proof.
    intros h m cf w p off Hu HH. pose proof (run_good h _ Hu HH) as G. set (h' := h ++ [_]) in *.
    set (s := run h (s_new true)) in *. clearbody s.
    assert (Ha : asked h' cf w (SGsymFile p)) by (right; exists m, VirtOffset, off; apply in_or_app; right; now left).
    unfold symbolize_single, symbolize_impl, on_gsym. destruct (file_resolver w (w_gsym w) p (s_gsym s)) as [x c] eqn:E.
    destruct (file_resolver_alone (worlds h') (reads_gsym h') w_gsym) with (w := w) (p := p) (c := s_gsym s) (r := x) (c' := c)
      as [-> _]; auto.
    - intros w1 w2 H1 H2. apply (la_program _ _ _ (ud_elf h' HH) w1 w2 H1 H2).
    - apply HH.
    - exists cf, (SGsymFile p). exact Ha.
    - split; eauto.
    - apply G.
    - destruct (file_alone w (w_gsym w) p) as [r|k| |]; auto. cbn [then_ bind each].
      now destruct (with_resolver m cf off r).
  Qed.
End History.
Print Assumptions C65_symbolize.
Print Assumptions C65_single.
Print Assumptions C65_elf.
Print Assumptions C65_breakpad.
Print Assumptions C65_gsym.

(** ** Example: path 1 is file 11, and 21 later; a process has an executable, an
    archive, memory a perf map is for, and a component that the dispatcher knows *)
Definition nm := Nom.bs "a"%string.
Definition ar := Nom.bs "b.apk"%string.
Definition pm := perf_path demo_config (Pid 5).
Definition ex_file (one : N) (p : path) : option N :=
  if p =? 1 then Some one else if p =? path_of nm then Some 12 else if p =? path_of ar then Some 113
  else if p =? pm then Some 114 else None.
Definition ex_entries : list maps_entry :=
  [MapsEntry 4096 8192 5 0 (Some (PPath [1] nm)) None; MapsEntry 8192 12288 5 0 (Some (PPath [2] ar)) None;
   MapsEntry 12288 16384 5 0 None None; MapsEntry 16384 20480 5 0 (Some (PComponent [9])) None;
   MapsEntry 20480 24576 5 0 (Some (PComponent str_vdso)) None].
Definition ex_dispatch (_ _ : N) (n : path_name) : outcome (option resolver) :=
  if path_name_eqb n (PComponent [9]) then Good (Some (demo_resolver 40)) else Good None.
Definition ex_world (one : N) : world N N :=
  demo (with_dispatch ex_dispatch (with_entries ex_entries (with_file (ex_file one) plain_setup))).
Definition ex_opts := POpts false true false true.
Definition ex_src := SProcess (Pid 5) ex_opts.
Definition ex_addrs := [8192 + 120; 4100; 12300; 16390; 20481; 30000].
Definition ex_h : list (@op N N) :=
  [OSymbolize Checked demo_config (ex_world 11) (SElf 1 true) VirtOffset [4100];
   OSymbolize Checked demo_config (ex_world 11) ex_src AbsAddr [4097; 12289; 16389; 20480];
   OEvict demo_config (EvElf (path_of nm)); OEvict demo_config (EvProcess (Pid 5));
   OSingle Checked demo_config (ex_world 21) (SElf 1 false) VirtOffset 4100;
   OSingle Wrapping demo_config (ex_world 21) (SApk (path_of ar) false) FileOffset 130].
Example C65_example :
  brief_all (fst (symbolize Checked demo_config (ex_world 21) ex_src AbsAddr ex_addrs (run ex_h (s_new true)))) =
    Ok [inl ([2000; 4112], 4112, 4); inl ([12; 4096], 4096, 4); inl ([114; 12288], 12288, 12); inl ([40; 4096], 4096, 6);
        inl ([7; 4096], 4096, 1); inr Unmapped] /\
  brief_one (fst (symbolize_single Checked demo_config (ex_world 21) (SElf 1 true) VirtOffset 4100 (run ex_h (s_new true)))) =
    Ok (inl ([1021; 4096], 4096, 4)) /\
  brief_one (fst (symbolize_single Checked demo_config (ex_world 11) (SElf 1 true) VirtOffset 4100 (run ex_h (s_new true)))) =
    Ok (inl ([1011; 4096], 4096, 4)).
Proof. vm_compute. auto. Qed.

Section Example_.
  Let h := ex_h ++ [OSymbolize Checked demo_config (ex_world 21) ex_src AbsAddr ex_addrs].
  Lemma ex_asked : forall cf w src, asked h cf w src -> cf = demo_config /\ (w = ex_world 11 \/ w = ex_world 21) /\
    (src = SElf 1 true \/ src = SElf 1 false \/ src = SApk (path_of ar) false \/ src = ex_src).
  Proof.
    intros cf w src [(m & k & a & H)|(m & k & a & H)]; unfold h, ex_h in H; cbn [app] in H;
      repeat (destruct H as [H|H]; [try discriminate; injection H; intros; subst; auto 8|]); destruct H.
  Qed.
  Lemma ex_sees : forall w p o e, sees h w p o e -> (w = ex_world 11 \/ w = ex_world 21) /\ o = ex_opts /\ In e ex_entries.
  Proof.
    intros w p o e (cf & items & Ha & Hm & Hi). destruct (ex_asked _ _ _ Ha) as (_ & Hw & Hs).
    destruct Hs as [Hs|[Hs|[Hs|Hs]]]; try discriminate. injection Hs as -> ->. split; auto. split; auto.
    assert (items = map Ok ex_entries) by (destruct Hw as [->| ->]; injection Hm as <-; reflexivity). subst items.
    apply in_map_iff in Hi. destruct Hi as (e' & [= ->] & Hi). exact Hi.
  Qed.
  Lemma ex_worlds : forall w, worlds h w -> w = ex_world 11 \/ w = ex_world 21.
  Proof. intros w (cf & src & Ha). apply (ex_asked _ _ _ Ha). Qed.
  Lemma ex_target : forall b e p r, In e ex_entries -> target_paths b ex_opts e p r -> p = r.
  Proof. intros b e p r He (mf & sy & _ & _ & -> & ->). reflexivity. Qed.
  Lemma ex_elf : forall p r d, reads_elf h p r d -> p = r.
  Proof.
    intros p r d [cf w p0 d0 Ha|w pid o e p0 r0 Hs Ht]; auto.
    destruct (ex_sees _ _ _ _ Hs) as (_ & -> & He). eapply ex_target; eauto.
  Qed.
  Lemma ex_apk : forall p r d, reads_apk h p r d -> p = r /\ d = false.
  Proof.
    intros p r d [cf w p0 d0 Ha|w pid o e p0 r0 Hs Ht].
    - destruct (ex_asked _ _ _ Ha) as (_ & _ & H). destruct H as [H|[H|[H|H]]]; try discriminate. injection H as -> ->. auto.
    - destruct (ex_sees _ _ _ _ Hs) as (_ & -> & He). split; auto. eapply ex_target; eauto.
  Qed.
  (** The identity tells the file. *)
  Lemma ex_file_inj : forall a b p q f, a = 11 \/ a = 21 -> b = 11 \/ b = 21 ->
    ex_file a p = Some f -> ex_file b q = Some f -> p = q.
  Proof.
    intros a b p q f Ha Hb. unfold ex_file.
    destruct (N.eqb_spec p 1); destruct (N.eqb_spec q 1); [congruence| | |].
    - destruct (q =? path_of nm); [|destruct (q =? path_of ar); [|destruct (q =? pm)]]; destruct Ha; congruence.
    - destruct (p =? path_of nm); [|destruct (p =? path_of ar); [|destruct (p =? pm)]]; destruct Hb; congruence.
    - destruct (N.eqb_spec p (path_of nm)); destruct (N.eqb_spec q (path_of nm)); [congruence| | |].
      + destruct (q =? path_of ar); [|destruct (q =? pm)]; congruence.
      + destruct (p =? path_of ar); [|destruct (p =? pm)]; congruence.
      + destruct (N.eqb_spec p (path_of ar)); destruct (N.eqb_spec q (path_of ar)); [congruence| | |].
        * destruct (q =? pm); congruence.
        * destruct (p =? pm); congruence.
        * destruct (N.eqb_spec p pm); destruct (N.eqb_spec q pm); congruence.
  Qed.
  Lemma ex_stat : forall w w' p q m, worlds h w -> worlds h w' ->
    fs_stat (w_fs w) p = Good m -> fs_stat (w_fs w') q = Good m -> p = q /\ fs_open (w_fs w) p = fs_open (w_fs w') q.
  Proof.
    intros w w' p q m Hw Hw'.
    assert (X : forall w, worlds h w -> exists a, (a = 11 \/ a = 21) /\ w = ex_world a).
    { intros w0 H. destruct (ex_worlds _ H) as [->| ->]; eauto. }
    destruct (X _ Hw) as (a & Ha & ->). destruct (X _ Hw') as (b & Hb & ->).
    unfold ex_world, demo. cbn [w_fs fs_stat fs_open su_file with_dispatch with_entries with_file].
    destruct (ex_file a p) as [f|] eqn:E; [|discriminate]. destruct (ex_file b q) as [f'|] eqn:E'; [|discriminate].
    intros H H'. assert (f = f') by (unfold meta_of in *; congruence). subst f'. split; auto.
    exact (ex_file_inj a b p q f Ha Hb E E').
  Qed.
  Lemma ex_identified : forall U : path -> path -> Prop, (forall p r, U p r -> p = r) -> identified (worlds h) U.
  Proof.
    intros U HU w w' p r p' r' m Hw Hw' Hp Hp' H H'. destruct (ex_stat _ _ _ _ _ Hw Hw' H H') as [-> E].
    rewrite <- (HU _ _ Hp), <- (HU _ _ Hp'). auto.
  Qed.
  Lemma ex_no_debug : forall w P q, worlds h w -> ~ debug_file w P q.
  Proof. intros w P q Hw [q0 sum H|q0 H]; destruct (ex_worlds _ Hw) as [->| ->]; discriminate. Qed.
  Lemma ex_any : forall p r, any_elf h p r -> p = r.
  Proof. intros p r [p0 r0 d H|w p0 r0 P q _ _ _ _]; auto. eapply ex_elf; eauto. Qed.
  Example C65_undisturbed_example : undisturbed h.
  Proof.
    constructor.
    - constructor.
      + intros w w' Hw Hw'. destruct (ex_worlds _ Hw) as [->| ->], (ex_worlds _ Hw') as [->| ->]; repeat split.
      + apply ex_identified, ex_any.
      + intros p r H. eapply AeFile; eauto.
      + intros w w' p r p' r' m P Hw Hw' _ _ _ _ _. destruct (ex_worlds _ Hw) as [->| ->], (ex_worlds _ Hw') as [->| ->]; reflexivity.
      + intros w p r P q Hw _ _ Hq. destruct (ex_no_debug w P q Hw Hq).
    - apply ex_identified. intros p r [H _]. exact H.
    - apply ex_identified. intros p r [H _]. exact H.
    - apply ex_identified. intros p r [H _]. exact H.
    - intros w w' p r d p' r' d' m Hw Hw' Hp Hp' H H'. destruct (ex_apk _ _ _ Hp) as [<- ->]. destruct (ex_apk _ _ _ Hp') as [<- ->].
      destruct (ex_stat _ _ _ _ _ Hw Hw' H H') as [-> E]. split; auto. split; auto. split; auto.
      destruct (ex_worlds _ Hw) as [->| ->], (ex_worlds _ Hw') as [->| ->]; split; reflexivity.
    - exists (demo_resolver 7). intros w p o e Hs _. exists ex_entries.
      destruct (ex_sees _ _ _ _ Hs) as [[->| ->] _]; (split; [reflexivity|split; [|reflexivity]]);
        exists (MapsEntry 20480 24576 5 0 (Some (PComponent str_vdso)) None); unfold ex_entries; simpl; auto 8.
    - intros w w' p p' o o' e e' name f f' Hs Hs' _ _.
      destruct (ex_sees _ _ _ _ Hs) as [[->| ->] _], (ex_sees _ _ _ _ Hs') as [[->| ->] _]; intros [= <-] [= <-]; reflexivity.
  Qed.
End Example_.

(** ** Refuted: things remembered that do not change with any file *)

(** Statements: after some lookups in the very same world, the result is
    another one than that of a new symbolizer. *)
(** What the dispatcher said of a component of one process is used for
    components of that name of all processes. *)
Theorem C65_dispatch_refuted : exists m cf (w : world N N) p p' o a a',
  fst (symbolize_single m cf w (SProcess p' o) AbsAddr a'
         (run [OSingle m cf w (SProcess p o) AbsAddr a] (s_new true))) <>
  fst (symbolize_single m cf w (SProcess p' o) AbsAddr a' (s_new true)).
Proof.
  exists Checked, demo_config,
    (demo (Setup (fun _ => None)
      (fun p => match p with
                | Pid 1 => Good [Ok (MapsEntry 4096 8192 5 0 (Some (PComponent [9])) None)]
                | _ => Good [Ok (MapsEntry 8192 12288 5 0 (Some (PComponent [9])) None)]
                end) (fun _ => Ok None) (fun _ => None)
      (Some (fun start _ _ => Good (Some (demo_resolver start)))))),
    (Pid 1), (Pid 2), ex_opts, 4097, 8193.
  intros H. apply (f_equal brief_one) in H. vm_compute in H. discriminate.
Qed.
(** A file with debug information that shows up later is not used. *)
Theorem C65_debug_refuted : exists m cf (w w' : world N N) p a,
  (forall q mt, fs_stat (w_fs w) q = Good mt -> fs_stat (w_fs w') q = Good mt /\ fs_open (w_fs w') q = fs_open (w_fs w) q) /\
  one_program (fun x => x = w \/ x = w') /\
  fst (symbolize_single m cf w' (SElf p true) VirtOffset a
         (run [OSingle m cf w (SElf p true) VirtOffset a] (s_new true))) <>
  fst (symbolize_single m cf w' (SElf p true) VirtOffset a (s_new true)).
Proof.
  set (dw := fun P (_ dwp : option N) => match dwp with Some D => Good (demo_resolver D) | None => Good (demo_resolver P) end).
  set (mk := fun f => let w := demo (with_dwp (fun P => if P =? 11 then Some 2 else None) (with_file f plain_setup)) in
    World (w_fs w) (w_elf_parse w) (w_elf_plain w) (w_elf_cache w) (w_link w) (w_crc w) (w_dwp w) dw (w_archive w)
    (w_apk_dispatch w) (w_apk_default w) (w_breakpad w) (w_gsym w) (w_perf_map w) (w_gsym_data w) (w_kernel w) (w_maps w)
    (w_image w) (w_dispatch w)).
  exists Checked, demo_config, (mk (fun p => if p =? 1 then Some 11 else None)),
    (mk (fun p => if p =? 1 then Some 11 else if p =? 2 then Some 22 else None)), 1, 4100.
  split; [|split].
  - intros q mt. cbn. destruct (q =? 1); [auto|discriminate].
  - intros x x' [->| ->] [->| ->]; repeat split.
  - intros H. apply (f_equal brief_one) in H. vm_compute in H. discriminate.
Qed.
Print Assumptions C65_dispatch_refuted.
Print Assumptions C65_debug_refuted.
