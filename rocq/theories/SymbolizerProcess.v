(** * Looking up addresses of processes, one after the other *)

From Verif Require Import Base Util UtilProofs Amap Maps FileCache FileCacheProofs CacheViews Sym Normalize NormalizeProofs
  Symbolizer SymbolizerSpec SymbolizerElf SymbolizerApk SymbolizerState.
Local Open Scope N_scope.

Section Process.
  Context {File Parser : Type}.
  Notation world := (world File Parser).
  Notation state := (state File Parser).
  Notation hstate := (hstate File Parser).

  (** ** Spec and views *)
  Lemma file_at_emeta : forall T w (c : file_cache File T) p, file_at w c p = emeta w p c.
  Proof.
    intros T w c p. unfold file_at, emeta, cur. destruct (pget p (fc_cache c)) as [pe|]; auto.
    destruct (pe_current pe) as [[[] m]|]; simpl; rewrite ?orb_false_r, ?orb_true_r; auto.
    destruct (fc_auto_reload c); reflexivity.
  Qed.
  Lemma parser_of_view : forall (w : world) (c : file_cache File (elf_data Parser)) p r x, none_view w p r c = Ok x ->
    parser_of w c p r (er_parser x).
  Proof.
    intros w c p r x E. unfold none_view, efile in E. destruct (emeta (w_fs w) p c) as [m|k] eqn:Em; [|discriminate].
    rewrite <- file_at_emeta in Em. unfold slot in E. destruct (eget m (fc_entries c)) as [e|] eqn:Ee; simpl in E.
    - destruct (e_value e) as [d|] eqn:Ev.
      + destruct (ed_elf d) as [y|] eqn:Ed.
        * injection E as <-. eapply PoElf; eauto.
        * destruct (ed_dwarf d) as [y|] eqn:Ew; [|discriminate]. injection E as <-. simpl. eapply PoDwarf; eauto.
      + destruct (w_elf_parse w (e_file e) r) as [P|] eqn:Ep; [|discriminate]. injection E as <-. simpl. eapply PoOpen; eauto.
    - destruct (fs_open (w_fs w) p) as [f|] eqn:Ef; [|discriminate].
      destruct (w_elf_parse w f r) as [P|] eqn:Ep; [|discriminate]. injection E as <-. simpl. eapply PoNew; eauto.
  Qed.
  Lemma nested_path : forall (w : world) P q, nested w P q -> debug_path w P q.
  Proof. intros w P q [[sum H]|H]; [eapply DpLink; eauto|now apply DpPackage]. Qed.

  Variables (m : mode) (cf : config) (w : world) (p : pid) (o : popts) (es : list maps_entry) (s0 : state).
  Hypothesis Hset : settled w p o es s0.

  Definition targets (archive : bool) (q r : path) : Prop := exists e, In e es /\ target_paths archive o e q r.

  Record joint (s : state) : Prop := Joint {
    j_elf : Inv (s_elf s);
    j_unamb : unambiguous (looked_up w o es s0) w (s_elf s);
    j_debug : po_debug o = true -> debug_ok (targets false) (looked_up w o es s0) w (s_elf s);
    j_apk : Inv (s_apk s);
    j_apk_unamb : apk_unambiguous (targets true) w (s_apk s);
    j_perf : Inv (s_perf s)
  }.
  Lemma settled_joint : state_ok s0 -> joint s0.
  Proof.
    intros H. assert (Hu : unambiguous (looked_up w o es s0) w (s_elf s0)).
    { intros q r q' r' mt L L' E E'. rewrite <- file_at_emeta in E, E'. eapply (se_elf _ _ _ _ _ Hset); eauto. }
    constructor; try apply H; auto.
    - intros Hd. constructor; auto; try apply H.
      + intros q r (e & He & Ht). eapply LuEntry; eauto.
      + intros q r x q' (e & He & Ht) Hx Hn. apply parser_of_view in Hx. apply nested_path in Hn. split.
        * eapply LuDebug; eauto.
        * intros p' r' mt (e' & He' & Ht') Em. rewrite <- file_at_emeta in Em. rewrite <- file_at_emeta.
          exact (se_debug _ _ _ _ _ Hset Hd e q r (er_parser x) q' e' p' r' mt He Ht Hx Hn He' Ht' Em).
    - intros q r q' r' mt (e & He & Ht) (e' & He' & Ht') E E'. rewrite <- file_at_emeta in E, E'.
      eapply (se_apk _ _ _ _ _ Hset) with (e := e) (e' := e'); eauto.
  Qed.

  (** ** Views of the state *)
  Definition elf_view q r (s : state) : res (elf_res Parser) :=
    if po_debug o then debug_view w q r (s_elf s) else none_view w q r (s_elf s).
  Definition perf_view (s : state) : res (option resolver) :=
    match efile (w_fs w) (perf_path cf p) (s_perf s) with
    | Bad ENotFound => Ok None
    | _ => let* r := file_view w (w_perf_map w) (perf_path cf p) (s_perf s) in Ok (Some r)
    end.
  Definition vdso_view (e : maps_entry) (s : state) : res resolver :=
    match s_vdso s with Some r => Ok r | None => create_vdso_parser w p (me_start e) (me_end e) end.
  Definition dispatch_view (e : maps_entry) (name : path_name) (s : state) : res (option resolver) :=
    match w_dispatch w with
    | None => Ok None
    | Some d =>
        match aget path_name_eqb name (s_process s) with
        | Some r => Ok r
        | None => of_outcome (d (me_start e) (me_end e) name)
        end
    end.
  Definition default_view (a off : N) (e : maps_entry) (s : state) : res symbolized :=
    match me_path e with
    | Some (PPath maps_file symbolic) =>
        let actual := path_of (if po_map_files o then maps_file else symbolic) in
        if is_archive symbolic then
          let* x := apk_view m w actual (path_of symbolic) (po_debug o) off (s_apk s) in
          match x with
          | Some (r, addr) => with_resolver m cf addr r
          | None => Ok (Unknown InvalidFileOffset)
          end
        else
          let* x := elf_view actual (path_of symbolic) s in translated m cf off (er_resolver x)
    | Some (PComponent component) =>
        if po_vdso o && beq component str_vdso then let* r := vdso_view e s in translated m cf off r
        else Ok (Unknown Unsupported)
    | None =>
        if po_perf_map o then
          let* r := perf_view s in
          match r with Some r => with_resolver m cf a r | None => Ok (Unknown UnknownAddr) end
        else Ok (Unknown UnknownAddr)
    end.
  Definition entry_view (a : N) (e : maps_entry) (s : state) : res symbolized :=
    let* off := (let* d := sub64 m a (me_start e) in add64 m d (me_offset e)) in
    match me_path e with
    | Some name =>
        let* r := dispatch_view e name s in
        match r with Some r => translated m cf off r | None => default_view a off e s end
    | None => default_view a off e s
    end.

  Record same (s s' : state) : Prop := Same {
    sm_joint : joint s';
    sm_elf : forall q r, targets false q r -> elf_view q r s' = elf_view q r s;
    sm_apk : forall q r off, targets true q r ->
      apk_view m w q r (po_debug o) off (s_apk s') = apk_view m w q r (po_debug o) off (s_apk s);
    sm_perf : perf_view s' = perf_view s;
    sm_vdso : forall e, In e es -> me_path e = Some (PComponent str_vdso) -> vdso_view e s' = vdso_view e s;
    sm_dispatch : forall e name, In e es -> me_path e = Some name -> dispatch_view e name s' = dispatch_view e name s
  }.
  Lemma same_refl : forall s, joint s -> same s s.
  Proof. intros s H. constructor; auto. Qed.
  Lemma same_trans : forall s1 s2 s3, same s1 s2 -> same s2 s3 -> same s1 s3.
  Proof.
    intros s1 s2 s3 [J1 E1 A1 P1 V1 D1] [J2 E2 A2 P2 V2 D2]. constructor; auto; intros.
    - rewrite E2; auto.
    - rewrite A2; auto.
    - congruence.
    - rewrite V2; auto.
    - rewrite D2; auto.
  Qed.
  Lemma same_default : forall s s' a off e, In e es -> same s s' -> default_view a off e s' = default_view a off e s.
  Proof.
    intros s s' a off e He [J E A P V D]. unfold default_view. destruct (me_path e) as [[mf sym|comp]|] eqn:Ep.
    - destruct (is_archive sym) eqn:Ea.
      + rewrite A; auto. exists e. split; auto. exists mf, sym. auto.
      + rewrite E; auto. exists e. split; auto. exists mf, sym. auto.
    - destruct (po_vdso o); auto. simpl. destruct (beq comp str_vdso) eqn:Ec; auto.
      apply beq_eq in Ec. subst. rewrite V; auto.
    - rewrite P. auto.
  Qed.
  Lemma same_entry : forall s s' a e, In e es -> same s s' -> entry_view a e s' = entry_view a e s.
  Proof.
    intros s s' a e He S. unfold entry_view. destruct (let* d := sub64 m a (me_start e) in add64 m d (me_offset e)) as [off|k| |]; simpl; auto.
    destruct (me_path e) as [name|] eqn:Ep; [|now apply same_default].
    rewrite (sm_dispatch _ _ S e name He Ep). destruct (dispatch_view e name s) as [[r|]|k| |]; simpl; auto.
    now apply same_default.
  Qed.

  (** ** Steps *)
  Lemma elf_step : forall s q r, joint s -> targets false q r ->
    let '(x, s') := on_elf (elf_resolver w q r (po_debug o)) s in x = elf_view q r s /\ same s s'.
  Proof.
    intros s q r J Ht. assert (Hl : forall q r, targets false q r -> looked_up w o es s0 q r).
    { intros q1 r1 (e & He & H1). eapply LuEntry; eauto. }
    unfold on_elf, elf_view, elf_resolver. destruct (po_debug o) eqn:Ed.
    - pose proof (j_debug s J Ed) as Jd.
      pose proof (elf_debug_ok _ _ w q r (s_elf s) Jd Ht) as V. destruct (elf_debug w q r (s_elf s)) as [x c].
      destruct V as (-> & I & M & A & N1 & D1). split; auto. constructor; auto; simpl.
      + constructor; simpl; try apply J; auto.
        * eapply unambiguous_same; eauto. apply J.
        * intros _. eapply debug_ok_same; eauto.
      + intros q' r' H. unfold elf_view. rewrite Ed. now apply D1.
    - pose proof (elf_none_ok w q r (s_elf s) (j_elf s J)) as V.
      pose proof (fun q' r' => none_keeps_none _ w q r q' r' (s_elf s) (j_elf s J) (j_unamb s J) (Hl _ _ Ht)) as K.
      destruct (elf_none w q r (s_elf s)) as [x c]. cbn [snd] in K.
      destruct V as (-> & I & M & A & _). split; auto. constructor; auto; simpl.
      + constructor; simpl; try apply J; auto; try congruence. eapply unambiguous_same; eauto. apply J.
      + intros q' r' H. unfold elf_view. rewrite Ed. apply K. auto.
  Qed.
  Lemma apk_step : forall s q r off, joint s -> targets true q r ->
    let '(x, s') := on_apk (apk_resolver m w q r off (po_debug o)) s in
    x = apk_view m w q r (po_debug o) off (s_apk s) /\ same s s'.
  Proof.
    intros s q r off J Ht. unfold on_apk.
    pose proof (apk_resolver_ok m w q r off (po_debug o) (s_apk s) (j_apk s J)) as V.
    pose proof (fun q' r' off' => apk_keeps _ m w q r off q' r' off' (po_debug o) (s_apk s) (j_apk s J) (j_apk_unamb s J) Ht) as K.
    destruct (apk_resolver m w q r off (po_debug o) (s_apk s)) as [x c]. cbn [snd] in K.
    destruct V as (-> & I & M & _). split; auto. constructor; auto; simpl.
    constructor; simpl; try apply J; auto. eapply apk_unambiguous_same; eauto. apply J.
  Qed.
  Lemma perf_step : forall s, joint s ->
    let '(x, s') := on_perf (perf_map_resolver cf w p) s in x = perf_view s /\ same s s'.
  Proof.
    intros s J. unfold on_perf. pose proof (perf_inv cf w p (s_perf s) (j_perf s J)) as I1. revert I1.
    rewrite perf_map_as_file by apply J.
    pose proof (file_resolver_ok w (w_perf_map w) (perf_path cf p) (s_perf s) (j_perf s J)) as V.
    assert (F : forall c', Inv c' ->
      efile (w_fs w) (perf_path cf p) c' =
        match efile (w_fs w) (perf_path cf p) (s_perf s) with
        | Good (mt, f, v) => Good (mt, f, match v with
            | Some x => Some x
            | None => match w_perf_map w f (perf_path cf p) with Good x => Some x | Bad _ => None end end)
        | Bad k => Bad k
        end -> same s (set_perf c' s)).
    { intros c' I E. constructor; auto; simpl.
      - constructor; simpl; try apply J; auto.
      - unfold perf_view, file_view. simpl. rewrite E. destruct (efile (w_fs w) (perf_path cf p) (s_perf s)) as [[[mt f] v]|k]; auto.
        destruct v; auto. destruct (w_perf_map w f (perf_path cf p)) eqn:Ep; auto. }
    unfold perf_view. destruct (file_resolver w (w_perf_map w) (perf_path cf p) (s_perf s)) as [x c].
    destruct V as (-> & I & _ & _ & _ & E). specialize (F c I E).
    assert (S0 : same s (set_perf (s_perf s) s)).
    { apply same_trans with s; [now apply same_refl|]. constructor; auto. constructor; try apply J. }
    assert (G : forall v : res resolver,
      let '(x, s') := let '(r, c) := then_ (v, c) (fun r z => (Ok (Some r), z)) in (r, set_perf c s) in
      x = (let* r := v in Ok (Some r)) /\ same s s').
    { intros [y|k| |]; cbn [then_ bind]; auto. }
    intros _. specialize (G (file_view w (w_perf_map w) (perf_path cf p) (s_perf s))).
    destruct (efile (w_fs w) (perf_path cf p) (s_perf s)) as [y|k]; auto. destruct k; auto.
  Qed.
  Lemma vdso_step : forall s e, joint s -> In e es -> me_path e = Some (PComponent str_vdso) ->
    let '(x, s') := vdso_parser w p (me_start e) (me_end e) s in x = vdso_view e s /\ same s s'.
  Proof.
    intros s e J He Ep. unfold vdso_parser, get_or_try_init, vdso_view. destruct (s_vdso s) as [r|] eqn:Es.
    - split; auto. constructor; auto; simpl; [constructor; simpl; apply J|]. intros e' He' Ep'. unfold vdso_view. simpl. now rewrite Es.
    - destruct (create_vdso_parser w p (me_start e) (me_end e)) as [r|k| |] eqn:Ew; simpl; (split; [reflexivity|]);
        (constructor; auto; simpl; [constructor; simpl; apply J|]); intros e' He' Ep'; unfold vdso_view; simpl; rewrite Es; auto.
      rewrite <- Ew. destruct p; auto. simpl. now rewrite (se_vdso _ _ _ _ _ Hset eq_refl e' e).
  Qed.
  Lemma path_name_eqb_spec : forall a b, reflect (a = b) (path_name_eqb a b).
  Proof.
    intros a b. destruct (path_name_eqb a b) eqn:E; constructor.
    - destruct a, b; simpl in E; try discriminate.
      + apply andb_true_iff in E. destruct E as [E1 E2]. apply beq_eq in E1, E2. congruence.
      + apply beq_eq in E. congruence.
    - intros ->. destruct b as [mf sy|n]; simpl in E; rewrite ?(proj2 (beq_eq _ _) eq_refl) in E; discriminate.
  Qed.
  Lemma dispatch_step : forall s e name, joint s -> In e es -> me_path e = Some name ->
    let '(x, s') := dispatch_resolver w (me_start e) (me_end e) name s in x = dispatch_view e name s /\ same s s'.
  Proof.
    intros s e name J He Ep. unfold dispatch_resolver, dispatch_view. destruct (w_dispatch w) as [d|] eqn:Ed; [|split; auto; now apply same_refl].
    destruct (aget path_name_eqb name (s_process s)) as [r|] eqn:Ea; [split; auto; now apply same_refl|].
    destruct (d (me_start e) (me_end e) name) as [r|k] eqn:En; [|split; auto; now apply same_refl].
    split; auto. constructor; auto; simpl; [constructor; simpl; apply J|].
    intros e' name' He' Ep'. unfold dispatch_view. rewrite Ed. simpl.
    destruct (path_name_eqb_spec name' name) as [->|Hne].
    - rewrite (aget_aset_eq _ path_name_eqb_spec), Ea. rewrite (se_dispatch _ _ _ _ _ Hset d e' e name) by auto. now rewrite En.
    - now rewrite (aget_aset_neq _ path_name_eqb_spec).
  Qed.

  (** ** The handler *)
  Definition delivers (v : res symbolized) (h : hstate) (rh : res unit * hstate) : Prop :=
    same (hs_state h) (hs_state (snd rh)) /\
    match v with
    | Ok x => fst rh = Ok tt /\ hs_syms (snd rh) = hs_syms h ++ [x]
    | Err k => fst rh = Err k
    | Panic => fst rh = Panic
    | NoFuel => fst rh = NoFuel
    end.
  Lemma delivers_push_sym : forall a r h, joint (hs_state h) ->
    delivers (with_resolver m cf a r) h (push_sym m cf a r h).
  Proof.
    intros a r h J. unfold push_sym. pose proof (same_refl _ J) as R.
    destruct (with_resolver m cf a r) as [x|k| |]; split; simpl; auto.
  Qed.
  Lemma delivers_unknown : forall r h, joint (hs_state h) -> delivers (Ok (Unknown r)) h (push_unknown r h).
  Proof. intros r h J. split; simpl; auto. now apply same_refl. Qed.
  Lemma delivers_translated : forall off r h, joint (hs_state h) ->
    delivers (translated m cf off r) h (push_translated m cf off r h).
  Proof.
    intros off r h J. unfold push_translated, translated. pose proof (same_refl _ J) as R.
    destruct (r_virt r off) as [[a|]|k| |]; cbn [then_ bind].
    - now apply delivers_push_sym.
    - now apply delivers_unknown.
    - split; auto.
    - split; auto.
    - split; auto.
  Qed.
  Lemma delivers_state : forall A (f : state -> res A * state) v (g : A -> hstate -> res unit * hstate) gv h,
    (let '(x, s') := f (hs_state h) in x = v /\ same (hs_state h) s') ->
    (forall x h', same (hs_state h) (hs_state h') -> delivers (gv x) h' (g x h')) ->
    delivers (bind v gv) h (then_ (on_state f h) g).
  Proof.
    intros A f v g gv h Hf Hg. unfold on_state. destruct (f (hs_state h)) as [x s']. destruct Hf as [-> S].
    destruct v as [x|k| |]; cbn [then_ bind]; try (split; auto; fail).
    specialize (Hg x (HState (hs_syms h) s') S). destruct Hg as [S' D].
    split; auto. eapply same_trans; eauto.
  Qed.
  Lemma delivers_default : forall a off e h, In e es -> joint (hs_state h) ->
    delivers (default_view a off e (hs_state h)) h (handle_default m cf w p o a off e h).
  Proof.
    intros a off e h He J. unfold handle_default, default_view. destruct (me_path e) as [[mf sym|comp]|] eqn:Ep.
    - fold (is_archive sym). destruct (is_archive sym) eqn:Ea.
      + unfold handle_apk_addr. apply delivers_state.
        * apply apk_step; auto. exists e. split; auto. exists mf, sym. auto.
        * intros [[r addr]|] h' S; [apply delivers_push_sym|apply delivers_unknown]; apply S.
      + unfold handle_elf_addr. apply delivers_state.
        * apply elf_step; auto. exists e. split; auto. exists mf, sym. auto.
        * intros x h' S. apply delivers_translated, S.
    - destruct (po_vdso o); simpl; [|now apply delivers_unknown].
      destruct (beq comp str_vdso) eqn:Ec; [|now apply delivers_unknown].
      apply beq_eq in Ec. subst. unfold handle_vdso_addr. apply delivers_state.
      + now apply vdso_step.
      + intros x h' S. apply delivers_translated, S.
    - destruct (po_perf_map o); [|now apply delivers_unknown]. unfold handle_perf_map_addr. apply delivers_state.
      + now apply perf_step.
      + intros [r|] h' S; [apply delivers_push_sym|apply delivers_unknown]; apply S.
  Qed.
  Lemma delivers_entry : forall a e h, In e es -> joint (hs_state h) ->
    delivers (entry_view a e (hs_state h)) h (handle_entry m cf w p o a e h).
  Proof.
    intros a e h He J. unfold handle_entry, entry_view. pose proof (same_refl _ J) as R.
    destruct (let* d := sub64 m a (me_start e) in add64 m d (me_offset e)) as [off|k| |]; cbn [then_ bind]; try (split; auto; fail).
    destruct (me_path e) as [name|] eqn:Ep; [|now apply delivers_default].
    apply delivers_state; [now apply dispatch_step|]. intros [r|] h' S.
    - apply delivers_translated, S.
    - rewrite <- (same_default _ _ a off e He S). apply delivers_default; auto. apply S.
  Qed.

  (** ** The pass over addresses *)
  Definition one (a : N) (s : state) : res symbolized :=
    match lookup es a with Some e => entry_view a e s | None => Ok (Unknown Unmapped) end.
  Fixpoint all (addrs : list N) (s : state) : res (list symbolized) :=
    match addrs with
    | [] => Ok []
    | a :: addrs => let* x := one a s in let* l := all addrs s in Ok (x :: l)
    end.
  Lemma same_one : forall s s' a, same s s' -> one a s' = one a s.
  Proof.
    intros s s' a S. unfold one. destruct (lookup es a) as [e|] eqn:E; auto. apply same_entry; auto. now apply lookup_some in E.
  Qed.
  Lemma same_all : forall s s' addrs, same s s' -> all addrs s' = all addrs s.
  Proof. intros s s' addrs S. induction addrs as [|a addrs IH]; simpl; auto. now rewrite (same_one s s' a S), IH. Qed.
  Definition passes (v : res (list symbolized)) (h : hstate) (rh : res unit * hstate) : Prop :=
    match v with
    | Ok l => fst rh = Ok tt /\ hs_syms (snd rh) = hs_syms h ++ l
    | Err k => fst rh = Err k
    | Panic => fst rh = Panic
    | NoFuel => fst rh = NoFuel
    end.
  Lemma passes_more : forall x v h h' rh, hs_syms h' = hs_syms h ++ [x] -> passes v h' rh ->
    passes (let* l := v in Ok (x :: l)) h rh.
  Proof.
    intros x v h h' rh E P. destruct v as [l|k| |]; simpl in *; auto. destruct P as [-> P]. split; auto.
    rewrite P, E, <- app_assoc. reflexivity.
  Qed.
  Lemma pass_loop_ok : forall addrs fuel prev e rest h,
    (length rest < fuel)%nat -> disjoint (e :: rest) -> incl (e :: rest) es ->
    (forall a, prev <= a -> lookup (e :: rest) a = lookup es a) -> joint (hs_state h) -> ascending prev addrs ->
    passes (all addrs (hs_state h)) h
      (pass_loop (fun _ r h => push (Unknown r) h) (handle_entry m cf w p o) fuel addrs prev e (map Ok rest) h).
  Proof.
    induction addrs as [|a addrs IH]; intros fuel prev e rest h Hf Hd Hin Hlk J Ha.
    { simpl. split; auto. now rewrite app_nil_r. }
    destruct Ha as [Ha Hs]. cbn [pass_loop all]. destruct (N.ltb_spec a prev); [lia|].
    destruct (find_entry_iter (H:=unit) (fun _ _ h => h) (fun _ _ h => Ok h) rest fuel a e Hf Hd) as (found & e' & rest' & E1 & E2 & E3 & E4 & E5).
    assert (Hin' : incl (e' :: rest') es).
    { clear - E1 Hin. revert fuel e rest E1 Hin. induction fuel as [|fuel IH]; intros e rest E Hin; cbn [find_entry] in E.
      - destruct (me_end e <=? a); [discriminate|]. injection E as _ <- Er.
        replace rest' with rest; auto. clear - Er. revert rest' Er. induction rest as [|x l IH]; intros [|y l'] E; try discriminate; auto.
        injection E as -> E. f_equal. auto.
      - destruct (me_end e <=? a).
        + destruct rest as [|e1 rest]; cbn [map iter_next] in E.
          * injection E as _ <- Er. destruct rest'; [|discriminate]. auto.
          * cbn [bind] in E. apply (IH e1 rest E). intros x Hx. apply Hin. now right.
        + injection E as _ <- Er.
          replace rest' with rest; auto. clear - Er. revert rest' Er. induction rest as [|x l IH]; intros [|y l'] E; try discriminate; auto.
          injection E as -> E. f_equal. auto. }
    rewrite E1. cbn [then_].
    assert (Hlk' : forall a', a <= a' -> lookup (e' :: rest') a' = lookup es a').
    { intros a' Ha'. rewrite E4 by auto. apply Hlk. lia. }
    unfold one. rewrite <- (Hlk' a) by lia.
    assert (Hun : lookup (e' :: rest') a = None -> passes
      (let* x := match lookup (e' :: rest') a with Some e => entry_view a e (hs_state h) | None => Ok (Unknown Unmapped) end in
       let* l := all addrs (hs_state h) in Ok (x :: l)) h
      (pass_loop (fun _ r h => push (Unknown r) h) (handle_entry m cf w p o) fuel addrs a e' (map Ok rest')
         (push (Unknown Unmapped) h))).
    { intros ->. cbn [bind]. apply passes_more with (push (Unknown Unmapped) h); auto.
      apply (IH fuel a e' rest' (push (Unknown Unmapped) h)); auto. lia. }
    destruct found; simpl negb; cbn [orb].
    - destruct (N.ltb_spec a (me_start e')).
      + apply Hun. apply lookup_below. constructor; auto. apply disjoint_cons in E2. destruct E2 as (_ & _ & E2).
        eapply Forall_impl; [|exact E2]. intros v Hv. simpl in Hv. lia.
      + rewrite lookup_hit by lia.
        pose proof (delivers_entry a e' h (Hin' _ (or_introl eq_refl)) J) as D.
        destruct (handle_entry m cf w p o a e' h) as [r h']. destruct D as [S D]. cbn [fst snd] in *.
        destruct (entry_view a e' (hs_state h)) as [x|k| |]; cbn [bind].
        * destruct D as [-> D]. cbn [then_]. apply passes_more with h'; auto. rewrite <- (same_all _ _ addrs S).
          apply IH; auto; [lia|apply S].
        * rewrite D. reflexivity.
        * rewrite D. reflexivity.
        * rewrite D. reflexivity.
    - destruct E5 as [-> E5]. apply Hun. apply lookup_none. intros v [<-|[]]. lia.
  Qed.
  Lemma pass_ok : forall addrs h, disjoint es -> es <> [] -> joint (hs_state h) -> ascending (hd 0 addrs) addrs ->
    passes (all addrs (hs_state h)) h
      (pass (fun _ r h => push (Unknown r) h) (handle_entry m cf w p o) addrs (map Ok es) h).
  Proof.
    intros addrs h Hd Hne J Ha. unfold pass.
    assert (Hes : exists e rest, es = e :: rest) by (clear - Hne; destruct es; eauto; congruence).
    destruct Hes as (e & rest & Ees). replace (map Ok es) with (Ok e :: map Ok rest) by (rewrite Ees; reflexivity).
    cbn [then_]. replace (match addrs with [] => 0 | a :: _ => a end) with (hd 0 addrs) by (destruct addrs; auto).
    apply pass_loop_ok; auto.
    - rewrite map_length. lia.
    - now rewrite <- Ees.
    - rewrite Ees. apply incl_refl.
    - intros. now rewrite Ees.
  Qed.

  (** ** Batches *)
  Lemma all_ok : forall s addrs l, all addrs s = Ok l -> Forall2 (fun a x => one a s = Ok x) addrs l.
  Proof.
    intros s. induction addrs as [|a addrs IH]; intros l E; simpl in E; [injection E as <-; constructor|].
    ib E x E1. ib E l' E2. injection E as <-. constructor; auto.
  Qed.
  Lemma all_fails : forall s addrs, (exists l, all addrs s = Ok l) \/
    exists a, In a addrs /\ match one a s with Ok _ => False | Err k => all addrs s = Err k | Panic => all addrs s = Panic | NoFuel => all addrs s = NoFuel end.
  Proof.
    intros s. induction addrs as [|a addrs IH]; [left; eexists; reflexivity|]. simpl.
    destruct (one a s) as [x|k| |] eqn:E1; cbn [bind]; try (right; exists a; split; [now left|now rewrite E1]).
    destruct IH as [[l ->]|(a' & Hin & H)]; [left; simpl; eauto|]. right. exists a'. split; auto.
    destruct (one a' s); [tauto| | |]; now rewrite H.
  Qed.
  Definition items (s : state) : res (list (res maps_entry)) :=
    match aget pid_eqb p (s_vmas s) with Some es => Ok (map Ok es) | None => of_outcome (w_maps w p) end.

  Lemma user_addrs_ok : forall addrs, state_ok s0 -> uses_vmas w p s0 es -> ordered es -> es <> [] ->
    match fst (user_addrs m cf w p o addrs s0) with
    | Ok l => Forall2 (fun a x => one a s0 = Ok x) addrs l
    | Err k => exists a, In a addrs /\ one a s0 = Err k
    | Panic => exists a, In a addrs /\ one a s0 = Panic
    | NoFuel => exists a, In a addrs /\ one a s0 = NoFuel
    end.
  Proof.
    intros addrs Hok Hu Hord Hne. pose proof (settled_joint Hok) as J. unfold user_addrs.
    assert (Hi : items s0 = Ok (map Ok es)).
    { unfold items. unfold uses_vmas in Hu. destruct (aget pid_eqb p (s_vmas s0)); [now subst|now rewrite Hu]. }
    unfold items in Hi. rewrite Hi. cbn [then_].
    set (vec := isort pair_leb (enumerate addrs)).
    destruct (sorted_elems addrs) as [Hperm Hsort].
    assert (Ha : ascending (hd 0 (map fst vec)) (map fst vec)).
    { apply ascending_sorted; [exact Hsort|]. fold vec. intros a l' ->. simpl. lia. }
    pose proof (pass_ok (map fst vec) (HState [] s0) Hord Hne J Ha) as P. cbn [hs_state] in P.
    assert (Hin : forall a, In a (map fst vec) -> In a addrs).
    { intros a H. eapply Permutation_in; [symmetry; exact Hperm|exact H]. }
    destruct (pass _ _ _ _ _) as [r h]. unfold passes in P. cbn [fst snd hs_syms app] in P.
    destruct (all_fails s0 (map fst vec)) as [[l El]|(a & Hain & Ha')].
    - rewrite El in P. destruct P as [-> P]. apply all_ok in El. cbn [fst bind].
      destruct (with_ordered_elems_ok symbolized (list symbolized) addrs (fun l => l) (fun _ l => l)
                  (fun _ => Ok l) (fun a x => one a s0 = Ok x) l eq_refl El) as (out & Eo & F).
      unfold with_ordered_elems in Eo. cbn [bind] in Eo. fold vec in Eo. rewrite <- P in Eo.
      destruct (reorder (hs_syms h) (map snd vec)); cbn [bind] in Eo; try discriminate. now injection Eo as ->.
    - destruct (one a s0) as [x|k| |] eqn:E1; [tauto| | |]; rewrite Ha' in P; rewrite P; cbn [fst bind]; eauto.
  Qed.
End Process.
