(** * C80: debug information of ELF files, from the contents of files *)

From Verif Require Import Base Util UtilProofs Bytes Maps Sym Frames Elf ElfSpec FileCache FileCacheProofs Symbolizer SymbolizerSpec SymbolizerState
  HistorySpec HistoryProofs SymHistorySpec SymHistory Host HostSpec HostUserSpec HostDebug HostDebugSpec PropHost PropHostUser.
From Verif Require ElfExample PropElf DwarfReadSpec PropDwUnits PropDwSym PropDwLines PropDwRead DebugLink DebugLinkSpec PropDebugLink BuildId BuildIdSpec PropBuildId PropSymHistory PropElf Dwarf DwarfSpec DwarfAnswerSpec DwarfAnswer Search.
Local Open Scope N_scope.
Local Notation length := List.length.

(** ** The places to look at are determined *)
Section Places.
  Import DebugLink DebugLinkSpec.
  Lemma digit_fun : forall c c' n, digit_is c n -> digit_is c' n -> c = c'.
  Proof. unfold digit_is. intros; lia. Qed.
  Lemma hex_fun : forall id s, hex_name id s -> forall s', hex_name id s' -> s = s'.
  Proof.
    induction 1 as [|b a l id s H1 H2 _ IH]; intros s' H; inversion H; subst; auto.
    f_equal; [eapply digit_fun; eauto|]. f_equal; [eapply digit_fun; eauto|auto].
  Qed.
  Lemma nth_ext_opt : forall A (l l' : list A), length l = length l' -> (forall i, (i < length l)%nat -> nth_error l i = nth_error l' i) -> l = l'.
  Proof.
    intros A. induction l as [|a l IH]; intros [|a' l'] E H; try discriminate; auto.
    assert (E0 := H O ltac:(cbn; lia)). injection E0 as ->. f_equal. apply IH; [now injection E|]. intros i Hi. apply (H (S i)). cbn. lia.
  Qed.
  Lemma upwards_fun : forall dir l l', upwards dir l -> upwards dir l' -> l = l'.
  Proof.
    intros [|c dir] l l'; cbn [upwards]; [congruence|]. intros [E1 H1] [E2 H2]. apply nth_ext_opt; [congruence|].
    intros i Hi. rewrite E1 in Hi. rewrite H1, H2 by exact Hi. reflexivity.
  Qed.
  Lemma forall2_fun : forall A B (R : A -> B -> Prop), (forall a b b', R a b -> R a b' -> b = b') ->
    forall l m m', Forall2 R l m -> Forall2 R l m' -> m = m'.
  Proof. intros A B R HR l m m' H. revert m'. induction H; intros m' H'; inversion H'; subst; auto. f_equal; eauto. Qed.
  Lemma documented_fun : forall dirs linker name id l l', documented dirs linker name id l -> documented dirs linker name id l' -> l = l'.
  Proof.
    intros dirs linker name id l l' (a1 & a2 & a3 & -> & A1 & A2 & A3) (b1 & b2 & b3 & -> & B1 & B2 & B3). f_equal; [|f_equal].
    - destruct id as [id|]; [|congruence]. destruct (nlen id <? 8); [congruence|].
      destruct A1 as (p & -> & i1 & i2 & i3 & i4 & E1 & X1 & X2 & ->), B1 as (q & -> & j1 & j2 & j3 & j4 & E2 & Y1 & Y2 & ->).
      rewrite E1 in E2. injection E2 as <- <-. now rewrite (hex_fun _ _ X1 _ Y1), (hex_fun _ _ X2 _ Y2).
    - eapply forall2_fun; [|exact A2|exact B2]. cbn. congruence.
    - destruct linker as [[dir file]|]; [|congruence].
      destruct A3 as (ups & ls & U1 & F1 & ->), B3 as (ups' & ls' & U2 & F2 & ->). rewrite (upwards_fun _ _ _ U1 U2) in F1.
      f_equal. f_equal. eapply forall2_fun; [|exact F1|exact F2]. cbn. intros a b b' G1 G2. eapply forall2_fun; [|exact G1|exact G2]. cbn. congruence.
  Qed.
  Lemma without_fun : forall x l m, without x l m -> forall m', without x l m' -> m = m'.
  Proof. induction 1; intros m' H'; inversion H'; subst; auto; try congruence. f_equal. auto. Qed.
End Places.

Section Debug.
  Context (x : ext) (m : mode) (pick : N -> N -> N) (d : debug_env) (rest : world (N * list N) parser) (h : host) (cf : config).
  Notation w := (host_world x m pick (debug_rest x m d h rest) h).

  (** ** Links *)
  Lemma id_at_ok : forall q id, id_at h q id -> build_id_at x m h q = id.
  Proof.
    intros q id [k E|ptr data e l E He Hn Hg]; unfold build_id_at; rewrite E; [reflexivity|].
    now rewrite (PropBuildId.C31_first x m ptr data e l He Hn Hg).
  Qed.
  Lemma searched_ok : forall p name l, searched d h p name l -> DebugLinkSpec.plain name ->
    DebugLink.candidates (DebugLink.debug_iter (link_fs x m d h) (DebugLink.parse_path name) (Some (DebugLink.parse_path p))
      (map DebugLink.parse_path (de_dirs d))) = Ok l.
  Proof.
    intros p name l (dir & file & id & all & E & Hd & Hf & Hid & Hb & Hdoc & Hw) Hn.
    rewrite PropDebugLink.C41_linking. cbn [link_fs DebugLink.fs_canonical DebugLink.fs_build_id]. rewrite E.
    rewrite (id_at_ok _ _ Hid).
    destruct (PropDebugLink.C41_order (map DebugLink.parse_path (de_dirs d)) (Some (dir, file)) name id Hn) as (l1 & l2 & H1 & H2 & H3).
    - intros dir' file' E'. injection E' as <- <-. auto.
    - exact Hb.
    - cbn [PropDebugLink.linker_of] in H2, H3. rewrite (documented_fun _ _ _ _ _ _ H1 Hdoc) in H2. rewrite (without_fun _ _ _ H2 _ Hw) in H3. exact H3.
  Qed.
  Lemma exists_iff : forall q, exists_ h q = true <-> present h q.
  Proof. intros q. unfold exists_, present. destruct (h_stat h (path_of (render q))) as [mt|k]; split; intros H; eauto; try discriminate. destruct H; discriminate. Qed.
  Lemma not_exists : forall q, ~ present h q -> exists_ h q = false.
  Proof. intros q H. rewrite <- exists_iff in H. now destruct (exists_ h q). Qed.
  Lemma find_ok : forall p name l, searched d h p name l -> DebugLinkSpec.plain name ->
    DebugLink.find_debug_file (link_fs x m d h) (DebugLink.parse_path name) (Some (DebugLink.parse_path p)) (map DebugLink.parse_path (de_dirs d)) =
    Ok (find (exists_ h) l).
  Proof.
    intros p name l Hs Hn. pose proof (searched_ok p name l Hs Hn) as E.
    destruct (PropDebugLink.C41_first (link_fs x m d h) (DebugLink.parse_path name) (Some (DebugLink.parse_path p)) (map DebugLink.parse_path (de_dirs d)))
      as (l' & E' & H). rewrite E in E'. injection E' as <-. cbn [link_fs DebugLink.fs_exists] in H.
    assert (Hno : forall l, Forall (fun q => exists_ h q = false) l -> forall r, find (exists_ h) (l ++ r) = find (exists_ h) r).
    { induction 1 as [|q l0 Hq _ IH]; intros r; cbn [app find]; [reflexivity|]. rewrite Hq. apply IH. }
    destruct H as [[-> H]|(pre & q & post & -> & -> & Hq & H)].
    - f_equal. specialize (Hno l H []). rewrite app_nil_r in Hno. now rewrite Hno.
    - f_equal. rewrite (Hno _ H). cbn [find]. now rewrite Hq.
  Qed.
  Lemma link_read : forall ptr data e sect name sum, elf_file ptr data e -> link_section_of e sect -> DebugLinkSpec.link_section sect name sum ->
    DebugLink.read_debug_link x m (Mem ptr data) = Ok (Some (name, sum)).
  Proof.
    intros ptr data e sect name sum He (s & E & H1 & H2 & -> & H3) Hl. pose proof (PropDebugLink.C53_file x m ptr data e He) as H.
    rewrite E in H. now apply H.
  Qed.
  Lemma find_first : forall pre q post, Forall (fun q => ~ present h q) pre -> present h q -> find (exists_ h) (pre ++ q :: post) = Some q.
  Proof.
    intros pre q post H Hq. induction H as [|a pre Ha _ IH]; cbn [app find].
    - now rewrite (proj2 (exists_iff q) Hq).
    - now rewrite (not_exists a Ha).
  Qed.
  Lemma file_present : forall q ptr data, file_at h (render q) ptr data -> present h q.
  Proof. intros q ptr data (H & _). exact H. Qed.
  Lemma parsed_at : forall p p' ptr data, is_bytes p -> file_at h p' ptr data -> parsed w (path_of p') (path_of p) = Ok (Parser (Some p) (Mem ptr data)).
  Proof.
    intros p p' ptr data Hb Hf. unfold parsed. rewrite (opened_at x m pick _ h p' ptr data Hf). cbn [bind host_world w_elf_parse elf_from_file of_outcome fst snd].
    now rewrite (unpath_path_of p Hb).
  Qed.
  Notation P p ptr data := (Parser (Some p) (Mem ptr data)).
  Lemma linked_ok : forall p ptr data o, debug_of d h p ptr data o ->
    linked w (P p ptr data) = Ok (match o with Some (q, ptr', data') => Some (P q ptr' data') | None => None end).
  Proof.
    intros p ptr data o [e He En|e sect name sum l He Hs Hl Hn Hse Hno|e sect name sum pre q post ptr' data' He Hs Hl Hn Hse Hno Hb Hf Hc];
      unfold linked; cbn [host_world debug_rest w_link]; unfold link_of; cbn [p_backend p_module option_map].
    - pose proof (PropDebugLink.C53_file x m ptr data e He) as H. rewrite En in H. now rewrite H.
    - rewrite (link_read ptr data e sect name sum He Hs Hl). cbn [bind]. rewrite (find_ok p name l Hse Hn). cbn [bind].
      assert (E : find (exists_ h) l = None).
      { clear - Hno. induction Hno as [|a l Ha _ IH]; [reflexivity|]. cbn [find]. now rewrite (not_exists a Ha). }
      now rewrite E.
    - rewrite (link_read ptr data e sect name sum He Hs Hl). cbn [bind]. rewrite (find_ok p name _ Hse Hn). cbn [bind].
      rewrite (find_first pre q post Hno (file_present q ptr' data' Hf)). cbn [option_map].
      rewrite (parsed_at (render q) (render q) ptr' data' Hb Hf). cbn [bind host_world debug_rest w_crc]. unfold crc_of. cbn [contents p_backend].
      rewrite Hc, N.eqb_refl. reflexivity.
  Qed.
  Lemma linked_error : forall p ptr data k, debug_error d h p ptr data k -> linked w (P p ptr data) = Err k.
  Proof.
    intros p ptr data k [e sect He Hs Hno|e sect name sum pre q post k0 He Hs Hl Hn Hse Hno Hp Ho|e sect name sum pre q post ptr' data' He Hs Hl Hn Hse Hno Hf Hc];
      unfold linked; cbn [host_world debug_rest w_link]; unfold link_of; cbn [p_backend p_module option_map].
    - pose proof (PropDebugLink.C53_file x m ptr data e He) as H. destruct Hs as (s & E & H1 & H2 & -> & H3). rewrite E in H.
      rewrite (proj2 (H H1 H2 H3) Hno). reflexivity.
    - rewrite (link_read ptr data e sect name sum He Hs Hl). cbn [bind]. rewrite (find_ok p name _ Hse Hn). cbn [bind].
      rewrite (find_first pre q post Hno Hp). cbn [option_map]. unfold parsed, opened. cbn [host_world w_fs fs_stat fs_open].
      destruct Hp as (mt & ->). rewrite Ho. reflexivity.
    - rewrite (link_read ptr data e sect name sum He Hs Hl). cbn [bind]. rewrite (find_ok p name _ Hse Hn). cbn [bind].
      rewrite (find_first pre q post Hno (file_present q ptr' data' Hf)). cbn [option_map]. unfold parsed.
      rewrite (opened_at x m pick _ h _ ptr' data' Hf). cbn [bind host_world w_elf_parse elf_from_file of_outcome fst snd debug_rest w_crc].
      unfold crc_of. cbn [contents p_backend]. apply N.eqb_neq in Hc. now rewrite Hc.
  Qed.
  Lemma packaged_ok : forall p ptr data pkg, package_of h p pkg -> exists o, packaged w (P p ptr data) = Ok o /\ option_map contents o = pkg.
  Proof.
    intros p ptr data pkg [E E'|ptr' data' Hf]; unfold packaged; cbn [host_world debug_rest w_dwp]; unfold dwp_of; cbn [p_module option_map].
    - unfold parsed, opened. cbn [host_world w_fs fs_stat fs_open]. rewrite E. exists None. split; reflexivity.
    - unfold parsed. rewrite (opened_at x m pick _ h _ ptr' data' Hf). cbn [bind host_world w_elf_parse elf_from_file of_outcome fst snd].
      eexists. split; reflexivity.
  Qed.
  Definition dwarf_at (p : list N) (ptr : N) (data : list N) (o : option (list N * N * list N)) (us : Dwarf.units) : resolver :=
    let '(q, ptr', data') := symbols_in p ptr data o in dwarf_resolver_of x m d (P p ptr data) (P q ptr' data') us.
  Lemma debug_ok : forall p ptr data o sc us, debugged d h p ptr data o sc -> Dwarf.units_parse m (de_sort d) (de_pick d) sc = Ok us ->
    with_debug w (P p ptr data) = Ok (dwarf_at p ptr data o us).
  Proof.
    intros p ptr data o sc us (Hd & pkg & Hp & Hg) Hu.
    unfold with_debug. rewrite (linked_ok p ptr data o Hd). cbn [bind]. destruct (packaged_ok p ptr data pkg Hp) as (dwp & -> & Ed). cbn [bind].
    cbn [host_world debug_rest w_dwarf]. unfold dwarf_of, dwarf_at. rewrite Ed.
    destruct o as [[[q ptr'] data']|]; cbn [contents p_backend symbols_in] in *; rewrite Hg; cbn [bind]; rewrite Hu; reflexivity.
  Qed.
  Lemma alone_ok : forall p p' ptr data o sc us, is_bytes p -> file_at h p' ptr data -> debugged d h p ptr data o sc ->
    Dwarf.units_parse m (de_sort d) (de_pick d) sc = Ok us -> elf_alone w (path_of p') (path_of p) true = Ok (dwarf_at p ptr data o us).
  Proof.
    intros p p' ptr data o sc us Hb Hf Hd Hu. unfold elf_alone. rewrite (parsed_at p p' ptr data Hb Hf). cbn [bind]. now rewrite (debug_ok p ptr data o sc us Hd Hu).
  Qed.
  Lemma alone_fails : forall p p' ptr data k, is_bytes p -> file_at h p' ptr data -> debug_fails d h p ptr data k ->
    elf_alone w (path_of p') (path_of p) true = Err k.
  Proof.
    intros p p' ptr data k Hb Hf Hd. unfold elf_alone. rewrite (parsed_at p p' ptr data Hb Hf). cbn [bind]. unfold with_debug.
    destruct Hd as [k Hd|o k Hd Hk Hs Ho|o pkg k Hd Hp Hg].
    - now rewrite (linked_error p ptr data k Hd).
    - rewrite (linked_ok p ptr data o Hd). cbn [bind].
      assert (E : packaged w (P p ptr data) = Err k); [|now rewrite E].
      unfold packaged. cbn [host_world debug_rest w_dwp]. unfold dwp_of. cbn [p_module option_map]. unfold parsed, opened. cbn [host_world w_fs fs_stat fs_open].
      destruct Hs as [(mt & ->)| ->]; [rewrite Ho|]; cbn [of_outcome bind]; destruct k; solve [reflexivity|congruence].
    - rewrite (linked_ok p ptr data o Hd). cbn [bind]. destruct (packaged_ok p ptr data pkg Hp) as (dwp & -> & Ed). cbn [bind].
      cbn [host_world debug_rest w_dwarf]. unfold dwarf_of. rewrite Ed.
      destruct o as [[[q ptr'] data']|]; cbn [contents p_backend] in *; rewrite Hg; reflexivity.
  Qed.
  (** The same for members of archives, whose debug information is not
      remembered *)
  Lemma open_at : forall q ptr data, is_bytes q -> file_at h q ptr data -> open_parser h (path_of q) = Ok (P q ptr data).
  Proof. intros q ptr data Hb (_ & E). unfold open_parser. rewrite E. cbn [of_outcome bind elf_from_file fst snd]. now rewrite (unpath_path_of q Hb). Qed.
  Lemma uncached_linked : forall p ptr data o, debug_of d h p ptr data o ->
    uncached_link x m d h (P p ptr data) = Ok (match o with Some (q, ptr', data') => Some (P q ptr' data') | None => None end).
  Proof.
    intros p ptr data o [e He En|e sect name sum l He Hs Hl Hn Hse Hno|e sect name sum pre q post ptr' data' He Hs Hl Hn Hse Hno Hbq Hf Hc];
      unfold uncached_link, link_of; cbn [p_backend p_module option_map].
    - pose proof (PropDebugLink.C53_file x m ptr data e He) as H. rewrite En in H. now rewrite H.
    - rewrite (link_read ptr data e sect name sum He Hs Hl). cbn [bind]. rewrite (find_ok p name l Hse Hn). cbn [bind].
      assert (E : find (exists_ h) l = None).
      { clear - Hno. induction Hno as [|a l Ha _ IH]; [reflexivity|]. cbn [find]. now rewrite (not_exists a Ha). }
      now rewrite E.
    - rewrite (link_read ptr data e sect name sum He Hs Hl). cbn [bind]. rewrite (find_ok p name _ Hse Hn). cbn [bind].
      rewrite (find_first pre q post Hno (file_present q ptr' data' Hf)). cbn [option_map bind].
      rewrite (open_at (render q) ptr' data' Hbq Hf). cbn [bind]. unfold crc_of. cbn [contents p_backend]. now rewrite Hc, N.eqb_refl.
  Qed.
  Lemma uncached_packaged : forall p ptr data pkg, package_of h p pkg -> exists dwp, uncached_dwp h (P p ptr data) = Ok dwp /\ option_map contents dwp = pkg.
  Proof.
    intros p ptr data pkg Hp. unfold uncached_dwp, dwp_of. cbn [p_module option_map]. destruct Hp as [E E'|ptr' data' (E1 & E2)]; unfold open_parser.
    - rewrite E'. exists None. split; reflexivity.
    - rewrite E2. eexists. split; reflexivity.
  Qed.
  Lemma uncached_ok : forall p ptr data o sc us, debugged d h p ptr data o sc -> Dwarf.units_parse m (de_sort d) (de_pick d) sc = Ok us ->
    uncached_dwarf x m d h (P p ptr data) = Ok (dwarf_at p ptr data o us).
  Proof.
    intros p ptr data o sc us (Hd & pkg & Hp & Hg) Hu. unfold uncached_dwarf. rewrite (uncached_linked p ptr data o Hd). cbn [bind].
    destruct (uncached_packaged p ptr data pkg Hp) as (dwp & -> & Ed). cbn [bind]. unfold dwarf_of, dwarf_at. rewrite Ed.
    destruct o as [[[q ptr'] data']|]; cbn [contents p_backend symbols_in] in *; rewrite Hg; cbn [bind]; rewrite Hu; reflexivity.
  Qed.
  Lemma uncached_fails : forall p ptr data k, debug_fails d h p ptr data k -> uncached_dwarf x m d h (P p ptr data) = Err k.
  Proof.
    intros p ptr data k [k0 Hd|o k0 Hd Hk Hs Ho|o pkg k0 Hd Hp Hg]; unfold uncached_dwarf.
    - assert (E : uncached_link x m d h (P p ptr data) = Err k0); [|now rewrite E].
      destruct Hd as [e sect He Hs Hno|e sect name sum pre q post k1 He Hs Hl Hn Hse Hno Hp Ho|e sect name sum pre q post ptr' data' He Hs Hl Hn Hse Hno Hf Hc];
        unfold uncached_link, link_of; cbn [p_backend p_module option_map].
      + pose proof (PropDebugLink.C53_file x m ptr data e He) as H. destruct Hs as (s & E & H1 & H2 & -> & H3). rewrite E in H.
        rewrite (proj2 (H H1 H2 H3) Hno). reflexivity.
      + rewrite (link_read ptr data e sect name sum He Hs Hl). cbn [bind]. rewrite (find_ok p name _ Hse Hn). cbn [bind].
        rewrite (find_first pre q post Hno Hp). cbn [option_map bind]. unfold open_parser. now rewrite Ho.
      + rewrite (link_read ptr data e sect name sum He Hs Hl). cbn [bind]. rewrite (find_ok p name _ Hse Hn). cbn [bind].
        rewrite (find_first pre q post Hno (file_present q ptr' data' Hf)). cbn [option_map bind]. destruct Hf as (_ & Ho). unfold open_parser. rewrite Ho.
        cbn [of_outcome bind elf_from_file fst snd]. unfold crc_of. cbn [contents p_backend]. apply N.eqb_neq in Hc. now rewrite Hc.
    - rewrite (uncached_linked p ptr data o Hd). cbn [bind]. unfold uncached_dwp, dwp_of. cbn [p_module option_map]. unfold open_parser. rewrite Ho.
      cbn [of_outcome bind]. destruct k0; solve [reflexivity|congruence].
    - rewrite (uncached_linked p ptr data o Hd). cbn [bind]. destruct (uncached_packaged p ptr data pkg Hp) as (dwp & -> & Ed). cbn [bind]. unfold dwarf_of. rewrite Ed.
      destruct o as [[[q ptr'] data']|]; cbn [contents p_backend] in *; rewrite Hg; reflexivity.
  Qed.

  (** ** Lookups *)
  Context (Hx : sorts x) (Hsort : Search.sorter_ok (de_sort d)).
  Definition ask (k : kind) (n : N) (r : resolver) : res symbolized :=
    match k with VirtOffset => with_resolver m cf n r | FileOffset => translated m cf n r | AbsAddr => Err EUnsupported end.
  Lemma ask_for : forall p ptr data e o us k n a, elf_file ptr data e -> segments_ok e -> asks_for e k n a ->
    ask k n (dwarf_at p ptr data o us) = with_resolver m cf a (dwarf_at p ptr data o us).
  Proof.
    intros p ptr data e o us k n a He Hs [a0|off s H1 H2 H3]; [reflexivity|]. cbn [ask]. unfold translated, dwarf_at.
    destruct (symbols_in p ptr data o) as [[q ptr'] data']. cbn [dwarf_resolver_of r_virt p_backend].
    destruct (PropElf.C28_to_virt m ptr data e off He Hs) as [(s' & K1 & K2 & ->)|[K1 _]]; [|exfalso; eapply K1; eauto].
    cbn [bind]. now rewrite (H3 s' K1 K2).
  Qed.
  Lemma convert_ok : forall a y, rs_addr y <= a -> convert_sym m cf a y =
    Ok (Sym (cf_demangle cf (rs_name y) (rs_lang y)) (rs_module y) (rs_addr y) (a - rs_addr y) (rs_size y) (rs_code_info y)
          (map (fun f => InlinedFn (cf_demangle cf (if_name f) (rs_lang y)) (if_code_info f)) (rs_inlined y))).
  Proof. intros a y H. unfold convert_sym, sub64. now rewrite usub_small by lia. Qed.
  Lemma symbol_found : forall q ptr' data' e st dt a, elf_program x ptr' data' e st dt ->
    exists z r, elf_find_sym x m (P q ptr' data') a = Ok z /\ elf_answer cf q st dt a r /\
      match z with
      | inl y => exists y', convert_sym m cf a y = Ok y' /\ r = Known y'
      | inr reason => r = Unknown reason
      end.
  Proof.
    intros q ptr' data' e st dt a He. destruct (elf_lookup x m pick cf Hx ptr' data' e st dt q a He) as (r & E & Hr).
    unfold with_resolver in E. cbn [elf_resolver_of r_find] in E. destruct (elf_find_sym x m (P q ptr' data') a) as [z| | |] eqn:Ez; try discriminate.
    cbn [bind] in E. exists z, r. split; auto. split; auto. destruct z as [y|reason]; [|now injection E as <-].
    destruct (convert_sym m cf a y) as [y'| | |] eqn:Ey; try discriminate. injection E as <-. eauto.
  Qed.
  Lemma described : forall p ptr data k n Q, debug_describes x m d h cf p ptr data k n Q ->
    exists o sc us, debugged d h p ptr data o sc /\ Dwarf.units_parse m (de_sort d) (de_pick d) sc = Ok us /\
      exists z, ask k n (dwarf_at p ptr data o us) = Ok z /\ Q z.
  Proof.
    intros p ptr data k n Q [e o us sets hs hd b main t f lo hi a He Hs Ha Hlt (sc & Hd & Hus & Hok) Hu Hf
      |e o us sets hs hd b main t a q ptr' data' e' st dt He Hs Ha Hlt (sc & Hd & Hus & Hok) Hu Hf Ho Hp
      |e o us sets hs a q ptr' data' e' st dt He Hs Ha Hlt (sc & Hd & Hus & Hok) Hu Ho Hp
      |e o us sets hs He Hs -> Hno (sc & Hd & Hus & Hok)]; exists o, sc, us; (split; [exact Hd|split; [exact Hus|]]).
    - rewrite (ask_for p ptr data e o us k n a He Hs Ha). unfold with_resolver, dwarf_at. destruct (symbols_in p ptr data o) as [[q ptr'] data'].
      cbn [dwarf_resolver_of r_find].
      destruct (DwarfAnswer.fn_symbol m (de_sort d) (de_pick d) sc us sets hs a hd b main t Hsort Hus Hok Hlt Hu
        (dresolver_of x m (P p ptr data) (P q ptr' data') us) (cf_opts cf) f lo hi eq_refl Hf) as (y & E & Y1 & Y2 & Y3 & Y4 & Y5 & Y6 & Y7 & Y8 & Y9 & Y10).
      rewrite E. cbn [bind]. destruct Hf as (_ & _ & _ & _ & Hlo & _). rewrite convert_ok by lia. cbn [bind]. eexists. split; [reflexivity|].
      eexists. split; [reflexivity|]. cbn [dresolver_of Dwarf.dr_module p_module] in Y4.
      constructor; cbn [sy_name sy_module sy_addr sy_offset sy_size sy_code_info sy_inlined]; auto.
      + intros s lang Hn Hl. now rewrite (Y1 s Hn), (Y5 lang Hl).
      + now rewrite Y2.
      + intros Hb. now rewrite (Y7 Hb).
      + intros Hr. destruct (Y8 Hr) as [-> ->]. auto.
      + intros Hb q0 row chain lang Hq Hrow Hch Hl. destruct (Y10 Hb q0 row chain Hq Hrow Hch) as (locs & cis & code & F1 & F2 & F3 & F4 & F5).
        exists locs, cis, code. do 3 (split; auto). split; [rewrite map_map; exact F4|]. rewrite map_map. cbn [if_name]. rewrite (Y5 lang Hl).
        clear - F5. revert F5. generalize (rs_inlined y). intros l. revert chain.
        induction l as [|c l IH]; intros chain F; inversion F; subst; cbn [map]; constructor; auto. intros s Hs. f_equal. auto.
    - rewrite (ask_for p ptr data e o us k n a He Hs Ha). unfold with_resolver, dwarf_at. rewrite Ho. cbn [dwarf_resolver_of r_find].
      destruct (symbol_found q ptr' data' e' st dt a Hp) as (z & r & Ez & Hr & Hz).
      destruct (DwarfAnswer.fallback_symbol m (de_sort d) (de_pick d) sc us sets hs a hd b main t Hsort Hus Hok Hlt Hu
        (dresolver_of x m (P p ptr data) (P q ptr' data') us) (cf_opts cf) eq_refl Hf) as (z0 & z' & E0 & E1 & H); [exists z; exact Ez|].
      cbn [dresolver_of Dwarf.dr_find_sym] in E0. rewrite Ez in E0. injection E0 as <-. rewrite E1. cbn [bind].
      destruct z as [y|reason].
      + destruct z' as [y'|]; [|destruct H]. destruct Hz as (y0 & Ey & ->). destruct H as (H1 & H2 & H3 & H4 & H5 & H6 & H7 & H8).
        assert (Ec : convert_sym m cf a y' = Ok (Sym (sy_name y0) (sy_module y0) (sy_addr y0) (sy_offset y0) (sy_size y0) (rs_code_info y')
          (map (fun f => InlinedFn (cf_demangle cf (if_name f) (rs_lang y')) (if_code_info f)) (rs_inlined y')))).
        { unfold convert_sym in Ey |- *. rewrite H1, H2, H3, H4, H5. destruct (sub64 m a (rs_addr y)) as [off| | |]; try discriminate. injection Ey as <-. reflexivity. }
        rewrite Ec. cbn [bind]. eexists. split; [reflexivity|]. exists (Known y0). split; [exact Hr|].
        cbn [plus_code sy_name sy_module sy_addr sy_offset sy_size sy_code_info sy_inlined]. do 5 (split; [reflexivity|]). split.
        * intros Hb. assert (y' = y) by (destruct Hb; auto). subst y'. rewrite Ey in Ec. now injection Ec as Ec.
        * intros Hb q0 row Hq Hrow. destruct (H8 Hb q0 row Hq Hrow) as (-> & code & -> & Hc). split; [reflexivity|]. eauto.
      + rewrite H. exists (Unknown reason). split; [reflexivity|]. exists r. split; [exact Hr|]. subst r. reflexivity.
    - rewrite (ask_for p ptr data e o us k n a He Hs Ha). unfold with_resolver, dwarf_at. rewrite Ho. cbn [dwarf_resolver_of r_find].
      destruct (symbol_found q ptr' data' e' st dt a Hp) as (z & r & Ez & Hr & Hz).
      rewrite (DwarfAnswer.no_unit_symbol m (de_sort d) (de_pick d) sc us sets hs a (dresolver_of x m (P p ptr data) (P q ptr' data') us) (cf_opts cf) Hsort Hus Hok Hlt Hu eq_refl z Ez).
      cbn [bind]. exists r. split; [|exact Hr]. destruct z as [y|reason]; [destruct Hz as (y' & -> & ->); reflexivity|now subst r].
    - eexists. split; [|reflexivity]. cbn [ask]. unfold translated, dwarf_at. destruct (symbols_in p ptr data o) as [[q ptr'] data']. cbn [dwarf_resolver_of r_virt p_backend].
      destruct (PropElf.C28_to_virt m ptr data e n He Hs) as [(s' & K1 & K2 & _)|[_ ->]]; [exfalso; eapply Hno; eauto|]. reflexivity.
  Qed.

  (** ** After any history *)
  Context (Hnd : w_apk_dispatch rest = None) (Hdi : w_dispatch rest = None).
  Lemma fresh_debug : forall H p r, undisturbed H -> worlds H w -> reads_elf H p r true ->
    (let* x := fst (elf_resolver w p r true (s_elf (s_new true))) in Ok (er_resolver x)) = elf_alone w p r true.
  Proof.
    intros H p r U Hw Hr. destruct (elf_resolver w p r true (s_elf (s_new true))) as [y c] eqn:E.
    destruct (elf_resolver_alone (worlds H) _ _ (ud_elf H U) w p r true (s_elf (s_new true)) y c) as [<- _]; auto.
    - eapply AeFile; eauto.
    - apply (g_elf H). apply good_new.
  Qed.
  Lemma fine_skip : forall q q' dbg off mb ms, mb_offset mb + mb_len mb < two64 -> ~ in_mb off mb ->
    apk_find m w q q' dbg off (Good mb :: ms) [] = apk_find m w q q' dbg off ms [].
  Proof.
    intros q q' dbg off mb ms Hl Hn. cbn [apk_find]. unfold add64. rewrite uadd_small by lia. cbn [then_].
    destruct (N.leb_spec (mb_offset mb) off); cbn [andb]; auto. destruct (N.ltb_spec off (mb_offset mb + mb_len mb)); auto.
    exfalso. apply Hn. split; auto.
  Qed.
  Lemma first_member : forall q q' dbg off mb r ms2 ms1, Forall (fine off) ms1 ->
    in_mb off mb -> mb_offset mb + mb_len mb < two64 -> member_resolver w q q' dbg mb = Good r ->
    (let* x := fst (apk_find m w q q' dbg off (ms1 ++ Good mb :: ms2) []) in
     match x with Some (r, addr) => with_resolver m cf addr r | None => Ok (Unknown InvalidFileOffset) end) =
    translated m cf (off - mb_offset mb) r.
  Proof.
    intros q q' dbg off mb r ms2. induction ms1 as [|o ms1 IH]; intros Hf Hi Hl Hm.
    - cbn [app apk_find]. unfold add64. rewrite uadd_small by lia. cbn [then_]. destruct Hi as [H1 H2].
      rewrite (proj2 (N.leb_le _ _) H1), (proj2 (N.ltb_lt _ _) H2). cbn [andb Amap.aget]. rewrite Hm.
      cbn [then_]. unfold sub64. rewrite usub_small by lia. cbn [then_].
      unfold translated. destruct (r_virt _ _) as [[a|]|k| |]; reflexivity.
    - inversion Hf as [|? ? (mb' & -> & L & N') Hf']; subst. cbn [app]. rewrite (fine_skip q q' dbg off mb' _ L N'). apply IH; auto.
  Qed.
  Lemma failing_member : forall q q' dbg off mb e ms2 ms1, Forall (fine off) ms1 ->
    in_mb off mb -> mb_offset mb + mb_len mb < two64 -> member_resolver w q q' dbg mb = Bad e ->
    fst (apk_find m w q q' dbg off (ms1 ++ Good mb :: ms2) []) = Err e.
  Proof.
    intros q q' dbg off mb e ms2. induction ms1 as [|o ms1 IH]; intros Hf Hi Hl Hm.
    - cbn [app apk_find]. unfold add64. rewrite uadd_small by lia. cbn [then_]. destruct Hi as [H1 H2].
      rewrite (proj2 (N.leb_le _ _) H1), (proj2 (N.ltb_lt _ _) H2). cbn [andb Amap.aget]. now rewrite Hm.
    - inversion Hf as [|? ? (mb' & -> & L & N') Hf']; subst. cbn [app]. rewrite (fine_skip q q' dbg off mb' _ L N'). apply IH; auto.
  Qed.
  Lemma debug_member : forall q p ptr data off Q, is_bytes p -> file_at h q ptr data -> debug_archive x m d h cf p ptr data off Q ->
    exists r, (let* x := fst (apk_resolver m w (path_of q) (path_of p) off true (s_apk (s_new true : state (N * list N) parser))) in
               match x with Some (r, addr) => with_resolver m cf addr r | None => Ok (Unknown InvalidFileOffset) end) = Ok r /\ Q r.
  Proof.
    intros q p ptr data off Q Hb Hf [rs1 c rs2 name start contents Q' Ha He Hs Hi Hd|rs Ha He].
    - destruct (archive_members m pick ptr data _ Ha) as (ms & Em & HF). destruct Ha as (_ & Hl & _).
      apply Forall2_app_inv_l in HF. destruct HF as (ms1 & ms2' & HF1 & HF2 & ->). inversion HF2 as [|? o ? ms2 Hc HF2']; subst.
      destruct (Hc _ _ _ Hs) as (-> & Hle). destruct (described _ _ _ _ _ _ Hd) as (o & sc & us & D1 & D2 & z & Ez & Hz). exists z. split; [|exact Hz].
      rewrite PropRemote.apk_fresh, (opened_at x m pick _ h q ptr data Hf). cbn [bind host_world w_archive]. rewrite Em. cbn [of_outcome bind].
      rewrite (first_member (path_of q) (path_of p) true off _ (dwarf_at (PropNormalize.member_path p name) (ptr + start) contents o us) ms2 ms1);
        cbn [mb_offset mb_len]; auto.
      + exact (elsewhere_fine pick ptr data off rs1 ms1 Hl HF1 He).
      + lia.
      + unfold member_resolver, mb_mapped. cbn [mb_mmap host_world debug_rest w_apk_dispatch w_apk_default default_member mb_path]. rewrite Hnd.
        rewrite (unpath_path_of p Hb), PropNormalize.member_path_eq. now rewrite (uncached_ok _ _ _ o sc us D1 D2).
    - exists (Unknown InvalidFileOffset). split; [|reflexivity].
      destruct (archive_members m pick ptr data _ Ha) as (ms & Em & HF). destruct Ha as (_ & Hl & _).
      rewrite PropRemote.apk_fresh, (opened_at x m pick _ h q ptr data Hf). cbn [bind host_world w_archive]. rewrite Em. cbn [of_outcome bind].
      assert (En : fst (apk_find m w (path_of q) (path_of p) true off ms []) = Ok None); [|now rewrite En].
      pose proof (elsewhere_fine pick ptr data off rs ms Hl HF He) as Hfn. clear - Hfn.
      induction Hfn as [|o ms (mb' & -> & L & N') Hf IH]; auto. now rewrite (fine_skip _ _ true off mb' _ L N').
  Qed.
  Lemma answered : forall H src k a Q, undisturbed H -> asked H cf w src -> debug_source x m d h cf src k a Q ->
    exists r, fst (symbolize_single m cf w src k a (s_new true)) = Ok r /\ Q r.
  Proof.
    intros H src k a Q HH Ha HS.
    assert (Hw : worlds H w) by (exists cf, src; exact Ha).
    destruct HS as [p ptr data k n Q Hb Hf Hd|p ptr data off Q Hb Hf Hd|p o vs v a q ptr data Q Hp Hdb Hm Hlt Hq Hb Hf Hd
      |p o vs a Q Hp Hv Hno Hd|src k a Q Hd].
    - destruct (described _ _ _ _ _ _ Hd) as (o & sc & us & D1 & D2 & z & Ez & Hz). exists z. split; [|exact Hz].
      pose proof (fresh_debug H (path_of p) (path_of p) HH Hw ltac:(eapply ReElf; eauto)) as E.
      rewrite (alone_ok p p ptr data o sc us Hb Hf D1 D2) in E.
      unfold symbolize_single. cbn [symbolize_impl]. unfold on_elf. destruct (elf_resolver w (path_of p) (path_of p) true (s_elf (s_new true))) as [y c]. cbn [fst] in E.
      destruct y as [y| | |]; try discriminate. injection E as E. cbn [then_]. rewrite <- E in Ez.
      destruct k; cbn [ask] in Ez; [discriminate| |]; cbn [each]; rewrite Ez; reflexivity.
    - destruct (debug_member p p ptr data off Q Hb Hf Hd) as (z & Ez & Hz). exists z. split; [|exact Hz].
      rewrite PropRemote.apk_single. destruct (apk_resolver m w _ _ _ _ _) as [r0 c0]. exact Ez.
    - destruct (file_entry h v q p Hq) as (f & Ef & Hmf). pose proof (Hf f Hmf) as Hfa. change (if po_map_files o then f else q) with (PropRemote.actual o f q) in Hfa.
      rewrite (in_process x m pick (debug_rest x m d h rest) h cf Hdi true p o vs v a Hp Hm Hlt), Ef, Hdb.
      destruct Hd as [[Hq' Hd]|[Hq' Hd]].
      + rewrite (PropRemote.archive_ext q Hq'). destruct (debug_member (PropRemote.actual o f q) q ptr data _ Q Hb Hfa Hd) as (z & Ez & Hz). exists z. split; [|exact Hz].
        destruct (apk_resolver m w _ _ _ _ _) as [r0 c0]. exact Ez.
      + rewrite (PropRemote.no_archive_ext q Hq'). destruct (described _ _ _ _ _ _ Hd) as (o' & sc & us & D1 & D2 & z & Ez & Hz). exists z. split; [|exact Hz].
        destruct (process_maps x m pick (debug_rest x m d h rest) h p vs Hp) as (Em & _).
        assert (Hsee : sees H w p o (PropNormalize.entry_t (number h p) v)).
        { exists cf, (map Ok (entries_of h p vs)). split; [exact Ha|]. split; [exact Em|]. apply in_map. apply entry_in; apply Hm. }
        assert (Hre : reads_elf H (path_of (PropRemote.actual o f q)) (path_of q) (po_debug o)).
        { eapply ReEntry; [exact Hsee|]. exists f, q. split; [exact Ef|]. split; [exact (PropRemote.no_archive_ext q Hq')|]. split; reflexivity. }
        rewrite Hdb in Hre.
        pose proof (fresh_debug H _ _ HH Hw Hre) as E. rewrite (alone_ok q (PropRemote.actual o f q) ptr data o' sc us Hb Hfa D1 D2) in E.
        destruct (elf_resolver w _ _ true (s_elf (s_new true))) as [y c]. cbn [fst] in E |- *. destruct y as [y| | |]; try discriminate. injection E as E. cbn [bind]. rewrite E. exact Ez.
    - destruct Hd as [v q ptr data P1 H1 H2 H3 H4 H5 _|v start data P1 H1 H2 H3 H4 H5 [e st dt He]|v ptr data es f H1 H2 H3 H4 H5 H6 H7 H8 H9 H10|Hun].
      + destruct (Hno v q H1 H3).
      + eapply C72_vdso; eauto.
      + eexists. split; [eapply C72_perf; eauto|reflexivity].
      + eexists. split; [eapply C72_unmapped; eauto|reflexivity].
    - eapply fresh; eauto.
  Qed.
  Theorem C80_single : forall hist src k a Q, Forall unforced hist -> undisturbed (hist ++ [OSingle m cf w src k a]) ->
    debug_source x m d h cf src k a Q ->
    exists r, fst (symbolize_single m cf w src k a (run hist (s_new true))) = Ok r /\ Q r.
  Proof.
    intros hist src k a Q Hun HH HS. rewrite PropSymHistory.C65_single by auto.
    eapply answered; eauto. right. exists m, k, a. apply in_or_app. right. now left.
  Qed.
  (** Files with debug information are different from those using them. *)
  Lemma settled_debug : forall hist cf' (w' : world (N * list N) parser) p o es, undisturbed hist -> asked hist cf' w' (SProcess p o) ->
    w_maps w' p = Good (map Ok es) -> w_dispatch w' = None -> w_apk_dispatch w' = None -> po_debug o = true -> debug_apart hist -> settled w' p o es (s_new true).
  Proof.
    intros hist cf' w' p o es U Ha Em Hd Hk Hb Hap.
    assert (Hw : worlds hist w') by (exists cf', (SProcess p o); exact Ha).
    assert (Hs : forall e, In e es -> sees hist w' p o e) by (intros e He; exists cf', (map Ok es); split; auto; split; auto; now apply in_map).
    assert (Hre : forall e q r, In e es -> target_paths false o e q r -> reads_elf hist q r true) by (intros e q r He Ht; rewrite <- Hb; eapply ReEntry; eauto).
    assert (Hst : forall q mt, SymbolizerSpec.file_at (w_fs w') (s_elf (s_new true : state (N * list N) parser)) q = Good mt -> fs_stat (w_fs w') q = Good mt).
    { intros q mt E. exact E. }
    assert (Hpa : forall q r P, parser_of w' (s_elf (s_new true)) q r P -> parsed w' q r = Ok P).
    { intros q r P [mt e d0 x0 _ E|mt e d0 x0 _ E|mt e P0 _ E|mt f P0 Es _ Eo Ep]; try discriminate.
      unfold parsed, opened. rewrite (Hst q mt Es). rewrite Eo. cbn [bind of_outcome]. now rewrite Ep. }
    assert (Hdp : forall P q, debug_path w' P q -> debug_file w' P q) by (intros P q [q0 sum E|q0 E]; [eapply DfLink|eapply DfPackage]; eauto).
    constructor.
    - assert (Hl : forall q r, looked_up w' o es (s_new true) q r -> any_elf hist q r).
      { intros q r [e q' r' He Ht|e q' r' P q0 _ He Ht Hp Hq]; [eapply AeFile, Hre; eauto|]. eapply AeDebug; eauto. }
      intros q r q' r' mt H1 H2 E1 E2. exact (la_identified _ _ _ (ud_elf _ U) w' w' q r q' r' mt Hw Hw (Hl _ _ H1) (Hl _ _ H2) E1 E2).
    - intros _ e q r P q0 e' q' r' mt He Ht Hp Hq He' Ht' E E0. exact (Hap w' q r P q0 q' r' mt Hw (Hre _ _ _ He Ht) (Hpa _ _ _ Hp) (Hdp _ _ Hq) (Hre _ _ _ He' Ht') (Hst _ _ E) (Hst _ _ E0)).
    - intros e q r e' q' r' mt He Ht He' Ht' E1 E2.
      assert (R1 : reads_apk hist q r (po_debug o)) by exact (RaEntry _ _ _ _ _ _ _ (Hs e He) Ht).
      assert (R2 : reads_apk hist q' r' (po_debug o)) by exact (RaEntry _ _ _ _ _ _ _ (Hs e' He') Ht').
      destruct (ud_apk _ U w' w' q r (po_debug o) q' r' (po_debug o) mt Hw Hw R1 R2 E1 E2) as (G1 & _ & G2 & _ & _).
      split; auto. split; auto. intros d0 mb E. congruence.
    - intros -> e e' He He' E E'. destruct (ud_vdso _ U) as (image & Hi). destruct (Hi w' Slf o e (Hs e He) E) as (es' & Em' & _ & H).
      assert (es' = es) by (rewrite Em in Em'; injection Em' as Em'; clear - Em'; revert es' Em'; induction es as [|z es IH]; intros [|z' es'] E; try discriminate; auto; injection E as -> E; f_equal; auto).
      subst es'. now rewrite (H e He E), (H e' He' E').
    - intros d0 e e' name E. congruence.
  Qed.
  (** Lists of addresses *)
  Theorem C80_symbolize : forall hist src k addrs Qs, Forall unforced hist -> undisturbed (hist ++ [OSymbolize m cf w src k addrs]) ->
    (is_process src = true -> debug_apart (hist ++ [OSymbolize m cf w src k addrs])) ->
    addrs <> [] -> Forall2 (debug_source x m d h cf src k) addrs Qs ->
    exists rs, fst (symbolize m cf w src k addrs (run hist (s_new true))) = Ok rs /\ Forall2 (fun Q r => Q r) Qs rs.
  Proof.
    intros hist src k addrs Qs Hu HU Hap Hne HF. rewrite PropSymHistory.C65_symbolize by auto. set (H := hist ++ [_]) in *.
    assert (Ha : asked H cf w src) by (left; exists m, k, addrs; apply in_or_app; right; now left).
    assert (Hre : reachable (s_new (File := N * list N) (Parser := parser) true)) by (exists true, []; reflexivity).
    set (single := fun a => fst (symbolize_single m cf w src k a (s_new true))).
    assert (HS : Forall2 (fun a (P : symbolized -> Prop) => exists r, single a = Ok r /\ P r) addrs Qs)
      by (eapply Forall2_impl; [|exact HF]; intros a P HP; eapply answered; eauto).
    assert (Hgood : forall a, In a addrs -> exists r, single a = Ok r).
    { intros a Hi. clear - HS Hi. induction HS as [|a0 P l Ps0 (r & E & _) _ IH]; [easy|]. destruct Hi as [<-|Hi]; eauto. }
    assert (Hsome : exists a, In a addrs) by (destruct addrs as [|a l]; [congruence|exists a; now left]).
    assert (Hend : forall l, Forall2 (fun a z => single a = Ok z) addrs l -> Forall2 (fun (P : symbolized -> Prop) r => P r) Qs l).
    { clear - HS. intros l. revert l. induction HS as [|a P l Ps0 (r & E & H) _ IH]; intros l' Hl; inversion Hl; subst; constructor; auto.
      match goal with E' : single a = Ok ?z |- _ => rewrite E in E'; injection E' as <- end. exact H. }
    assert (G : match fst (symbolize m cf w src k addrs (s_new true)) with Ok l => Forall2 (fun a z => single a = Ok z) addrs l | _ => False end).
    { destruct (is_process src) eqn:Es.
      - destruct addrs as [|a0 al]; [congruence|]. inversion HF as [|? P0 ? ? H0]; subst.
        assert (Hq : exists p o vs, src = SProcess p o /\ k = AbsAddr /\ process h p vs).
        { destruct H0 as [| |p o vs v a q ptr data Q Hp|p o vs a Q Hp|src k a Q [| | | | | |p o vs a0' P0' Hp]]; try discriminate; exists p, o, vs; auto. }
        destruct Hq as (p & o & vs & -> & -> & Hp).
        destruct (process_maps x m pick (debug_rest x m d h rest) h p vs Hp) as (Em & Hw).
        assert (Hset : settled w p o (entries_of h p vs) (s_new true)).
        { destruct (po_debug o) eqn:Ed; [eapply (settled_debug H cf w p o)|eapply (undisturbed_settled H cf w p o)]; eauto. }
        pose proof (PropSymBatch.C43_process m cf w p o (entries_of h p vs) (a0 :: al) (s_new true) Hre Em (proj1 Hw) Hset) as B.
        destruct (fst (symbolize _ _ _ _ _ _ _)) as [l|e| |]; cbn [batch_all] in B.
        + exact B.
        + destruct B as [B|(a & Hi & B)]; [destruct Hsome as (a & Hi); specialize (B a)|]; destruct (Hgood a Hi) as (r & E); unfold single in E; congruence.
        + destruct B as (a & Hi & B). destruct (Hgood a Hi) as (r & E); unfold single in E; congruence.
        + destruct B as (a & Hi & B). destruct (Hgood a Hi) as (r & E); unfold single in E; congruence.
      - pose proof (PropSymBatch.C43_batch m cf w src k addrs (s_new true) Hre Es) as B. fold single in B.
        destruct (fst (symbolize m cf w src k addrs (s_new true))) as [l|e| |]; cbn [batch_agrees] in B.
        + clear - B Hgood. induction B as [|a z al l Hz _ IH]; constructor; [|apply IH; intros; apply Hgood; now right].
          destruct (Hgood a (or_introl eq_refl)) as (r & E). rewrite E in Hz |- *. now inversion Hz.
        + destruct Hsome as (a & Hi). destruct (Hgood a Hi) as (r & E). specialize (B a). congruence.
        + destruct B as [B|(a & Hi & B)]; [destruct Hsome as (a & Hi); specialize (B a)|]; destruct (Hgood a Hi) as (r & E); congruence.
        + destruct B as [B|(a & Hi & B)]; [destruct Hsome as (a & Hi); specialize (B a)|]; destruct (Hgood a Hi) as (r & E); congruence. }
    destruct (fst (symbolize m cf w src k addrs (s_new true))) as [l|e| |]; try easy. exists l. split; auto.
  Qed.
  (** When there is something wrong with debug information nothing is found, not
      even symbols. *)
  Theorem C80_error : forall hist src k n e, Forall unforced hist -> undisturbed (hist ++ [OSingle m cf w src k n]) ->
    failing_source d h src k n e -> fst (symbolize_single m cf w src k n (run hist (s_new true))) = Err e.
  Proof.
    intros hist src k n e Hun HH HF. rewrite PropSymHistory.C65_single by auto. set (H := hist ++ [_]) in *.
    assert (Ha : asked H cf w src) by (right; exists m, k, n; apply in_or_app; right; now left).
    assert (Hw : worlds H w) by (exists cf, src; exact Ha).
    destruct HF as [p ptr data k n e Hb Hf Hd|p ptr data off e rs1 c rs2 name start contents Hb Hf Hz He Hs Hi Hd|p o vs v a q ptr data e Hp Hdb Hm Hlt Hq Hb Hf Hq' Hd].
    - pose proof (fresh_debug H (path_of p) (path_of p) HH Hw ltac:(eapply ReElf; eauto)) as E.
      rewrite (alone_fails p p ptr data e Hb Hf Hd) in E.
      unfold symbolize_single. cbn [symbolize_impl]. unfold on_elf. destruct (elf_resolver w (path_of p) (path_of p) true (s_elf (s_new true))) as [y c]. cbn [fst] in E.
      destruct y as [y|e0| |]; try discriminate. injection E as ->. reflexivity.
    - rewrite PropRemote.apk_single. destruct (archive_members m pick ptr data _ Hz) as (ms & Em & HF). destruct Hz as (_ & Hl & _).
      apply Forall2_app_inv_l in HF. destruct HF as (ms1 & ms2' & HF1 & HF2 & ->). inversion HF2 as [|? o ? ms2 Hc HF2']; subst.
      destruct (Hc _ _ _ Hs) as (-> & Hle).
      assert (E : fst (apk_resolver m w (path_of p) (path_of p) off true (s_apk (s_new true : state (N * list N) parser))) = Err e).
      { rewrite PropRemote.apk_fresh, (opened_at x m pick _ h p ptr data Hf). cbn [bind host_world w_archive]. rewrite Em. cbn [of_outcome bind].
        apply failing_member; cbn [mb_offset mb_len]; auto.
        - exact (elsewhere_fine pick ptr data off rs1 ms1 Hl HF1 He).
        - lia.
        - unfold member_resolver, mb_mapped. cbn [mb_mmap host_world debug_rest w_apk_dispatch w_apk_default default_member mb_path]. rewrite Hnd.
          rewrite (unpath_path_of p Hb), PropNormalize.member_path_eq. now rewrite (uncached_fails _ _ _ _ Hd). }
      destruct (apk_resolver m w _ _ _ _ _) as [r0 c0]. cbn [fst] in E. subst r0. reflexivity.
    - destruct (file_entry h v q p Hq) as (f & Ef & Hmf). pose proof (Hf f Hmf) as Hfa. change (if po_map_files o then f else q) with (PropRemote.actual o f q) in Hfa.
      rewrite (in_process x m pick (debug_rest x m d h rest) h cf Hdi true p o vs v a Hp Hm Hlt), Ef, Hdb.
      rewrite (PropRemote.no_archive_ext q Hq').
      destruct (process_maps x m pick (debug_rest x m d h rest) h p vs Hp) as (Em & _).
      assert (Hsee : sees H w p o (PropNormalize.entry_t (number h p) v)).
      { exists cf, (map Ok (entries_of h p vs)). split; [exact Ha|]. split; [exact Em|]. apply in_map. apply entry_in; apply Hm. }
      assert (Hre : reads_elf H (path_of (PropRemote.actual o f q)) (path_of q) (po_debug o)).
      { eapply ReEntry; [exact Hsee|]. exists f, q. split; [exact Ef|]. split; [exact (PropRemote.no_archive_ext q Hq')|]. split; reflexivity. }
      rewrite Hdb in Hre.
      pose proof (fresh_debug H _ _ HH Hw Hre) as E. rewrite (alone_fails q (PropRemote.actual o f q) ptr data e Hb Hfa Hd) in E.
      destruct (elf_resolver w _ _ true (s_elf (s_new true))) as [y c]. cbn [fst] in E |- *. destruct y as [y|e0| |]; try discriminate. injection E as ->. reflexivity.
  Qed.
End Debug.
Print Assumptions C80_single.
Print Assumptions C80_symbolize.
Print Assumptions C80_error.

(** ** Example: a program, whose debug information is in another file *)
From Coq Require Import String.
Local Close Scope string_scope.
Section Example_.
  Import DwarfAnswerSpec.
  Definition dx_p : list N := PropDebugLink.s_ "/usr/bin/prog"%string.
  Definition dx_q : list N := PropDebugLink.s_ "/lib/debug/prog.debug"%string.
  Definition dx_data : list N := snd PropDebugLink.dl_made.
  Definition dx_files : list (list N * (N * list N)) := [(dx_p, (4096, dx_data)); (dx_q, (4096, PropElf.ex_data))].
  Definition dx_find (p : path) : outcome (list N * (N * list N)) :=
    match find (fun '(q, _) => path_of q =? p) dx_files with Some f => Good f | None => Bad ENotFound end.
  Definition dx_host : host :=
    Host (fun p => match dx_find p with Good _ => Good (FileMeta 1 p 0 0%Z 0%Z) | Bad k => Bad k end)
         (fun p => match dx_find p with Good (_, f) => Good f | Bad k => Bad k end)
         (fun _ => Bad ENotFound) (fun _ _ => []) 42 (fun _ => 8).
  (** Debug information [hs] *)
  Definition dx_env_sum (sum : N) (hs : list Dwarf.uheader) : debug_env :=
    DebugEnv (fun p => DebugLink.Canonical p) (fun _ => sum) (fun _ _ => Ok (Dwarf.Sections (Some []) (Some hs)))
      Search.stable PropDwLines.first [PropDebugLink.s_ "/usr/lib/debug"%string; PropDebugLink.s_ "/lib/debug"%string].
  Definition dx_env := dx_env_sum 67305985.
  Definition dx_w (hs : list Dwarf.uheader) := host_world ElfExample.no_ext Checked (fun _ _ => 0) (debug_rest ElfExample.no_ext Checked (dx_env hs) dx_host ex_rest) dx_host.
  Definition dx_cf : config := Config WithInlined (fun name _ => name) 42.
  Lemma dx_at : file_at dx_host dx_p 4096 dx_data /\ file_at dx_host dx_q 4096 PropElf.ex_data.
  Proof. split; (split; [eexists; vm_compute; reflexivity|vm_compute; reflexivity]). Qed.
  Lemma dx_searched : forall sum hs, exists post, searched (dx_env_sum sum hs) dx_host dx_p (PropDebugLink.s_ "prog.debug"%string)
    ([PropDebugLink.p_ "/usr/lib/debug/prog.debug"%string] ++ PropDebugLink.p_ "/lib/debug/prog.debug"%string :: post) /\
    DebugLinkSpec.plain (PropDebugLink.s_ "prog.debug"%string) /\ ~ present dx_host (PropDebugLink.p_ "/usr/lib/debug/prog.debug"%string) /\
    link_section_of (fst PropDebugLink.dl_made) PropDebugLink.link_data.
  Proof.
    intros sum hs. destruct PropDebugLink.C53_file_example as (He & _).
    assert (Hplain : forall s, existsb (N.eqb 47) (PropDebugLink.s_ s) = false -> PropDebugLink.s_ s <> [] ->
      PropDebugLink.s_ s <> Nom.bs "."%string -> PropDebugLink.s_ s <> Nom.bs ".."%string -> DebugLinkSpec.plain (PropDebugLink.s_ s)).
    { intros s E H1 H2 H3. split; auto. split; auto. intros Hin. assert (existsb (N.eqb 47) (PropDebugLink.s_ s) = true); [|congruence].
      apply existsb_exists. exists 47. split; auto. }
    assert (Hn : DebugLinkSpec.plain (PropDebugLink.s_ "prog.debug"%string)) by (apply Hplain; vm_compute; congruence).
    assert (Hd : Forall DebugLinkSpec.plain [PropDebugLink.s_ "usr"%string; PropDebugLink.s_ "bin"%string])
      by (repeat constructor; apply Hplain; vm_compute; congruence).
    assert (Hf : DebugLinkSpec.plain (PropDebugLink.s_ "prog"%string)) by (apply Hplain; vm_compute; congruence).
    destruct (PropDebugLink.C41_order (map DebugLink.parse_path (de_dirs (dx_env_sum sum hs))) (Some ([PropDebugLink.s_ "usr"%string; PropDebugLink.s_ "bin"%string], PropDebugLink.s_ "prog"%string))
      (PropDebugLink.s_ "prog.debug"%string) None Hn) as (l1 & l2 & H1 & H2 & H3).
    - intros dir file E. injection E as <- <-. auto.
    - discriminate.
    - assert (E3 : exists pre post, l2 = pre ++ PropDebugLink.p_ "/lib/debug/prog.debug"%string :: post /\ pre = [PropDebugLink.p_ "/usr/lib/debug/prog.debug"%string]).
      { vm_compute in H3. injection H3 as <-. eexists [_], _. split; [vm_compute; reflexivity|vm_compute; reflexivity]. }
      destruct E3 as (pre & post & -> & ->). exists post. split; [|split; [exact Hn|split]].
      + exists [PropDebugLink.s_ "usr"%string; PropDebugLink.s_ "bin"%string], (PropDebugLink.s_ "prog"%string), None, l1.
        split; [reflexivity|]. split; [exact Hd|]. split; [exact Hf|]. split.
        * refine (IdNotes _ _ 4096 dx_data _ [] _ He _ _); [vm_compute; reflexivity| |easy].
          exists [[]; []; []; []]. split; [|reflexivity]. repeat (constructor; [reflexivity|]). constructor.
        * split; [discriminate|]. split; [exact H1|exact H2].
      + intros (mt & E). vm_compute in E. discriminate.
      + eexists. split; [vm_compute; reflexivity|]. split; [vm_compute; discriminate|]. split; [reflexivity|]. split; [vm_compute; reflexivity|]. vm_compute. discriminate.
  Qed.
  Lemma dx_debug : forall hs, debug_of (dx_env hs) dx_host dx_p 4096 dx_data (Some (dx_q, 4096, PropElf.ex_data)).
  Proof.
    intros hs. destruct (dx_searched 67305985 hs) as (post & Hs & Hn & Hp & Hl). change dx_q with (render (PropDebugLink.p_ "/lib/debug/prog.debug"%string)).
    refine (DoLink (dx_env hs) dx_host dx_p 4096 dx_data _ PropDebugLink.link_data (PropDebugLink.s_ "prog.debug"%string) 67305985 [PropDebugLink.p_ "/usr/lib/debug/prog.debug"%string] _ post
      4096 PropElf.ex_data (proj1 PropDebugLink.C53_file_example) Hl (proj1 PropDebugLink.C53_example) Hn Hs _ _ _ _).
    - constructor; [exact Hp|constructor].
    - apply Forall_forall. intros b Hb. assert (H : forallb (fun b => b <? 256) (render (PropDebugLink.p_ "/lib/debug/prog.debug"%string)) = true) by reflexivity.
      rewrite forallb_forall in H. apply N.ltb_lt. auto.
    - exact (proj2 dx_at).
    - reflexivity.
  Qed.
  Lemma dx_stale : forall hs, debug_error (dx_env_sum 7 hs) dx_host dx_p 4096 dx_data EInvalidData.
  Proof.
    intros hs. destruct (dx_searched 7 hs) as (post & Hs & Hn & Hp & Hl).
    refine (EbChecksum (dx_env_sum 7 hs) dx_host dx_p 4096 dx_data _ PropDebugLink.link_data (PropDebugLink.s_ "prog.debug"%string) 67305985 [PropDebugLink.p_ "/usr/lib/debug/prog.debug"%string]
      (PropDebugLink.p_ "/lib/debug/prog.debug"%string) post 4096 PropElf.ex_data (proj1 PropDebugLink.C53_file_example) Hl (proj1 PropDebugLink.C53_example) Hn Hs _ (proj2 dx_at) _).
    - constructor; [exact Hp|constructor].
    - discriminate.
  Qed.
  Lemma dx_bytes : is_bytes dx_p.
  Proof.
    apply Forall_forall. intros b Hb. assert (H : forallb (fun b => b <? 256) dx_p = true) by reflexivity. rewrite forallb_forall in H. apply N.ltb_lt. auto.
  Qed.
  Lemma dx_package : package_of dx_host dx_p None.
  Proof. apply PkNone; vm_compute; reflexivity. Qed.
  Lemma dx_wf : forall h, In h PropDwSym.ex_dheaders -> DwarfReadSpec.header_readable h /\ DwarfSpec.unit_wf h.
  Proof.
    intros h [<-|[]].
    assert (Hwf : DwarfSpec.ranges_wf PropDwSym.ex_main (PropDwSym.at_range 4096 16)).
    { split; [|split; [|split]]; try (apply PropDwUnits.unique_short; vm_compute; lia).
      intros lo hi (v & Hv & Hav) (v' & Hv' & Hav'). unfold DwarfSpec.has in *. cbn in Hv, Hv'. PropDwRead.cases_in Hv. PropDwRead.cases_in Hv'. injection Hv as <-. injection Hv' as <-.
      destruct Hav as [E|(i & E & _)]; [injection E as <-|discriminate].
      destruct Hav' as [[E|(i & E & _)]|(n & E & ->)]; [discriminate|discriminate|injection E as <-; reflexivity]. }
    split.
    - intros _ b Hb. injection Hb as <-. exists (PropDwSym.at_range 4096 16). split; [do 4 eexists; reflexivity|]. split; [repeat constructor; discriminate|]. split; [|exact Hwf].
      split; [|split].
      + intros n i [->| ->] Hi; exfalso; unfold DwarfSpec.has in Hi; cbn in Hi; PropDwRead.cases_in Hi.
      + intros o Ho. exfalso. unfold DwarfSpec.has in Ho. cbn in Ho. PropDwRead.cases_in Ho.
      + intros o Ho. exfalso. unfold DwarfSpec.list_of, DwarfSpec.has in Ho. cbn in Ho. PropDwRead.cases_in Ho.
    - intros b attrs Hb (o & tag & ch & s0 & Hs'). injection Hb as <-. injection Hs' as <- <- <- <- <-. exact Hwf.
  Qed.
  Lemma dx_info : info_ok (Dwarf.Sections (Some []) (Some PropDwSym.ex_dheaders)) PropDwSym.ex_dunits [] PropDwSym.ex_dheaders.
  Proof.
    split; [reflexivity|]. split; [reflexivity|]. split; [intros a []|]. split; [exact dx_wf|]. split.
    - split.
      + intros [|[|i]] [|[|j]] h1 h2 o1 o2 Hij H1 H2; try lia; try discriminate.
      + intros h [<-|[]]. reflexivity.
    - exact PropDwRead.ex_readable.
  Qed.
  Lemma dx_functions : forall f r, DwarfSpec.is_function PropDwSym.ex_tree f -> DwarfSpec.declares PropDwSym.ex_main (DwarfSpec.t_attrs f) r ->
    f = PropDwSym.ex_f /\ r = Dwarf.Range 4096 4112.
  Proof.
    intros f r (Hin & Htag) Hd.
    assert (Hno : forall n, ~ DwarfSpec.declares PropDwSym.ex_main [PropDwSym.named_as n] r).
    { intros n [(off & rs & Hl & _)|(_ & lo & hi & (v & Hv & _) & _)]; [unfold DwarfSpec.list_of, DwarfSpec.has in Hl; cbn in Hl; PropDwRead.cases_in Hl|].
      unfold DwarfSpec.has in Hv. cbn in Hv. PropDwRead.cases_in Hv. }
    apply PropDwRead.ex_nodes in Hin. cbn [In] in Hin. destruct Hin as [<-|[<-|[<-|[<-|[<-|[<-|[<-|[<-|[]]]]]]]]]; try discriminate Htag.
    - split; [reflexivity|]. now apply PropDwSym.ex_declares_f.
    - destruct (Hno _ Hd).
    - destruct (Hno _ Hd).
    - destruct (Hno _ Hd).
  Qed.
  Lemma dx_unit : only_unit PropDwSym.ex_dunits [] PropDwSym.ex_dheaders (Dwarf.UHeader (Some 0) Dwarf.KOther 11 100 (Some PropDwSym.ex_main) (Some None))
    PropDwSym.ex_main PropDwSym.ex_main PropDwSym.ex_tree 4101.
  Proof.
    split; [now left|]. split; [reflexivity|]. split; [reflexivity|]. split; [|split; [|split; [|split; [|split]]]].
    - exists (Dwarf.Range 4096 4112). split; [|split; cbn; lia].
      eapply DwarfSpec.RangeDeclared; [reflexivity| |reflexivity|do 4 eexists; reflexivity|].
      + intros r (st & es & len & [] & _).
      + right. split; [intros o Ho; unfold DwarfSpec.list_of, DwarfSpec.has in Ho; cbn in Ho; PropDwRead.cases_in Ho|].
        exists 4096, 4112. split; [exists (Dwarf.VAddr 4096); split; [left; reflexivity|now left]|]. split; [|reflexivity].
        exists (Dwarf.VUdata 16). split; [right; left; reflexivity|]. right. exists 16. auto.
    - intros h' r [<-|[]] _ _. reflexivity.
    - exists 0. split; [reflexivity|]. intros u (_ & E1 & E2). split; [eexists; exact E1|]. right. split; [exact E2|exact E1].
    - exact PropDwSym.ex_good.
    - exact PropDwRead.ex_tree_readable.
    - intros f g r1 r2 Hf Hg H1 H2. left. destruct (dx_functions f r1 Hf H1) as [_ ->], (dx_functions g r2 Hg H2) as [_ ->]. reflexivity.
  Qed.
  Lemma dx_function : only_function PropDwSym.ex_main PropDwSym.ex_tree PropDwSym.ex_f 4096 4112 4101.
  Proof.
    split; [split; [eapply DwarfSpec.InChild; [left; reflexivity|apply DwarfSpec.InHere]|reflexivity]|].
    split; [exists (Dwarf.VAddr 4096); split; [right; left; reflexivity|now left]|].
    split; [exists (Dwarf.VUdata 16); split; [right; right; left; reflexivity|right; exists 16; auto]|].
    split; [intros o Ho; unfold DwarfSpec.list_of, DwarfSpec.has in Ho; cbn in Ho; PropDwRead.cases_in Ho|]. split; [lia|].
    intros f' Hf' (r & Hr & _). exact (proj1 (dx_functions f' r Hf' Hr)).
  Qed.
  Lemma dx_describes : debug_describes ElfExample.no_ext Checked (dx_env PropDwSym.ex_dheaders) dx_host dx_cf dx_p 4096 dx_data VirtOffset 4101
    (fun r => exists y, r = Known y /\ function_answer dx_cf PropDwSym.ex_dunits PropDwSym.ex_main PropDwSym.ex_main 4101 dx_p PropDwSym.ex_f 4096 4112 y).
  Proof.
    refine (DdFunction _ _ _ _ _ _ _ _ _ _ _ _ _ _ _ _ _ _ _ _ _ _ _ (proj1 PropDebugLink.C53_file_example) _ (AskAddr _ _) _ _ dx_unit dx_function).
    - assert (En : i_segments (fst PropDebugLink.dl_made) = []) by (vm_compute; reflexivity). intros s (Hin & _). rewrite En in Hin. destruct Hin.
    - reflexivity.
    - exists (Dwarf.Sections (Some []) (Some PropDwSym.ex_dheaders)). split; [|split; [exact PropDwSym.ex_parsed|exact dx_info]].
      split; [apply dx_debug|]. exists None. split; [exact dx_package|reflexivity].
  Qed.
  Definition asks_prog (hs : list Dwarf.uheader) (o : @SymbolizerSpec.op (N * list N) parser) : Prop :=
    match o with
    | OSymbolize _ _ w src _ _ | OSingle _ _ w src _ _ => w = dx_w hs /\ src = SElf (path_of dx_p) true
    | OEvict _ _ => True
    | OCache _ _ | ORegister _ _ _ => False
    end.
  Lemma dx_asked : forall hs hist cf w src, Forall (asks_prog hs) hist -> asked hist cf w src -> w = dx_w hs /\ src = SElf (path_of dx_p) true.
  Proof. intros hs hist cf w src HF [(m & k & addrs & H)|(m & k & addr & H)]; rewrite Forall_forall in HF; exact (HF _ H). Qed.
  Lemma dx_undisturbed : forall hs hist, Forall (asks_prog hs) hist -> undisturbed hist.
  Proof.
    intros hs hist HF.
    assert (Hw : forall w, worlds hist w -> w = dx_w hs) by (intros w (cf & src & Ha); exact (proj1 (dx_asked _ _ _ _ _ HF Ha))).
    assert (Hst : forall p q mt, fs_stat (w_fs (dx_w hs)) p = Good mt -> fs_stat (w_fs (dx_w hs)) q = Good mt -> p = q).
    { intros p q mt. cbn [dx_w host_world w_fs fs_stat dx_host h_stat]. destruct (dx_find p) as [f|]; [|discriminate]. destruct (dx_find q) as [f'|]; [|discriminate].
      intros [= <-] [= ->]. reflexivity. }
    assert (Hse : forall w p o e, ~ sees hist w p o e).
    { intros w p o e (cf & items & Ha & _). destruct (dx_asked _ _ _ _ _ HF Ha). discriminate. }
    assert (He : forall p r d, reads_elf hist p r d -> p = path_of dx_p /\ r = path_of dx_p).
    { intros p r d [cf w q d0 Ha|w pid o e q r0 Hs Ht]; [|destruct (Hse _ _ _ _ Hs)]. destruct (dx_asked _ _ _ _ _ HF Ha) as (_ & E). injection E as -> _. auto. }
    assert (Hq : forall P q, parsed (dx_w hs) (path_of dx_p) (path_of dx_p) = Ok P -> debug_file (dx_w hs) P q -> q = path_of dx_q \/ q = path_of (dx_p ++ dotdwp)).
    { intros P q Hp. unfold dx_w in Hp. rewrite (parsed_at ElfExample.no_ext Checked _ (dx_env hs) _ dx_host dx_p dx_p 4096 dx_data dx_bytes (proj1 dx_at)) in Hp. injection Hp as <-.
      intros [q0 sum E|q0 E]; [left|right].
      - cbn [dx_w host_world debug_rest w_link] in E.
        assert (E' : link_of ElfExample.no_ext Checked (dx_env []) dx_host (Parser (Some dx_p) (Mem 4096 dx_data)) = Ok (Some (path_of dx_q, 67305985))) by (vm_compute; reflexivity).
        change (link_of ElfExample.no_ext Checked (dx_env hs) dx_host (Parser (Some dx_p) (Mem 4096 dx_data)) = Ok (Some (q0, sum))) in E.
        change (link_of ElfExample.no_ext Checked (dx_env hs) dx_host (Parser (Some dx_p) (Mem 4096 dx_data))) with (link_of ElfExample.no_ext Checked (dx_env []) dx_host (Parser (Some dx_p) (Mem 4096 dx_data))) in E.
        congruence.
      - cbn [dx_w host_world debug_rest w_dwp] in E. unfold dwp_of in E. cbn [p_module option_map] in E. congruence. }
    assert (Hany : forall p r, any_elf hist p r -> r = p).
    { intros p r [p0 r0 d0 H|w p0 r0 P q H _ _ _]; [destruct (He _ _ _ H); congruence|reflexivity]. }
    assert (Hid : forall U : path -> path -> Prop, (forall p r, U p r -> r = p) -> identified (worlds hist) U).
    { intros U HU w w' p r p' r' mt H1 H2 Hp Hp' E E'. rewrite (Hw w H1) in E |- *. rewrite (Hw w' H2) in E' |- *. pose proof (Hst _ _ _ E E'). subst p'.
      rewrite (HU _ _ Hp), (HU _ _ Hp'). auto. }
    constructor.
    - constructor.
      + intros w w' H1 H2. rewrite (Hw w H1), (Hw w' H2). repeat split.
      + apply Hid. exact Hany.
      + intros p r H. exact (AeFile _ _ _ _ H).
      + intros w w' p r p' r' mt P H1 H2 _ _ _ _ _. now rewrite (Hw w H1), (Hw w' H2).
      + intros w p r P q H1 H2 Hp Hd. pose proof (AeDebug _ _ _ _ _ _ H2 H1 Hp Hd) as Hae. split; [exact Hae|]. intros mt E E'.
        rewrite (Hw w H1) in *. pose proof (Hst _ _ _ E E') as Eq. destruct (He _ _ _ H2) as (-> & ->).
        destruct (Hq P q Hp Hd) as [-> | ->]; vm_compute in Eq; discriminate Eq.
    - apply Hid. intros p r (-> & _). reflexivity.
    - apply Hid. intros p r (-> & _). reflexivity.
    - apply Hid. intros p r (-> & _). reflexivity.
    - intros w w' p r d p' r' d' mt H1 H2 R. destruct R as [cf w0 q d0 Ha|w0 pid o e q r0 Hs Ht]; [destruct (dx_asked _ _ _ _ _ HF Ha); discriminate|destruct (Hse _ _ _ _ Hs)].
    - exists ex_none. intros w p o e Hs. destruct (Hse _ _ _ _ Hs).
    - intros w w' p p' o o' e e' name f f' H. destruct (Hse _ _ _ _ H).
  Qed.
  Lemma dx_name : DwarfAnswerSpec.has_name PropDwSym.ex_dunits PropDwSym.ex_main PropDwSym.ex_f (Nom.bs "f"%string) /\ in_language PropDwSym.ex_main LangUnknown.
  Proof.
    split.
    - split.
      + split; [repeat constructor; discriminate|]. intros [|[|[|[|i]]]] [|[|[|[|j]]]] n1 n2 v1 v2 H1 H2 H; auto; try discriminate;
          cbn in H1, H2; injection H1 as <- <-; injection H2 as <- <-; unfold DwarfSpec.is_linkage, DwarfSpec.is_ref in H; intuition discriminate.
      + right. split; [intros s' (n & [->| ->] & Hh); unfold DwarfSpec.has in Hh; cbn in Hh; PropDwRead.cases_in Hh|].
        exists [], Dwarf.AName, (Dwarf.VStr (Some (Nom.bs "f"%string))). eexists. split; [reflexivity|].
        split; [split; intros s'; [intros (n & _ & [])|intros []]|split; [intros v' (n & _ & [])|left; auto]].
    - exists (PropDwSym.at_range 4096 16). split; [do 4 eexists; reflexivity|].
      split; [apply PropDwUnits.unique_short; vm_compute; lia|]. right. split; [|reflexivity]. intros v Hv. unfold DwarfSpec.has in Hv. cbn in Hv. PropDwRead.cases_in Hv.
  Qed.
  (** Found, no matter what was asked before *)
  Example C80_example : forall hist, Forall (asks_prog PropDwSym.ex_dheaders) hist -> exists y,
    fst (symbolize_single Checked dx_cf (dx_w PropDwSym.ex_dheaders) (SElf (path_of dx_p) true) VirtOffset 4101 (run hist (s_new true))) = Ok (Known y) /\
    sy_name y = Nom.bs "f"%string /\ sy_module y = Some dx_p /\ sy_addr y = 4096 /\ sy_offset y = 5 /\ sy_size y = Some 16.
  Proof.
    intros hist HF.
    destruct (C80_single ElfExample.no_ext Checked (fun _ _ => 0) (dx_env PropDwSym.ex_dheaders) ex_rest dx_host dx_cf ElfExample.no_ext_sorts Search.stable_ok eq_refl eq_refl
      hist (SElf (path_of dx_p) true) VirtOffset 4101
      (fun r => exists y, r = Known y /\ function_answer dx_cf PropDwSym.ex_dunits PropDwSym.ex_main PropDwSym.ex_main 4101 dx_p PropDwSym.ex_f 4096 4112 y)) as (r & E & y & -> & H).
    - eapply Forall_impl; [|exact HF]. intros [| | | |]; cbn; auto.
    - apply (dx_undisturbed PropDwSym.ex_dheaders). apply Forall_app. split; [exact HF|]. constructor; [|constructor]. split; reflexivity.
    - exact (DbElf _ _ _ _ _ dx_p 4096 dx_data VirtOffset 4101 _ dx_bytes (proj1 dx_at) dx_describes).
    - exists y. split; [exact E|]. destruct dx_name as (Hn & Hl). split; [exact (fa_name _ _ _ _ _ _ _ _ _ _ H _ _ Hn Hl)|].
      split; [apply (fa_module _ _ _ _ _ _ _ _ _ _ H)|]. split; [apply (fa_addr _ _ _ _ _ _ _ _ _ _ H)|]. split; [apply (fa_offset _ _ _ _ _ _ _ _ _ _ H)|apply (fa_size _ _ _ _ _ _ _ _ _ _ H)].
  Qed.
  Example C80_frames_example :
    (let* r := fst (symbolize_single Checked dx_cf (dx_w PropDwSym.ex_dheaders) (SElf (path_of dx_p) true) VirtOffset 4101 (s_new true)) in
     match r with Known y => Ok (sy_name y, sy_module y, sy_code_info y, sy_inlined y) | Unknown _ => Err EInvalidData end) =
    Ok (Nom.bs "f"%string, Some dx_p, Some (CodeInfo (Some (Nom.bs "/src"%string)) (Nom.bs "main.c"%string) (Some 33) (Some 4)),
      [InlinedFn (Nom.bs "g"%string) (Some (CodeInfo (Some (Nom.bs "/src/include"%string)) (Nom.bs "util.h"%string) (Some 44) (Some 65535)));
       InlinedFn (Nom.bs "h"%string) (Some (CodeInfo (Some (Nom.bs "/src/include"%string)) (Nom.bs "util.h"%string) (Some 7) (Some 9)))]).
  Proof. vm_compute. reflexivity. Qed.

  (** A debug file with another checksum, although there are symbols *)
  Example C80_error_example :
    failing_source (dx_env_sum 7 PropDwSym.ex_dheaders) dx_host (SElf (path_of dx_p) true) VirtOffset 4101 EInvalidData /\
    fst (symbolize_single Checked dx_cf (host_world ElfExample.no_ext Checked (fun _ _ => 0)
      (debug_rest ElfExample.no_ext Checked (dx_env_sum 7 PropDwSym.ex_dheaders) dx_host ex_rest) dx_host) (SElf (path_of dx_p) true) VirtOffset 4101 (s_new true)) = Err EInvalidData.
  Proof.
    split; [|vm_compute; reflexivity]. refine (FsElf _ _ dx_p 4096 dx_data _ _ _ dx_bytes (proj1 dx_at) (DfError _ _ _ _ _ _ (dx_stale _))).
  Qed.

  (** The module is not always the file that was asked for: if the debug
      information says nothing, symbols are those of the file with debug
      information, and so is the module. *)
  Theorem C80_module_refuted : exists x m pick d rest h cf p ptr data q ptr' data' y, sorts x /\ Search.sorter_ok (de_sort d) /\
    file_at h p ptr data /\ debug_of d h p ptr data (Some (q, ptr', data')) /\ p <> q /\
    fst (symbolize_single m cf (host_world x m pick (debug_rest x m d h rest) h) (SElf (path_of p) true) VirtOffset 4098 (s_new true)) = Ok (Known y) /\
    sy_module y = Some q.
  Proof.
    exists ElfExample.no_ext, Checked, (fun _ _ => 0), (dx_env []), ex_rest, dx_host, dx_cf, dx_p, 4096, dx_data, dx_q, 4096, PropElf.ex_data. eexists.
    split; [exact ElfExample.no_ext_sorts|]. split; [exact Search.stable_ok|]. split; [exact (proj1 dx_at)|]. split; [apply dx_debug|]. split; [discriminate|].
    split; [vm_compute; reflexivity|reflexivity].
  Qed.
End Example_.
Print Assumptions C80_module_refuted.
