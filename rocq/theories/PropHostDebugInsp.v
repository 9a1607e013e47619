(** * C81: from debug information to the symbols an inspector reports *)

From Verif Require Import Base Util Sym Inspect Text Elf ElfSpec FileCache Symbolizer HistorySpec Inspector InspectorSpec PropInspector
  Host HostSpec PropHost HostInspSpec PropHostInsp HostDebug HostDebugSpec PropHostDebug HostDebugInspSpec.
From Verif Require PropElf ElfExample Nom Cli CliSpec PropCliNorm Dwarf DwarfSpec DwarfSymSpec DwarfAnswerSpec PropDwInsp PropDwRead PropDwNames PropDwSym PropDwLines Search PropDebugLink.
From Coq Require Import String.
Local Close Scope string_scope.
Local Open Scope N_scope.
Local Notation length := List.length.

Section Debug.
  Context (x : ext) (m : mode) (pick : N -> N -> N) (d : debug_env) (rest : world (N * list N) parser) (h : host).
  Notation w := (host_world x m pick (debug_rest x m d h rest) h).
  Notation icall := (icall (N * list N) parser).
  Notation P p ptr data := (Parser (Some p) (Mem ptr data)).
  Context (Hx : sorts x) (Hsort : Search.sorter_ok (de_sort d)).
  Implicit Types (hist : list icall).

  Section File.
  Context (p : list N) (ptr : N) (data : list N) (e : image) (He : elf_file ptr data e) (Hseg : segments_ok e).
  Context (r : Dwarf.dresolver) (Hmod : Dwarf.dr_module r = Some p) (Hoff : Dwarf.dr_file_offset r = find_file_offset m (Mem ptr data)).

  Lemma offset_ok : forall addr size, exists fo, Dwarf.dr_file_offset r addr size = Ok fo /\ offset_in e addr size fo.
  Proof.
    intros addr size. rewrite Hoff. destruct (PropElf.C28_to_file m ptr data e addr size He Hseg) as [(s & H1 & H2 & ->)|[H1 ->]].
    - eexists. split; [reflexivity|]. left. eauto.
    - eexists. split; [reflexivity|]. right. auto.
  Qed.
  Lemma info_made : forall us b t o, function_is us b t o -> exists oi,
    DwarfSymSpec.info_of (Some p) (PropDwInsp.offsets r true) us Dwarf.name_limit b t oi /\
    match o, oi with Some f, Some i => reported p e f i | None, None => True | _, _ => False end.
  Proof.
    intros us b t o (n & Hc & H). destruct n as [s|].
    - destruct H as (lo & hi & Hu & Hl & Hh & Hle & ->). destruct (offset_ok lo (hi - lo)) as (fo & Ef & Hf).
      exists (Some (SymInfo s lo (Some (hi - lo)) TFunction fo (Some p))). split; [|repeat split; auto].
      exists (Some s). split; [exact Hc|]. exists lo, hi, fo. exact (conj Hu (conj Hl (conj Hh (conj Hle (conj Ef eq_refl))))).
    - subst o. exists None. split; [exists None; auto|exact I].
  Qed.
  Lemma infos_made : forall us b xs os, Forall2 (function_is us b) xs os -> exists ois,
    Forall2 (DwarfSymSpec.info_of (Some p) (PropDwInsp.offsets r true) us Dwarf.name_limit b) xs ois /\
    Forall2 (reported p e) (DwarfSymSpec.somes os) (DwarfSymSpec.somes ois).
  Proof.
    intros us b xs os H. induction H as [|t o xs os Ht H IH]; [exists []; split; constructor|].
    destruct IH as (ois & H1 & H2). destruct (info_made us b t o Ht) as (oi & Hi & Ho). exists (oi :: ois). split; [now constructor|].
    destruct o as [f|], oi as [i|]; try easy. cbn [DwarfSymSpec.somes]. now constructor.
  Qed.
  Lemma units_made : forall us l ls, Forall2 (unit_lists us) l ls -> exists infos,
    Forall2 (DwarfSymSpec.unit_infos (Some p) (PropDwInsp.offsets r true) us Dwarf.name_limit) l infos /\
    Forall2 (Forall2 (reported p e)) ls infos.
  Proof.
    intros us l ls H. induction H as [|u fs l ls (b & t & xs & os & Hb & Ht & Hw & Hf & Ho & ->) H IH]; [exists []; split; constructor|].
    destruct IH as (infos & H1 & H2). destruct (infos_made us b xs os Ho) as (ois & Hi & Hr).
    exists (DwarfSymSpec.somes ois :: infos). split; constructor; auto. exists b, t, xs, ois. exact (conj Hb (conj Ht (conj Hw (conj Hf (conj Hi eq_refl))))).
  Qed.
  Lemma first_made : forall name fs infos, Forall2 (reported p e) fs infos -> exists o oi,
    first_of name fs o /\ DwarfSymSpec.first_named name infos oi /\ match o, oi with Some f, Some i => reported p e f i | None, None => True | _, _ => False end.
  Proof.
    intros name fs infos H. induction H as [|f i fs infos Hf H IH]; [exists None, None; repeat split; constructor|].
    destruct (list_eq_dec N.eq_dec (fst (fst f)) name) as [E|E].
    - exists (Some f), (Some i). split; [|split; [|exact Hf]].
      + split; auto. exists [], fs. split; [reflexivity|constructor].
      + destruct f as [[n a] z]. destruct Hf as (Hn & _). cbn [fst] in E. split; [congruence|]. exists [], infos. split; [reflexivity|constructor].
    - assert (E' : si_name i <> name) by (destruct f as [[n a] z]; destruct Hf as (Hn & _); cbn [fst] in E; congruence).
      destruct IH as (o & oi & H1 & H2 & H3). exists o, oi. split; [|split; [|exact H3]].
      + destruct o as [g|]; cbn [first_of] in *; [|now constructor]. destruct H1 as (Eg & bf & af & -> & Hb). split; auto. exists (f :: bf), af. split; [reflexivity|now constructor].
      + destruct oi as [j|]; cbn [DwarfSymSpec.first_named] in *; [|now constructor]. destruct H2 as (Eg & bf & af & -> & Hb). split; auto. exists (i :: bf), af. split; [reflexivity|now constructor].
  Qed.
  Lemma firsts_made : forall name ls infos, Forall2 (Forall2 (reported p e)) ls infos -> exists os ois,
    Forall2 (first_of name) ls os /\ Forall2 (DwarfSymSpec.first_named name) infos ois /\ Forall2 (reported p e) (DwarfSymSpec.somes os) (DwarfSymSpec.somes ois).
  Proof.
    intros name ls infos H. induction H as [|fs is ls infos Hf H IH]; [exists [], []; repeat split; constructor|].
    destruct IH as (os & ois & H1 & H2 & H3). destruct (first_made name fs is Hf) as (o & oi & K1 & K2 & K3).
    exists (o :: os), (oi :: ois). split; [now constructor|]. split; [now constructor|]. destruct o, oi; try easy. cbn [DwarfSymSpec.somes]. now constructor.
  Qed.
  End File.

  (** ** Calling back *)
  Lemma calls_fns_told : forall r off go fns l seen, PropDwInsp.reads r off fns l -> exists s' stop,
    calls_fns r off go fns seen = (s', Ok stop) /\
    forall l2, ElfSpec.visit (until go) (l ++ l2) seen = if stop : bool then s' else ElfSpec.visit (until go) l2 s'.
  Proof.
    intros r off go fns l seen (os & H & ->). revert seen. induction H as [|fn o fns os [H1 H2] H IH]; intros seen; cbn [calls_fns DwarfSymSpec.somes].
    - exists seen, false. auto.
    - rewrite H1. destruct o as [i|]; [|apply IH]. cbn [DwarfSymSpec.somes app ElfSpec.visit].
      change (until go seen i) with (seen ++ [i], negb (go (seen ++ [i]))). cbn [fst snd]. destruct (go (seen ++ [i])); cbn [negb]; [apply IH|].
      exists (seen ++ [i]), true. auto.
  Qed.
  Lemma calls_units_told : forall r go infos, DwarfSpec.units_ordered (Dwarf.dr_units r) -> DwarfSpec.headers_wf (Dwarf.dr_units r) ->
    PropDwInsp.units_readable m (de_sort d) (de_pick d) (Dwarf.dr_units r) ->
    Forall2 (DwarfSymSpec.unit_infos (Dwarf.dr_module r) (PropDwInsp.offsets r true) (Dwarf.dr_units r) Dwarf.name_limit) (Dwarf.us_units (Dwarf.dr_units r)) infos ->
    dwarf_calls m d r (all_syms true) go = (ElfSpec.visit (until go) (List.concat infos) [], Ok tt).
  Proof.
    intros r go infos Ho Hh Hr H. unfold dwarf_calls. cbn [fa_sym_type fa_file_offset all_syms]. unfold PropDwInsp.units_readable in Hr.
    generalize (@nil sym_info) as seen. induction H as [|u l us infos Hu H IH]; intros seen; cbn [calls_units List.concat]; [reflexivity|].
    destruct (PropDwInsp.unit_reads m (de_sort d) (de_pick d) r true u l Ho Hh Hu (Hr u (or_introl eq_refl))) as (fs & -> & Hrd).
    destruct (calls_fns_told r true go (Dwarf.fs_fns fs) l seen Hrd) as (s' & stop & -> & Hv). rewrite Hv. destruct stop; [reflexivity|].
    apply IH. intros u' Hu'. apply Hr. now right.
  Qed.

  (** ** What is known of the units *)
  Lemma informed_units : forall p ptr data o us sets hs, informed m d h p ptr data o us sets hs ->
    DwarfSpec.units_ordered us /\ DwarfSpec.headers_wf us /\ PropDwInsp.units_readable m (de_sort d) (de_pick d) us.
  Proof.
    intros p ptr data o us sets hs (sc & _ & Hus & (E1 & E2 & Hs & Hh & Hfol & Hr)).
    destruct (PropDwRead.wf_units m (de_sort d) (de_pick d) sc us hs Hus E2) as [Ho Hw]; auto.
    split; auto. split; auto. intros u Hu. destruct (Hr u Hu) as [(b & t & Hb & Ht & Htr) _].
    destruct (PropDwRead.functions_total m (de_sort d) (de_pick d) us b t Ho Hw Ht Htr) as (fs & Hfs & _).
    unfold Dwarf.unit_functions. apply PropDwNames.unit_ref_body in Hb. rewrite Hb. cbn [bind]. eauto.
  Qed.
  Lemma source_ok : forall p ptr data o us sets hs, is_bytes p -> file_at h p ptr data -> informed m d h p ptr data o us sets hs ->
    source_alone w (IElf (path_of p) true) = Ok (dwarf_at x m d p ptr data o us).
  Proof.
    intros p ptr data o us sets hs Hb Hf (sc & Hd & Hus & _). cbn [source_alone]. exact (alone_ok x m pick d rest h p p ptr data o sc us Hb Hf Hd Hus).
  Qed.

  (** ** By name *)
  Theorem C81_lookup : forall hist p ptr data e o us sets hs ls q ptr' data' e' st dt names,
    steady (hist ++ [ILookup w (IElf (path_of p) true) names]) ->
    is_bytes p -> file_at h p ptr data -> elf_file ptr data e -> segments_ok e -> informed m d h p ptr data o us sets hs -> units_list us ls ->
    symbols_in p ptr data o = (q, ptr', data') -> elf_program x ptr' data' e' st dt -> elf_sections e' st dt ->
    exists rs, fst (i_lookup w (IElf (path_of p) true) names (i_run hist)) = Ok rs /\ Forall2 (debug_named p e ls q e' st dt) names rs.
  Proof.
    intros hist p ptr data e o us sets hs ls q ptr' data' e' st dt names HS Hb Hf He Hseg Hi Hls Eo (He' & Hs & Hst & Hdt & S1 & S2 & N1 & N2) (O1 & O2).
    destruct (informed_units _ _ _ _ _ _ _ Hi) as (U1 & U2 & U3).
    apply C64_lookup in HS. apply (looked_up_ok x m pick (debug_rest x m d h rest) h _ _ _ (debug_named p e ls q e' st dt) _ (source_ok p ptr data o us sets hs Hb Hf Hi)) in HS; auto.
    intros name. unfold dwarf_at. rewrite Eo. cbn [dwarf_resolver_of r_find_addr].
    set (r := dresolver_of x m (P p ptr data) (P q ptr' data') us).
    destruct (units_made p ptr data e He Hseg r eq_refl us _ _ Hls) as (infos & H1 & H2).
    destruct (firsts_made p e name ls infos H2) as (os & ois & K1 & K2 & K3).
    rewrite (PropDwInsp.C62_lookup m (de_sort d) (de_pick d) r (all_syms true) name infos ois ltac:(discriminate) U1 U2 U3 H1 K2).
    destruct (DwarfSymSpec.somes ois) as [|i is] eqn:Es.
    - cbn [r dresolver_of Dwarf.dr_find_addr].
      assert (E0 : DwarfSymSpec.somes os = []) by (inversion K3; auto).
      destruct (named_dec st name N1) as [D|D].
      + destruct (PropElf.C29_symtab x m ptr' data' e' st (Some q) (all_syms true) name Hx He' Hst N1 (fun _ => O1) D) as (y & l & E & Hp & Hi2).
        exists y. split; auto. exists os. split; auto. right. split; auto. left. split; [eauto|]. exists l. auto.
      + destruct (PropElf.C29_dynsym x m ptr' data' e' st dt (Some q) (all_syms true) name Hx He' Hst Hdt N1 N2 S1 (fun _ => conj O1 O2) D) as (y & l & E & Hp & Hi2 & Hn).
        exists y. split; auto. exists os. split; auto. right. split; auto. right. split; auto. exists l. auto.
    - eexists. split; [reflexivity|]. exists os. split; auto. left. split; auto. intros E0. rewrite E0 in K3. inversion K3.
  Qed.
  (** All functions are reported, unit by unit, until there are enough; no
      symbols are. *)
  Theorem C81_visit : forall hist p ptr data e o us sets hs ls go,
    steady (hist ++ [IForEach w (IElf (path_of p) true) go]) ->
    is_bytes p -> file_at h p ptr data -> elf_file ptr data e -> segments_ok e -> informed m d h p ptr data o us sets hs -> units_list us ls ->
    exists r out, Forall2 (reported p e) (List.concat ls) r /\ told go [] r out /\
      fst (i_for_each w (IElf (path_of p) true) go (i_run hist)) = (out, Ok tt).
  Proof.
    intros hist p ptr data e o us sets hs ls go HS Hb Hf He Hseg Hi Hls. destruct (informed_units _ _ _ _ _ _ _ Hi) as (U1 & U2 & U3).
    apply C64_for_each in HS. unfold visited in HS. rewrite (source_ok p ptr data o us sets hs Hb Hf Hi) in HS.
    unfold dwarf_at in HS. destruct (symbols_in p ptr data o) as [[q ptr'] data']. cbn [dwarf_resolver_of r_for_each has_offsets] in HS.
    set (r := dresolver_of x m (P p ptr data) (P q ptr' data') us) in *.
    destruct (units_made p ptr data e He Hseg r eq_refl us _ _ Hls) as (infos & H1 & H2).
    rewrite (calls_units_told r go infos U1 U2 U3 H1) in HS. destruct (visit_told go (List.concat infos) []) as (out & Eo & T). rewrite Eo in HS.
    exists (List.concat infos), out. split; [|split; [exact T|exact HS]].
    clear - H2. induction H2 as [|fs is ls infos Hf H IH]; cbn [List.concat]; [constructor|]. now apply Forall2_app.
  Qed.
  (** Problems with debug information are reported. *)
  Theorem C81_error : forall hist p ptr data k,
    is_bytes p -> file_at h p ptr data -> debug_fails d h p ptr data k ->
    (forall names, steady (hist ++ [ILookup w (IElf (path_of p) true) names]) ->
       fst (i_lookup w (IElf (path_of p) true) names (i_run hist)) = Err k) /\
    (forall go, steady (hist ++ [IForEach w (IElf (path_of p) true) go]) ->
       fst (i_for_each w (IElf (path_of p) true) go (i_run hist)) = ([], Err k)).
  Proof.
    intros hist p ptr data k Hb Hf Hd. assert (E : source_alone w (IElf (path_of p) true) = Err k) by exact (alone_fails x m pick d rest h p p ptr data k Hb Hf Hd).
    split; [intros names HS; apply C64_lookup in HS; unfold looked_up in HS|intros go HS; apply C64_for_each in HS; unfold visited in HS]; now rewrite E in HS.
  Qed.

  (** ** When remembering is no problem *)
  Theorem C81_steady : forall hist, quiet d h w hist -> steady hist.
  Proof.
    intros hist [Q1 Q2 Q3 Q4].
    assert (Hw : forall u, world_in hist u -> u = w) by (intros u (c & Hc & ->); auto).
    assert (Hel : forall p r, elf_in hist p r -> p = r) by (intros p r H; destruct H; reflexivity).
    split; [constructor|].
    - intros u u' H H'. rewrite (Hw u H), (Hw u' H'). repeat split.
    - intros u u' p r p' r' t Hu Hu' Hp Hp' E E'. rewrite (Hw u Hu) in *. rewrite (Hw u' Hu') in *.
      pose proof (Hel _ _ Hp). pose proof (Hel _ _ Hp'). subst r r'. rewrite (Q2 p p' t Hp Hp' E E'). auto.
    - intros p r (<- & c & Hc & Es). econstructor; eauto.
    - intros u u' p r p' r' t P0 Hu Hu' _ _ _ _ _. now rewrite (Hw u Hu), (Hw u' Hu').
    - intros u p r P0 q Hu (<- & c & Hc & Es) Hp Hd. assert (Hq : elf_in hist q q) by (eapply EiDebug; eauto). split; [exact Hq|].
      intros t E E'. rewrite (Hw u Hu) in *. assert (Hpp : elf_in hist p p) by (econstructor; eauto). pose proof (Q2 p q t Hpp Hq E E'). subst q.
      destruct (Q4 c p Hc Es) as [(k & Ek)|(p0 & ptr & data & o & -> & Hb & Hf & Hdo & Hne)].
      + cbn [host_world w_fs fs_stat] in E. congruence.
      + rewrite (parsed_at x m pick d rest h p0 p0 ptr data Hb Hf) in Hp. injection Hp as <-.
        remember (path_of p0) as q0 eqn:Eq0. destruct Hd as [q0 sum El|q0 El].
        * pose proof (linked_ok x m pick d rest h p0 ptr data o Hdo) as L. unfold linked in L. rewrite El in L. cbn [bind] in L.
          destruct o as [[[q1 ptr1] data1]|].
          -- destruct (parsed w q0 q0) as [D| | |] eqn:Ed; cbn [bind] in L; try discriminate. destruct (w_crc w D =? sum); [|discriminate]. injection L as ->.
             unfold parsed, elf_from_file in Ed. destruct (opened w q0) as [f| | |]; try discriminate. cbn [bind host_world w_elf_parse] in Ed. unfold elf_from_file in Ed. cbn [of_outcome] in Ed.
             injection Ed as Eq _ _. rewrite Eq0, (unpath_path_of p0 Hb) in Eq. exact (Hne _ _ _ eq_refl (eq_sym Eq)).
          -- destruct (parsed w q0 q0) as [D| | |] eqn:Ed; cbn [bind] in L; try discriminate. destruct (w_crc w D =? sum); discriminate.
        * cbn [host_world debug_rest w_dwp] in El. unfold dwp_of in El. cbn [p_module option_map] in El. injection El as El.
          apply (f_equal unpath) in El. rewrite Eq0, (unpath_path_of p0 Hb), (unpath_path_of (p0 ++ dotdwp)) in El.
          -- apply (f_equal (@List.length N)) in El. rewrite List.app_length in El. cbn in El. lia.
          -- apply Forall_app. split; [exact Hb|]. repeat constructor.
    - intros u u' p r p' r' t Hu Hu' (<- & Hp) (<- & Hp') E E'. rewrite (Hw u Hu) in *. rewrite (Hw u' Hu') in *.
      rewrite (Q3 p p' t (conj eq_refl Hp) (conj eq_refl Hp') E E'). auto.
  Qed.

  (** ** What the command line tool prints *)
  Lemma first_quiet : forall p ptr data o c, is_bytes p -> file_at h p ptr data -> debug_of d h p ptr data o ->
    (forall q ptr' data', o = Some (q, ptr', data') -> q <> p) -> (forall a b t, h_stat h a = Good t -> h_stat h b = Good t -> a = b) ->
    world_of c = w -> source_of c = IElf (path_of p) true -> steady ([] ++ [c]).
  Proof.
    intros p ptr data o c Hb Hf Hd Hne Hst Hw Hs. apply C81_steady. constructor.
    - intros c' [<-|[]]. exact Hw.
    - intros a b t _ _. apply Hst.
    - intros a b t _ _. apply Hst.
    - intros c' p' [<-|[]] E. rewrite Hs in E. injection E as <-. right. exists p, ptr, data, o. auto.
  Qed.
  Theorem C81_print_lookup : forall p ptr data e o us sets hs ls q ptr' data' e' st dt names,
    (forall a b t, h_stat h a = Good t -> h_stat h b = Good t -> a = b) -> (forall q ptr' data', o = Some (q, ptr', data') -> q <> p) ->
    is_bytes p -> file_at h p ptr data -> elf_file ptr data e -> segments_ok e -> informed m d h p ptr data o us sets hs -> units_list us ls ->
    symbols_in p ptr data o = (q, ptr', data') -> elf_program x ptr' data' e' st dt -> elf_sections e' st dt ->
    exists rs rs' t, Cli.cli_lookup w (IElf (path_of p) true) names = Ok t /\
      Forall2 (debug_named p e ls q e' st dt) names rs /\ Forall2 CliSpec.sorted_from rs rs' /\ PropCliNorm.shown_infos (List.concat rs') t.
  Proof.
    intros p ptr data e o us sets hs ls q ptr' data' e' st dt names Hst Hne Hb Hf He Hseg Hi Hls Eo Hp Hs.
    destruct (C81_lookup [] p ptr data e o us sets hs ls q ptr' data' e' st dt names) as (rs & E & HF); auto.
    { destruct Hi as (sc & (Hd & _) & _). eapply first_quiet; eauto; reflexivity. }
    change (i_run []) with (@i_new (N * list N) parser) in E.
    assert (Et : exists t, Cli.cli_lookup w (IElf (path_of p) true) names = Ok t) by (unfold Cli.cli_lookup; rewrite E; cbn [bind]; eauto).
    destruct Et as (t & Et). destruct (PropCliNorm.C74_lookup _ _ _ _ _ _ Et) as (ls0 & ls' & E0 & H1 & H2).
    rewrite E in E0. injection E0 as <-. exists rs, ls', t. auto.
  Qed.
  Theorem C81_print_dump : forall p ptr data e o us sets hs ls,
    (forall a b t, h_stat h a = Good t -> h_stat h b = Good t -> a = b) -> (forall q ptr' data', o = Some (q, ptr', data') -> q <> p) ->
    is_bytes p -> file_at h p ptr data -> elf_file ptr data e -> segments_ok e -> informed m d h p ptr data o us sets hs -> units_list us ls ->
    exists r l t, Cli.cli_dump w (IElf (path_of p) true) = Ok t /\
      Forall2 (reported p e) (List.concat ls) r /\ CliSpec.sorted_from r l /\ PropCliNorm.shown_infos l t.
  Proof.
    intros p ptr data e o us sets hs ls Hst Hne Hb Hf He Hseg Hi Hls.
    destruct (C81_visit [] p ptr data e o us sets hs ls (fun _ => true)) as (r & out & Ha & T & E); auto.
    { destruct Hi as (sc & (Hd & _) & _). eapply first_quiet; eauto; reflexivity. }
    change (i_run []) with (@i_new (N * list N) parser) in E.
    assert (Et : exists t, Cli.cli_dump w (IElf (path_of p) true) = Ok t).
    { unfold Cli.cli_dump. destruct (i_for_each w (IElf (path_of p) true) (fun _ => true) i_new) as [[l y] s]. cbn [fst] in E.
      injection E as _ ->. cbn [bind]. eauto. }
    destruct Et as (t & Et). destruct (PropCliNorm.C74_dump _ _ _ _ _ Et) as (l & l' & s & E0 & H1 & H2).
    rewrite E0 in E. cbn [fst] in E. injection E as ->. destruct T as (q1 & -> & _ & [->|(_ & F)]); [|discriminate].
    rewrite !app_nil_r in Ha. exists out, l', t. auto.
  Qed.
End Debug.
Print Assumptions C81_lookup.
Print Assumptions C81_visit.
Print Assumptions C81_error.
Print Assumptions C81_steady.
Print Assumptions C81_print_lookup.
Print Assumptions C81_print_dump.

(** ** Example: the program of C80 *)
Section Example_.
  Import Dwarf DwarfSpec DwarfSymSpec PropDwSym.
  Notation dw := (dx_w ex_dheaders).
  Definition dx_f : list N * N * N := (Nom.bs "f"%string, 4096, 16).
  Lemma dx_list : units_list ex_dunits [[dx_f]].
  Proof.
    constructor; [|constructor]. exists ex_main, ex_tree, [ex_f], [Some dx_f].
    split; [split; [eexists; reflexivity|right; split; reflexivity]|]. split; [exact ex_good|]. split; [|split; [|split; [|reflexivity]]].
    - intros y (Hy & Ht). destruct (PropDwRead.ex_tree_readable y Hy) as (_ & R). destruct R as (_ & R & _); [rewrite Ht; discriminate|]. split; [exact R|].
      apply PropDwRead.ex_nodes in Hy. cbn [In] in Hy. destruct Hy as [<-|[<-|[<-|[<-|[<-|[<-|[<-|[<-|[]]]]]]]]]; try discriminate Ht;
        (apply PropDwInsp.named_wf; [repeat (apply Forall_cons; [discriminate|]); apply Forall_nil|
           intros n v Hv; cbn in Hv; PropDwRead.cases_in Hv; injection Hv as <- <-; repeat split; try intros [K|K]; discriminate]).
    - assert (Hsk : forall y l l', In y (preorder ex_tree) -> y <> ex_f -> those (fun x => t_tag x = TSubprogram /\ has_code ex_main (t_attrs x)) l l' ->
        those (fun x => t_tag x = TSubprogram /\ has_code ex_main (t_attrs x)) (y :: l) l').
      { intros y l l' Hy Hne H. apply PickSkip; auto. intros (Ht & r & Hr & _). apply Hne.
        apply (dx_functions y r); [split; [now apply PropDwInsp.preorder_in|exact Ht]|exact Hr]. }
      unfold functions_of. change (preorder ex_tree) with [ex_tree; ex_f; Node 30 TOther [] (Some [ex_g]); ex_g; ex_h;
        Node 60 TSubprogram [named_as (Nom.bs "nested"%string)] None; Node 90 TSubprogram [named_as (Nom.bs "g"%string)] None; Node 95 TSubprogram [named_as (Nom.bs "h"%string)] None].
      apply Hsk; [now left|discriminate|]. apply PickTake.
      { split; [reflexivity|]. exists (Range 4096 4112). split; [now apply ex_declares_f|reflexivity]. }
      repeat (apply Hsk; [change (preorder ex_tree) with [ex_tree; ex_f; Node 30 TOther [] (Some [ex_g]); ex_g; ex_h;
        Node 60 TSubprogram [named_as (Nom.bs "nested"%string)] None; Node 90 TSubprogram [named_as (Nom.bs "g"%string)] None; Node 95 TSubprogram [named_as (Nom.bs "h"%string)] None]; cbn [In]; tauto|discriminate|]). constructor.
    - constructor; [|constructor]. exists (Some (Nom.bs "f"%string)). split; [exact (proj2 (proj1 dx_name))|].
      destruct dx_function as (_ & Hl & Hh & _). exists 4096, 4112. split; [reflexivity|]. split; [exact Hl|]. split; [exact Hh|]. split; [lia|reflexivity].
  Qed.
  Lemma dx_informed : informed Checked (dx_env ex_dheaders) dx_host dx_p 4096 dx_data (Some (dx_q, 4096, PropElf.ex_data)) ex_dunits [] ex_dheaders.
  Proof.
    exists (Sections (Some []) (Some ex_dheaders)). split; [|split; [exact ex_parsed|exact dx_info]].
    split; [apply dx_debug|]. exists None. split; [exact dx_package|reflexivity].
  Qed.
  Lemma dx_segments : segments_ok (fst PropDebugLink.dl_made).
  Proof. assert (En : i_segments (fst PropDebugLink.dl_made) = []) by (vm_compute; reflexivity). intros s (Hin & _). rewrite En in Hin. destruct Hin. Qed.
  Lemma dx_stat : forall a b t, h_stat dx_host a = Good t -> h_stat dx_host b = Good t -> a = b.
  Proof.
    intros a b t. cbn [dx_host h_stat]. destruct (dx_find a); [|discriminate]. destruct (dx_find b); [|discriminate]. intros [= <-] [= ->]. reflexivity.
  Qed.
  Definition asks_dx (c : icall (N * list N) parser) : Prop :=
    world_of c = dw /\ (source_of c = IElf (path_of dx_p) true \/ (exists q, source_of c = IElf q false) \/ exists q, source_of c = IBreakpad q).
  Lemma dx_steady : forall hist, Forall asks_dx hist -> steady hist.
  Proof.
    intros hist HF. rewrite Forall_forall in HF.
    apply (C81_steady ElfExample.no_ext Checked (fun _ _ => 0) (dx_env ex_dheaders) ex_rest dx_host). constructor.
    - intros c Hc. apply (HF c Hc).
    - intros a b t _ _. apply dx_stat.
    - intros a b t _ _. apply dx_stat.
    - intros c p Hc E. destruct (HF c Hc) as (_ & H). right. exists dx_p, 4096, dx_data, (Some (dx_q, 4096, PropElf.ex_data)).
      assert (p = path_of dx_p) by (destruct H as [H|[(q & H)|(q & H)]]; congruence).
      split; [assumption|]. split; [exact dx_bytes|]. split; [exact (proj1 dx_at)|]. split; [apply dx_debug|]. intros q ptr' data' [= <- _ _]. discriminate.
  Qed.
  (** The function is in the debug information, the other one is not. *)
  Example C81_example : forall hist, Forall asks_dx hist -> exists r1 r2,
    fst (i_lookup dw (IElf (path_of dx_p) true) [Nom.bs "f"%string; Nom.bs "helper"%string] (i_run hist)) = Ok [r1; r2] /\
    Forall2 (reported dx_p (fst PropDebugLink.dl_made)) [dx_f] r1 /\
    elf_named dx_q PropElf.ex_e PropElf.ex_st PropElf.ex_dt (Nom.bs "helper"%string) r2.
  Proof.
    intros hist HF.
    destruct (C81_lookup ElfExample.no_ext Checked (fun _ _ => 0) (dx_env ex_dheaders) ex_rest dx_host ElfExample.no_ext_sorts hist dx_p 4096 dx_data
      (fst PropDebugLink.dl_made) (Some (dx_q, 4096, PropElf.ex_data)) ex_dunits [] ex_dheaders [[dx_f]] dx_q 4096 PropElf.ex_data PropElf.ex_e PropElf.ex_st PropElf.ex_dt
      [Nom.bs "f"%string; Nom.bs "helper"%string]) as (rs & E & H).
    - apply dx_steady. apply Forall_app. split; [exact HF|]. constructor; [|constructor]. split; [reflexivity|now left].
    - exact dx_bytes.
    - exact (proj1 dx_at).
    - exact (proj1 PropDebugLink.C53_file_example).
    - exact dx_segments.
    - exact dx_informed.
    - exact dx_list.
    - reflexivity.
    - exact ex_program.
    - exact PropElf.ex_sections.
    - inversion H as [|? r1 ? rs' (os1 & F1 & D1) H']; subst. inversion H' as [|? r2 ? rs'' (os2 & F2 & D2) H'']; subst. inversion H''; subst.
      exists r1, r2. split; [exact E|].
      inversion F1 as [|? o1 ? l1 G1 K1]; subst. inversion K1; subst. inversion F2 as [|? o2 ? l2 G2 K2]; subst. inversion K2; subst. split.
      + destruct o1 as [f1|]; cbn [first_of] in G1.
        * destruct G1 as (_ & b & a & Eb & _). destruct b as [|? [|? ?]]; try discriminate. injection Eb as <- <-. destruct D1 as [(_ & D1)|(D1 & _)]; [exact D1|discriminate].
        * inversion G1 as [|? ? G _]; subst. exfalso. apply G. reflexivity.
      + destruct o2 as [f2|]; cbn [first_of] in G2.
        * destruct G2 as (G & b & a & Eb & _). destruct b as [|? [|? ?]]; try discriminate. injection Eb as <- <-. discriminate G.
        * destruct D2 as [(D2 & _)|(_ & D2)]; [exfalso; now apply D2|exact D2].
  Qed.
  Example C81_visit_example : forall hist go, Forall asks_dx hist ->
    fst (i_for_each dw (IElf (path_of dx_p) true) go (i_run hist)) = ([SymInfo (Nom.bs "f"%string) 4096 (Some 16) TFunction None (Some dx_p)], Ok tt).
  Proof.
    intros hist go HF.
    destruct (C81_visit ElfExample.no_ext Checked (fun _ _ => 0) (dx_env ex_dheaders) ex_rest dx_host hist dx_p 4096 dx_data
      (fst PropDebugLink.dl_made) (Some (dx_q, 4096, PropElf.ex_data)) ex_dunits [] ex_dheaders [[dx_f]] go) as (r & out & H1 & H2 & E).
    - apply dx_steady. apply Forall_app. split; [exact HF|]. constructor; [|constructor]. split; [reflexivity|now left].
    - exact dx_bytes.
    - exact (proj1 dx_at).
    - exact (proj1 PropDebugLink.C53_file_example).
    - exact dx_segments.
    - exact dx_informed.
    - exact dx_list.
    - unfold dx_w. rewrite E. cbn [List.concat app] in H1. inversion H1 as [|? i ? r' Hi Hr]; subst. inversion Hr; subst.
      destruct i as [n a z ty fo mo]. destruct Hi as (R1 & R2 & R3 & R4 & R5 & R6). cbn [si_name si_addr si_size si_type si_file_offset si_module] in *. subst.
      assert (Ef : fo = None).
      { destruct R5 as [(s & (Hin & _) & _)|[_ ->]]; [|reflexivity]. assert (En : i_segments (fst PropDebugLink.dl_made) = []) by (vm_compute; reflexivity). rewrite En in Hin. destruct Hin. }
      subst fo. destruct H2 as (more & Em & _ & Hm). destruct out as [|i0 [|? ?]]; try discriminate.
      + cbn [app] in Em. subst more. destruct Hm as [Hm|(Hm & _)]; [discriminate|congruence].
      + cbn [app] in Em. injection Em as <- _. reflexivity.
  Qed.
  (** Looking up cannot be built on top of iterating, as documentation suggests:
      symbols that are not in the debug information are found by their name, but
      are not among those iterated over. *)
  Theorem C81_all_refuted : exists x m pick d rest h p name i l, sorts x /\ Search.sorter_ok (de_sort d) /\
    let w := host_world x m pick (debug_rest x m d h rest) h in
    fst (i_lookup w (IElf (path_of p) true) [name] i_new) = Ok [[i]] /\ si_name i = name /\
    fst (i_for_each w (IElf (path_of p) true) (fun _ => true) i_new) = (l, Ok tt) /\ forall j, In j l -> si_name j <> name.
  Proof.
    exists ElfExample.no_ext, Checked, (fun _ _ => 0), (dx_env ex_dheaders), ex_rest, dx_host, dx_p, (Nom.bs "main"%string). do 2 eexists.
    split; [exact ElfExample.no_ext_sorts|]. split; [exact Search.stable_ok|]. cbv zeta. split; [vm_compute; reflexivity|]. split; [vm_compute; reflexivity|].
    split; [vm_compute; reflexivity|]. intros j [<-|[]]. discriminate.
  Qed.
  Example C81_dump_example :
    Cli.cli_dump dw (IElf (path_of dx_p) true) = Ok (Nom.bs "f: 0x00000000001000 (size=16)   [FUNC]
"%string).
  Proof. vm_compute. reflexivity. Qed.
End Example_.
Print Assumptions C81_all_refuted.
