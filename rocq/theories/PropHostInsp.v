(** * C75: from the contents of files to the symbols an inspector reports *)

From Verif Require Import Base Util Bytes Amap Maps Sym Inspect Mmap Elf ElfSpec FileCache Symbolizer HistorySpec
  Inspector InspectorSpec PropInspector Host HostSpec PropHost HostInspSpec.
From Verif Require PropElf PropBreakpad BreakpadSpec BreakpadProofs Breakpad ElfTotal ElfProofs ElfFormat ElfExample Nom Cli CliSpec PropCliNorm.
From Coq Require Import Sorted Permutation String.
Local Close Scope string_scope.
Local Open Scope N_scope.
Local Notation length := List.length.

(** ** Calling back *)
Section Calls.
  Context (x : ext) (m : mode).
  Definition until (go : list sym_info -> bool) := PropElf.collect (fun s => negb (go s)).

  Lemma calls_loop_ok : forall opts go shdrs l seen,
    let r := for_each_loop m opts shdrs (until go) l seen in
    snd (elf_calls_loop m opts go shdrs l seen) = (let* _ := r in Ok tt) /\
    (forall s, r = Ok s -> fst (elf_calls_loop m opts go shdrs l seen) = s).
  Proof.
    intros opts go shdrs l. induction l as [|[n s] l IH]; intros seen; cbn [for_each_loop elf_calls_loop].
    - split; [reflexivity|]. intros s [= <-]. reflexivity.
    - destruct (matches (fa_sym_type opts) s && negb (st_shndx s =? SHN_UNDEF)); [|apply IH].
      destruct (make_info m opts shdrs None n s) as [i|k| |]; cbn [bind]; try (split; [reflexivity|discriminate]).
      unfold until, PropElf.collect. destruct (go (seen ++ [i])); cbn [negb]; [apply IH|].
      cbn [bind fst snd]. split; [reflexivity|]. intros s0 [= <-]. reflexivity.
  Qed.
  Lemma calls_table_ok : forall b opts go idx seen,
    let r := (let* idx := idx in for_each_sym_impl m b opts (until go) idx seen) in
    snd (elf_calls_table m b opts go idx seen) = (let* _ := r in Ok tt) /\
    (forall s, r = Ok s -> fst (elf_calls_table m b opts go idx seen) = s).
  Proof.
    intros b opts go idx seen. unfold elf_calls_table, for_each_sym_impl.
    destruct idx as [idx|k| |]; cbn [bind]; try (split; [reflexivity|discriminate]).
    destruct (parse_shdrs b) as [sh|k| |]; cbn [bind]; try (split; [reflexivity|discriminate]). apply calls_loop_ok.
  Qed.
  Lemma calls_ok : forall p opts go,
    let r := Elf.for_each x m p opts (until go) [] in
    snd (elf_calls x m p opts go) = (let* _ := r in Ok tt) /\
    (forall s, r = Ok s -> fst (elf_calls x m p opts go) = s).
  Proof.
    intros p opts go. unfold elf_calls, Elf.for_each.
    destruct (ensure_symtab x (p_backend p)) as [st|k| |]; cbn [bind]; try (split; [reflexivity|discriminate]).
    destruct (calls_table_ok (p_backend p) opts go (str2symtab x st) []) as [H1 H2].
    destruct (elf_calls_table m (p_backend p) opts go (str2symtab x st) []) as [seen r1]. cbn [fst snd] in H1, H2. subst r1.
    destruct (str2symtab x st) as [idx|k| |]; cbn [bind] in H2 |- *; try (split; [reflexivity|discriminate]).
    destruct (for_each_sym_impl m (p_backend p) opts (until go) idx []) as [s|k| |]; cbn [bind]; try (split; [reflexivity|discriminate]).
    rewrite (H2 s eq_refl).
    destruct (calls_table_ok (p_backend p) opts go (let* dt := ensure_dynsym (p_backend p) in str2dynsym x m st dt) s) as [H3 H4].
    destruct (ensure_dynsym (p_backend p)) as [dt|k| |]; cbn [bind] in *; try (split; [exact H3|exact H4]).
  Qed.
  Lemma visit_told : forall go l before, exists out, visit (until go) l before = before ++ out /\ told go before l out.
  Proof.
    intros go l. induction l as [|i l IH]; intros before; cbn [visit].
    - exists []. split; [now rewrite app_nil_r|]. exists []. split; auto. split; auto.
      intros a b E Ha. destruct a; [congruence|discriminate].
    - change (until go before i) with (before ++ [i], negb (go (before ++ [i]))). cbn [fst snd]. destruct (go (before ++ [i])) eqn:E; cbn [negb].
      + destruct (IH (before ++ [i])) as (out & -> & (rest & -> & H1 & H2)). exists (i :: out).
        split; [now rewrite <- app_assoc|]. exists rest. split; auto. split.
        * intros a b Eab Ha Hb. destruct a as [|a0 a]; [congruence|]. cbn [app] in Eab. injection Eab as <- Eab.
          destruct a as [|a1 a]; [exact E|]. change (before ++ i :: a1 :: a) with (before ++ [i] ++ a1 :: a).
          rewrite app_assoc. apply (H1 _ b); auto. discriminate.
        * destruct H2 as [->|[H2 H3]]; auto. right. split; [discriminate|].
          change (before ++ i :: out) with (before ++ [i] ++ out). now rewrite app_assoc.
      + exists [i]. split; auto. exists l. split; auto. split.
        * intros a b Eab Ha Hb. destruct a as [|a0 [|a1 a]]; [congruence| |discriminate]. cbn in Eab. injection Eab as _ Eab. congruence.
        * right. split; [discriminate|exact E].
  Qed.
  Lemma breakpad_told : forall go l before, exists out, breakpad_calls_loop go l before = before ++ out /\ told go before (map func_info l) out.
  Proof.
    intros go l before. destruct (visit_told go (map func_info l) before) as (out & E & H). exists out. split; auto.
    rewrite <- E. clear. revert before. induction l as [|f l IH]; intros before; cbn [map breakpad_calls_loop visit]; auto.
    change (until go before (func_info f)) with (before ++ [func_info f], negb (go (before ++ [func_info f]))). cbn [fst snd].
    destruct (go (before ++ [func_info f])); cbn [negb]; auto.
  Qed.
  Lemma visit_all : forall l before, visit (until (fun _ => true)) l before = before ++ l.
  Proof.
    induction l as [|i l IH]; intros before; cbn [visit]; [now rewrite app_nil_r|].
    change (until (fun _ => true) before i) with (before ++ [i], false). cbn [fst snd]. rewrite IH. now rewrite <- app_assoc.
  Qed.
End Calls.

Definition triple (f : Breakpad.func) : list N * N * N := (Breakpad.fn_name f, Breakpad.fn_addr f, Breakpad.fn_size f).

Section Host.
  Context (x : ext) (m : mode) (pick : N -> N -> N) (rest : world (N * list N) parser).
  Notation w h := (host_world x m pick rest h).
  Notation icall := (icall (N * list N) parser).
  Context (Hx : sorts x).
  Implicit Types (h : host) (hist : list icall).

  Lemma elf_source : forall h p ptr data, is_bytes p -> file_at h p ptr data ->
    source_alone (w h) (IElf (path_of p) false) = Ok (elf_resolver_of x m (Parser (Some p) (Mem ptr data))).
  Proof.
    intros h p ptr data Hb Hf. cbn [source_alone]. unfold elf_alone, parsed. rewrite (opened_at x m pick rest h _ _ _ Hf).
    cbn [bind host_world w_elf_parse w_elf_plain elf_from_file of_outcome fst snd]. now rewrite (unpath_path_of p Hb).
  Qed.
  Lemma breakpad_source : forall h p ptr data sf, file_at h p ptr data -> Breakpad.from_bytes data = Ok sf ->
    exists r, source_alone (w h) (IBreakpad (path_of p)) = Ok r /\ r_find_addr r = breakpad_find_addr sf /\ r_for_each r = breakpad_calls sf.
  Proof.
    intros h p ptr data sf Hf E. cbn [source_alone]. unfold file_alone. rewrite (opened_at x m pick rest h _ _ _ Hf).
    cbn [bind host_world w_breakpad]. unfold breakpad_of. cbn [snd]. rewrite E. cbn [bind to_outcome of_outcome]. eexists. split; [reflexivity|]. auto.
  Qed.
  (** Names that can all be looked up *)
  Lemma looked_up_ok : forall h src r names (P : list N -> list sym_info -> Prop) y, source_alone (w h) src = Ok r ->
    (forall n, exists l, r_find_addr r n (all_syms true) = Ok l /\ P n l) -> looked_up (w h) src names y ->
    exists ls, y = Ok ls /\ Forall2 P names ls.
  Proof.
    intros h src r names P y E H L. unfold looked_up in L. rewrite E in L. destruct L as [(ls & Ha & ->)|F].
    - exists ls. split; auto. clear -Ha H. unfold answers in Ha. induction Ha as [|n l names ls Hn Ha IH]; constructor; auto.
      destruct (H n) as (l' & E & HP). rewrite E in Hn. injection Hn as <-. exact HP.
    - exfalso. destruct F as (b & n & a & ls & _ & _ & [(k & F & _)|[(F & _)|(F & _)]]); destruct (H n) as (l & E2 & _); congruence.
  Qed.

  (** ** ELF files *)
  Lemma named_dec : forall t name, names_ok t ->
    (exists s, In s (t_syms t) /\ named_symbol t name s) \/ (forall s, In s (t_syms t) -> ~ named_symbol t name s).
  Proof.
    intros t name Hn. unfold names_ok in Hn. induction (t_syms t) as [|s l IH]; [right; intros s []|].
    destruct IH as [(s' & H1 & H2)|IH]; [intros; apply Hn; auto; now right|left; exists s'; split; auto; now right|].
    assert (D : named_symbol t name s \/ ~ named_symbol t name s).
    { unfold named_symbol. destruct (matches TUndefined s) eqn:Em.
      - apply ElfProofs.matches_spec in Em. destruct (Hn s (or_introl eq_refl) Em) as (n & H1 & _).
        destruct (N.eq_dec (st_shndx s) 0) as [E|E]; [right; intros (_ & H & _); auto|].
        destruct (list_eq_dec N.eq_dec n name) as [->|Ne]; [left; split; auto; split; auto|].
        right. intros (_ & _ & H). apply Ne. eapply ElfFormat.string_at_fun; eauto.
      - right. intros (H & _). apply (ElfProofs.matches_spec TUndefined) in H. congruence. }
    destruct D as [D|D]; [left; exists s; split; auto; now left|]. right. intros s' [<-|H]; auto.
  Qed.
  Theorem C75_lookup : forall hist h p ptr data e st dt names,
    steady (hist ++ [ILookup (w h) (IElf (path_of p) false) names]) ->
    is_bytes p -> file_at h p ptr data -> elf_program x ptr data e st dt -> elf_sections e st dt ->
    exists ls, fst (i_lookup (w h) (IElf (path_of p) false) names (i_run hist)) = Ok ls /\ Forall2 (elf_named p e st dt) names ls.
  Proof.
    intros hist h p ptr data e st dt names HS Hb Hf (He & Hs & Hst & Hdt & S1 & S2 & N1 & N2) (O1 & O2).
    apply C64_lookup in HS. apply (looked_up_ok h _ _ _ (elf_named p e st dt) _ (elf_source h p ptr data Hb Hf)) in HS; auto.
    intros name. cbn [elf_resolver_of r_find_addr].
    destruct (named_dec st name N1) as [D|D].
    - destruct (PropElf.C29_symtab x m ptr data e st (Some p) (all_syms true) name Hx He Hst N1 (fun _ => O1) D) as (r & l & E & Hp & Hi).
      exists r. split; auto. left. split; [eauto|]. exists l. auto.
    - destruct (PropElf.C29_dynsym x m ptr data e st dt (Some p) (all_syms true) name Hx He Hst Hdt N1 N2 S1 (fun _ => conj O1 O2) D) as (r & l & E & Hp & Hi & Hn).
      exists r. split; auto. right. split; auto. exists l. auto.
  Qed.
  (** Everything: symbols of the symbol table, until there are enough, then
      dynamic ones, likewise. *)
  Theorem C75_visit : forall hist h p ptr data e st dt go,
    steady (hist ++ [IForEach (w h) (IElf (path_of p) false) go]) ->
    is_bytes p -> file_at h p ptr data -> elf_program x ptr data e st dt -> elf_sections e st dt ->
    exists r1 r2 out1 out2, elf_all e st dt r1 r2 /\ told go [] r1 out1 /\ told go out1 r2 out2 /\
      fst (i_for_each (w h) (IElf (path_of p) false) go (i_run hist)) = (out1 ++ out2, Ok tt).
  Proof.
    intros hist h p ptr data e st dt go HS Hb Hf (He & Hs & Hst & Hdt & S1 & S2 & N1 & N2) (O1 & O2).
    apply C64_for_each in HS. unfold visited in HS. rewrite (elf_source h p ptr data Hb Hf) in HS.
    destruct (PropElf.C30_visits _ x m ptr data e st dt (Some p) (all_syms true) (until go) Hx He Hst Hdt N1 N2 S1 (fun _ => conj O1 O2))
      as (l1 & r1 & l2 & r2 & P1 & F1 & P2 & F2 & E).
    destruct (visit_told go r1 []) as (out1 & E1 & T1). destruct (visit_told go r2 out1) as (out2 & E2 & T2).
    specialize (E []). rewrite E1 in E. cbn [app] in E. rewrite E2 in E.
    exists r1, r2, out1, out2. split; [|split; [exact T1|split; [exact T2|]]].
    - assert (W : forall s, PropElf.wanted_symbol (fa_sym_type (all_syms true)) s <-> a_symbol s)
        by (intros s; unfold PropElf.wanted_symbol, a_symbol; cbn; unfold supported; cbn; tauto).
      split; [exists l1|exists l2]; split; auto.
      + destruct P1 as (r & P & A & B). exists r. split; auto. split; (eapply Forall_impl; [|eassumption]); intros s; cbv beta; rewrite W; tauto.
      + destruct P2 as (r & P & A & B). exists r. split; auto. split; (eapply Forall_impl; [|eassumption]); intros s; cbv beta; rewrite W; tauto.
    - rewrite HS. cbn [elf_resolver_of r_for_each has_offsets].
      destruct (calls_ok x m (Parser (Some p) (Mem ptr data)) (all_syms true) go) as (C1 & C2).
      rewrite E in C1, C2. cbn [bind] in C1. specialize (C2 _ eq_refl).
      destruct (elf_calls x m (Parser (Some p) (Mem ptr data)) (all_syms true) go) as [a b]. cbn [fst snd] in C1, C2. now subst.
  Qed.

  (** ** Breakpad files *)
  Lemma infos_of : forall l, Forall2 is_info (map triple l) (map func_info l).
  Proof. induction l; cbn [map]; constructor; auto. repeat split. Qed.
  Lemma infos_ascending : forall l, StronglySorted (fun a b => Breakpad.fn_addr a <= Breakpad.fn_addr b) l -> ascending (map func_info l).
  Proof.
    induction 1 as [|f l H IH Hf]; cbn [map]; constructor; auto. apply Forall_map. eapply Forall_impl; [|exact Hf]. auto.
  Qed.
  Lemma breakpad_parsed : forall data rs, BreakpadSpec.is_breakpad data rs -> exists sf, Breakpad.from_bytes data = Ok sf /\
    Permutation (functions_of rs) (map triple (Breakpad.sf_funcs sf)) /\
    StronglySorted (fun a b => Breakpad.fn_addr a <= Breakpad.fn_addr b) (Breakpad.sf_funcs sf).
  Proof. exact PropBreakpad.C55_for_each. Qed.
  Lemma filter_perm : forall A (f : A -> bool) l, Permutation l (filter f l ++ filter (fun a => negb (f a)) l).
  Proof.
    induction l as [|a l IH]; cbn [filter]; auto. destruct (f a); cbn [negb app]; [now constructor|].
    etransitivity; [apply perm_skip, IH|]. apply Permutation_middle.
  Qed.
  Theorem C75_lookup_breakpad : forall hist h p ptr data rs names,
    steady (hist ++ [ILookup (w h) (IBreakpad (path_of p)) names]) ->
    file_at h p ptr data -> BreakpadSpec.is_breakpad data rs ->
    exists ls, fst (i_lookup (w h) (IBreakpad (path_of p)) names (i_run hist)) = Ok ls /\ Forall2 (breakpad_named rs) names ls.
  Proof.
    intros hist h p ptr data rs names HS Hf Hd. destruct (breakpad_parsed data rs Hd) as (sf & E & P & _).
    destruct (breakpad_source h p ptr data sf Hf E) as (r & Er & Ef & _).
    apply C64_lookup in HS. apply (looked_up_ok h _ _ _ (breakpad_named rs) _ Er) in HS; auto.
    intros name. rewrite Ef. unfold breakpad_find_addr. cbn [fa_sym_type all_syms]. eexists. split; [reflexivity|].
    destruct (PropBreakpad.C55_names data sf name E) as (_ & Pf & Sf). split; [now apply infos_ascending|].
    exists (map triple (Breakpad.find_addr sf name)). split; [|apply infos_of].
    set (t := fun f => beq (Breakpad.fn_name f) name) in *.
    exists (map triple (filter (fun f => negb (t f)) (Breakpad.sf_funcs sf))). split; [|split].
    - etransitivity; [exact P|]. rewrite <- map_app. apply Permutation_map. etransitivity; [apply (filter_perm _ t)|].
      apply Permutation_app_tail. now symmetry.
    - apply Forall_map, Forall_forall. intros f Hi. apply (Permutation_in _ Pf), filter_In in Hi. destruct Hi as [_ Hi].
      unfold t in Hi. now apply beq_eq in Hi.
    - apply Forall_map, Forall_forall. intros f Hi. apply filter_In in Hi. destruct Hi as [_ Hi]. unfold t in Hi. cbn [fst triple].
      intros Hc. apply beq_eq in Hc. rewrite Hc in Hi. discriminate.
  Qed.
  Theorem C75_visit_breakpad : forall hist h p ptr data rs go,
    steady (hist ++ [IForEach (w h) (IBreakpad (path_of p)) go]) ->
    file_at h p ptr data -> BreakpadSpec.is_breakpad data rs ->
    exists r out, breakpad_all rs r /\ told go [] r out /\
      fst (i_for_each (w h) (IBreakpad (path_of p)) go (i_run hist)) = (out, Ok tt).
  Proof.
    intros hist h p ptr data rs go HS Hf Hd. destruct (breakpad_parsed data rs Hd) as (sf & E & P & S).
    destruct (breakpad_source h p ptr data sf Hf E) as (r & Er & _ & Ef).
    apply C64_for_each in HS. unfold visited in HS. rewrite Er, Ef in HS.
    destruct (breakpad_told go (Breakpad.sf_funcs sf) []) as (out & Eo & T).
    exists (map func_info (Breakpad.sf_funcs sf)), out. split; [|split; auto].
    - split; [now apply infos_ascending|]. exists (map triple (Breakpad.sf_funcs sf)). split; auto. apply infos_of.
    - rewrite HS. unfold breakpad_calls. cbn [fa_sym_type all_syms has_offsets]. unfold Breakpad.for_each. rewrite Eo. reflexivity.
  Qed.

  (** ** When remembering is no problem *)

  (** All is well if no debug information is asked for and files that look the
      same are the same, ... *)
  Theorem C75_steady : forall hist (H : host -> Prop),
    (forall c, In c hist -> exists h, H h /\ world_of c = w h) ->
    (forall c p, In c hist -> source_of c <> IElf p true) ->
    (forall h h' p p' s s' t, H h -> H h' -> In s (map source_of hist) -> In s' (map source_of hist) ->
       (s = IElf p false /\ s' = IElf p' false \/ s = IBreakpad p /\ s' = IBreakpad p') ->
       h_stat h p = Good t -> h_stat h' p' = Good t -> p = p' /\ h_open h p = h_open h' p') ->
    steady hist.
  Proof.
    intros hist H Hw Hd Hi.
    assert (X : forall u, world_in hist u -> exists h, H h /\ u = w h) by (intros u (c & Hc & ->); auto).
    apply C64_plain; auto.
    - intros u u' Hu Hu'. destruct (X _ Hu) as (h & _ & ->), (X _ Hu') as (h' & _ & ->). repeat split.
    - intros u u' p r p' r' t Hu Hu' (<- & c & Hc & Es) (<- & c' & Hc' & Es') E E'.
      destruct (X _ Hu) as (h & Hh & ->), (X _ Hu') as (h' & Hh' & ->). cbn [host_world w_fs fs_stat fs_open] in *.
      apply (Hi h h' p p' (IElf p false) (IElf p' false) t); auto; rewrite <- ?Es, <- ?Es'; now apply in_map.
    - intros u u' p r p' r' t Hu Hu' (<- & c & Hc & Es) (<- & c' & Hc' & Es') E E'.
      destruct (X _ Hu) as (h & Hh & ->), (X _ Hu') as (h' & Hh' & ->). cbn [host_world w_fs fs_stat fs_open] in *.
      apply (Hi h h' p p' (IBreakpad p) (IBreakpad p') t); auto; rewrite <- ?Es, <- ?Es'; now apply in_map.
  Qed.
  (** ... as is the case for the first use. *)
  Theorem C75_first : forall h c, world_of c = w h -> (forall p, source_of c <> IElf p true) -> steady ([] ++ [c]).
  Proof.
    intros h c Ew Es. apply (C75_steady _ (fun h' => h' = h)).
    - intros c' [<-|[]]. eauto.
    - intros c' p [<-|[]]. apply Es.
    - intros h1 h2 p p' s s' t -> -> [<-|[]] [<-|[]] [(E & E')|(E & E')] _ _; split; try reflexivity; rewrite E in E'; injection E' as <-; reflexivity.
  Qed.

  (** ** No crashes *)

  (** Whatever the contents of files are: an inspector reports symbols or an
      error. *)
  Theorem C75_total : forall h src names go, m = Wrapping -> ElfTotal.ext_total x -> (forall p, src <> IElf p true) ->
    safe (fst (i_lookup (w h) src names i_new)) /\ safe (snd (fst (i_for_each (w h) src go i_new))).
  Proof.
    intros h src names go Hm Ht Hs.
    pose proof (C75_first h (ILookup (w h) src names) eq_refl Hs) as S1. apply C64_lookup in S1. change (i_run []) with (@i_new (N * list N) parser) in S1.
    pose proof (C75_first h (IForEach (w h) src go) eq_refl Hs) as S2. apply C64_for_each in S2. change (i_run []) with (@i_new (N * list N) parser) in S2.
    assert (R : (exists k, source_alone (w h) src = Err k) \/ exists r, source_alone (w h) src = Ok r /\
      (forall n, safe (r_find_addr r n (all_syms true))) /\ safe (snd (r_for_each r (all_syms (has_offsets src)) go))).
    { destruct src as [p|p [|]]; [| |].
      - cbn [source_alone]. unfold file_alone, opened. cbn [host_world w_fs fs_stat fs_open w_breakpad].
        destruct (h_stat h p); cbn [of_outcome bind]; eauto. destruct (h_open h p) as [f|]; cbn [of_outcome bind]; eauto.
        unfold breakpad_of. destruct (PropBreakpad.C23_terminates (snd f)) as [(sf & ->)|(k & ->)]; cbn [bind to_outcome of_outcome]; eauto.
        right. eexists. split; [reflexivity|]. split; [intros n|]; cbn; auto.
      - exfalso. apply (Hs p). reflexivity.
      - cbn [source_alone]. unfold elf_alone, parsed, opened. cbn [host_world w_fs fs_stat fs_open w_elf_parse w_elf_plain].
        destruct (h_stat h p); cbn [of_outcome bind]; eauto. destruct (h_open h p) as [f|]; cbn [of_outcome bind]; eauto.
        right. unfold elf_from_file. cbn [of_outcome bind]. eexists. split; [reflexivity|].
        destruct (PropElf.C27_total x (fst f) (snd f) (Some (unpath p)) Ht Hx) as (_ & T1 & T2 & _).
        cbn [elf_resolver_of r_find_addr r_for_each]. split; [subst m; auto|].
        destruct (calls_ok x m (Parser (Some (unpath p)) (Mem (fst f) (snd f))) (all_syms (has_offsets (IElf p false))) go) as (-> & _).
        apply safe_bind; auto. subst m. apply T2. }
    unfold looked_up in S1. unfold visited in S2. destruct R as [(k & E)|(r & E & R1 & R2)]; rewrite E in S1, S2.
    - rewrite S1, S2. cbn [snd]. auto.
    - rewrite S2. split; auto. destruct S1 as [(ls & _ & ->)|F]; auto.
      destruct F as (b & n & a & ls & _ & _ & [(k & _ & ->)|[(F & _)|(F & _)]]); auto; exfalso; specialize (R1 n); rewrite F in R1; destruct R1; congruence.
  Qed.

  (** ** What the command line tool prints *)
  Theorem C75_print_lookup : forall h p ptr data e st dt names,
    is_bytes p -> file_at h p ptr data -> elf_program x ptr data e st dt -> elf_sections e st dt ->
    exists ls ls' t, Cli.cli_lookup (w h) (IElf (path_of p) false) names = Ok t /\
      Forall2 (elf_named p e st dt) names ls /\ Forall2 CliSpec.sorted_from ls ls' /\ PropCliNorm.shown_infos (List.concat ls') t.
  Proof.
    intros h p ptr data e st dt names Hb Hf Hp Hs.
    destruct (C75_lookup [] h p ptr data e st dt names) as (ls & E & HF); auto.
    { apply (C75_first h); auto. cbn. congruence. }
    change (i_run []) with (@i_new (N * list N) parser) in E.
    assert (Et : exists t, Cli.cli_lookup (w h) (IElf (path_of p) false) names = Ok t) by (unfold Cli.cli_lookup; rewrite E; cbn [bind]; eauto).
    destruct Et as (t & Et). destruct (PropCliNorm.C74_lookup _ _ _ _ _ _ Et) as (ls0 & ls' & E0 & H1 & H2).
    rewrite E in E0. injection E0 as <-. exists ls, ls', t. auto.
  Qed.
  Theorem C75_print_dump : forall h p ptr data e st dt,
    is_bytes p -> file_at h p ptr data -> elf_program x ptr data e st dt -> elf_sections e st dt ->
    exists r1 r2 l t, Cli.cli_dump (w h) (IElf (path_of p) false) = Ok t /\
      elf_all e st dt r1 r2 /\ CliSpec.sorted_from (r1 ++ r2) l /\ PropCliNorm.shown_infos l t.
  Proof.
    intros h p ptr data e st dt Hb Hf Hp Hs.
    destruct (C75_visit [] h p ptr data e st dt (fun _ => true)) as (r1 & r2 & o1 & o2 & Ha & T1 & T2 & E); auto.
    { apply (C75_first h); auto. cbn. congruence. }
    change (i_run []) with (@i_new (N * list N) parser) in E.
    assert (Et : exists t, Cli.cli_dump (w h) (IElf (path_of p) false) = Ok t).
    { unfold Cli.cli_dump. destruct (i_for_each (w h) (IElf (path_of p) false) (fun _ => true) i_new) as [[l r] s]. cbn [fst] in E.
      injection E as _ ->. cbn [bind]. eauto. }
    destruct Et as (t & Et). destruct (PropCliNorm.C74_dump _ _ _ _ _ Et) as (l & l' & s & E0 & H1 & H2).
    rewrite E0 in E. cbn [fst] in E. injection E as ->.
    destruct T1 as (q1 & -> & _ & [->|(_ & F)]); [|discriminate]. destruct T2 as (q2 & -> & _ & [->|(_ & F)]); [|discriminate].
    rewrite !app_nil_r in Ha. exists o1, o2, l', t. auto.
  Qed.
End Host.

(** ** Examples *)
Lemma ex_steady : forall hist, (forall c, In c hist -> world_of c = ex_w) -> (forall c p, In c hist -> source_of c <> IElf p true) -> steady hist.
Proof.
  intros hist Hw Hs. apply (C75_steady ElfExample.no_ext Checked (fun _ _ => 0) ex_rest hist (fun h => h = ex_host)); auto.
  - intros c Hc. exists ex_host. split; [reflexivity|]. exact (Hw c Hc).
  - intros h h' p p' s s' t -> -> _ _ _ E E'. cbn [ex_host h_stat] in E, E'.
    destruct (ex_find p) eqn:F; try discriminate. destruct (ex_find p') eqn:F'; try discriminate.
    assert (p = p') by congruence. subst. auto.
Qed.
Definition ex_hist : list (icall (N * list N) parser) :=
  [ILookup ex_w (IElf (path_of ex_q) false) [[1]]; IForEach ex_w (IBreakpad (path_of [47; 98])) (fun _ => true)].
Definition ex_helper : list N := [104; 101; 108; 112; 101; 114].
Lemma ex_at : file_at ex_host ex_q 4096 PropElf.ex_data /\ file_at ex_host [47; 98] 0 PropBreakpad.ex_text.
Proof. split; (split; [eexists|]; vm_compute; reflexivity). Qed.
Example C75_example : exists ls,
  fst (i_lookup ex_w (IElf (path_of ex_q) false) [ex_helper; [109; 97; 105; 110]; [120]] (i_run ex_hist)) = Ok ls /\
  Forall2 (elf_named ex_q PropElf.ex_e PropElf.ex_st PropElf.ex_dt) [ex_helper; [109; 97; 105; 110]; [120]] ls /\
  map (map si_addr) ls = [[4128; 4136]; [4096]; []].
Proof.
  destruct (C75_lookup ElfExample.no_ext Checked (fun _ _ => 0) ex_rest ElfExample.no_ext_sorts ex_hist ex_host ex_q 4096 PropElf.ex_data
    PropElf.ex_e PropElf.ex_st PropElf.ex_dt [ex_helper; [109; 97; 105; 110]; [120]]) as (ls & E & H).
  - apply ex_steady.
    + intros c [<-|[<-|[<-|[]]]]; reflexivity.
    + intros c p [<-|[<-|[<-|[]]]]; discriminate.
  - repeat constructor.
  - apply ex_at.
  - exact ex_program.
  - exact PropElf.ex_sections.
  - exists ls. split; [exact E|]. split; auto. vm_compute in E. injection E as <-. reflexivity.
Qed.
Example C75_breakpad_example : exists r out,
  breakpad_all PropBreakpad.ex_records r /\ told (fun l => nlen l <? 1) [] r out /\
  fst (i_for_each ex_w (IBreakpad (path_of [47; 98])) (fun l => nlen l <? 1) (i_run ex_hist)) = (out, Ok tt) /\
  map si_addr out = [4096] /\ map si_addr r = [4096; 8192].
Proof.
  destruct (C75_visit_breakpad ElfExample.no_ext Checked (fun _ _ => 0) ex_rest ex_hist ex_host [47; 98] 0 PropBreakpad.ex_text PropBreakpad.ex_records (fun l => nlen l <? 1))
    as (r & out & H1 & H2 & H3).
  - apply ex_steady.
    + intros c [<-|[<-|[<-|[]]]]; reflexivity.
    + intros c p [<-|[<-|[<-|[]]]]; discriminate.
  - apply ex_at.
  - exact PropBreakpad.C23_example.
  - exists r, out. split; auto. split; auto. split; [exact H3|]. vm_compute in H3. injection H3 as <-. split; [reflexivity|].
    destruct H1 as (Ha & l & P & F). pose proof (Permutation_length P) as L. destruct H2 as (q & -> & _).
    assert (P' : Permutation (map (fun f => snd (fst f)) (functions_of PropBreakpad.ex_records)) (map (fun f => snd (fst f)) l)) by now apply Permutation_map.
    assert (E : map (fun f => snd (fst f)) l = map si_addr ([SymInfo [102] 4096 (Some 48) TFunction None None] ++ q)).
    { clear -F. induction F as [|[[n a] z] i l r (_ & H & _) F IH]; cbn [map fst snd]; auto. now rewrite H, IH. }
    replace (map (fun f : list N * N * N => snd (fst f)) (functions_of PropBreakpad.ex_records)) with [4096; 8192] in P' by (vm_compute; reflexivity).
    rewrite E in P'. cbn [app map si_addr] in P' |- *. apply Permutation_cons_inv in P'.
    apply Permutation_length_1_inv in P'. now rewrite P'.
Qed.
Example C75_dump_example :
  Cli.cli_dump ex_w (IElf (path_of ex_q) false) = Ok (Nom.bs "main:   0x00000000001000 (size=32)   [FUNC]
helper: 0x00000000001020 (size=16)   [FUNC]
helper: 0x00000000001028 (size=8)    [FUNC]
table:  0x00000000001030 (size=16)   [VAR]
extra:  0x00000000002000 (size=8)    [FUNC]
"%string).
Proof. vm_compute. reflexivity. Qed.

(** Having enough does not end it: there are dynamic symbols still. *)
Theorem C75_stop_refuted : exists x pick rest h p ptr data e st dt go i j,
  sorts x /\ is_bytes p /\ file_at h p ptr data /\ elf_program x ptr data e st dt /\ elf_sections e st dt /\
  go [i] = false /\
  fst (i_for_each (host_world x Checked pick rest h) (IElf (path_of p) false) go i_new) = ([i; j], Ok tt).
Proof.
  exists ElfExample.no_ext, (fun _ _ => 0), ex_rest, ex_host, ex_q, 4096, PropElf.ex_data, PropElf.ex_e, PropElf.ex_st, PropElf.ex_dt, (fun _ => false).
  eexists. eexists. split; [exact ElfExample.no_ext_sorts|]. split; [repeat constructor|]. split; [apply ex_at|]. split; [exact ex_program|].
  split; [exact PropElf.ex_sections|]. split; [reflexivity|]. vm_compute. reflexivity.
Qed.
Print Assumptions C75_lookup.
Print Assumptions C75_visit.
Print Assumptions C75_lookup_breakpad.
Print Assumptions C75_visit_breakpad.
Print Assumptions C75_steady.
Print Assumptions C75_first.
Print Assumptions C75_total.
Print Assumptions C75_print_lookup.
Print Assumptions C75_print_dump.
Print Assumptions C75_stop_refuted.
