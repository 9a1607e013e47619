(** * C83: inspection by C programs, and everything a C program holds *)

From Coq Require Import ZArith Permutation.
From Verif Require Import Base Util UtilProofs Text Bytes Sym Inspect Elf ElfSpec FileCache Symbolizer Normalize Inspector InspectorSpec CapiIn CapiSpec CapiOut CapiProofs CapiCalls CapiCallsSpec CapiEnd CapiEndSpec CapiNorm CapiNormSpec CapiNormProofs CapiInsp CapiInspSpec CapiInspProofs Host HostNorm HostSpec HostNormSpec HostInspSpec HostDebug HostDebugSpec HostDebugInspSpec.
From Verif Require Import PropCapiIn PropCapiOut PropCapiCalls PropCapiEnd PropCapiNorm PropHost PropHostNorm PropHostInsp PropHostDebugInsp.
From Verif Require ElfExample PropElf PropBuildId.
Local Open Scope N_scope.
Local Notation length := List.length.

(** ** Everything a program holds *)
Section Held.
  Context (al : allocator) (Hal : sound al) (fuel : nat) (m : mode).
  (** What the library does to hand something out, and to take it back *)
  Definition makes (t : thing) (h : heap) (p : N) (h' : heap) : Prop :=
    match t with
    | TSyms l => convert_results_to_c al m l h = Ok (Some (p, h'))
    | TInfos l => convert_syms_list_to_c al m l h = Ok (Some (p, h'))
    | TOutput o => convert_output al m o h = Ok (p, h')
    | TBytes b => exists h1, malloc al (nlen b) h = (p, h1) /\ p <> 0 /\ h_put 1 p b h1 = Ok h'
    end.
  Definition gives_back (t : thing) (p : N) (h : heap) : res heap :=
    match t with
    | TSyms _ | TInfos _ => free_block p h
    | TOutput _ => blaze_user_output_free fuel m p h
    | TBytes _ => c_free p h
    end.
  Definition readable (t : thing) : Prop := match t with TOutput o => Forall (short fuel) (uo_meta o) | _ => True end.

  Lemma bytes_made : forall b p h h1 h', malloc al (nlen b) h = (p, h1) -> p <> 0 -> h_put 1 p b h1 = Ok h' ->
    c_thing (hp_get h') p (TBytes b) [Lay p (N.max 1 (nlen b)) 16] /\ grows h h' [Lay p (N.max 1 (nlen b)) 16] 0 0.
  Proof.
    intros b p h h1 h' E Hp Ep. destruct (malloc_ok al Hal (nlen b) h) as [(q & h2 & E' & _ & G)|(E' & _)]; rewrite E in E'; [injection E' as <- <-|congruence].
    assert (HA : In (Lay p (N.max 1 (nlen b)) 16) (hp_live h1)) by (eapply grows_new; [exact G|now left]).
    destruct (hput 1 p b h1 _ (N.mod_1_r p) HA) as (g & Eg & Hh & G2); cbn [l_base l_size]; try lia. rewrite Ep in Eg. injection Eg as ->.
    split; [split; [exact Hp|split; [exact Hh|reflexivity]]|]. destruct G as [L A O S], G2 as [L2 A2 O2 S2]. constructor; auto.
    intros i Hi _. cbn [hp_get] in *. rewrite <- S by (auto; lia). apply S2; [intros X; inversion X|].
    destruct (N.ltb_spec i p); [auto|]. destruct (N.leb_spec (p + nlen b) i); [auto|]. exfalso. apply Hi. constructor. cbn. lia.
  Qed.
  Lemma made : forall t h p h', thing_ok t -> makes t h p h' -> exists bs, c_thing (hp_get h') p t bs /\ grows h h' bs 0 0.
  Proof.
    intros [l|l|o|b] h p h' Ht Hm; cbn [makes] in Hm.
    - destruct (c_syms_made al Hal m l h Ht) as [(q & h1 & bs & E & Hc & G)|(E & _)]; rewrite Hm in E; [|discriminate]. injection E as <- <-. eauto.
    - destruct (c_infos_made al Hal m l h Ht) as [(q & h1 & bs & E & Hc & G)|(E & _)]; rewrite Hm in E; [|discriminate]. injection E as <- <-. eauto.
    - destruct (output_converted al Hal m o h Ht) as [((q & h1) & E & bs & Hc & G)|(E & _)]; rewrite Hm in E; [|discriminate]. injection E as <- <-. eauto.
    - destruct Hm as (h1 & E & Hp & Ep). destruct (bytes_made _ _ _ _ _ E Hp Ep). eauto.
  Qed.
  Lemma grows_obtained : forall h h' p t bs, c_thing (hp_get h') p t bs -> grows h h' bs 0 0 -> obtained h h' p t.
  Proof. intros h h' p t bs Hc [L A O S]. exists bs. split; [exact Hc|]. split; [exact L|]. split; [exact O|]. split; [exact A|]. intros i Hi. apply S; [exact Hi|lia]. Qed.
  (** It is all there, in memory of its own. *)
  Theorem C83_made : forall t h p h', thing_ok t -> makes t h p h' -> obtained h h' p t.
  Proof. intros t h p h' Ht Hm. destruct (made t h p h' Ht Hm) as (bs & Hc & G). eapply grows_obtained; eauto. Qed.
  (** If there is memory, things can be handed out. *)
  Theorem C83_makes : forall t h, thing_ok t -> (exists p h', makes t h p h') \/ runs_out al.
  Proof.
    intros [l|l|o|b] h Ht; cbn [makes].
    - destruct (c_syms_made al Hal m l h Ht) as [(q & h1 & bs & E & _)|(_ & E)]; [left; eauto|right]. exists h, (results_room l), 8. split; [unfold results_room; lia|exact E].
    - destruct (c_infos_made al Hal m l h Ht) as [(q & h1 & bs & E & _)|(_ & E)]; [left; eauto|right]. exists h, (lists_room l), 8. split; [unfold lists_room; lia|exact E].
    - destruct (output_converted al Hal m o h Ht) as [((q & h1) & E & _)|(_ & E)]; [left; eauto|right; exact E].
    - destruct (malloc_ok al Hal (nlen b) h) as [(q & h1 & E & Hq & G)|(_ & E)]; [left|right; exists h, (N.max 1 (nlen b)), 16; split; [lia|exact E]].
      assert (HA : In (Lay q (N.max 1 (nlen b)) 16) (hp_live h1)) by (eapply grows_new; [exact G|now left]).
      destruct (hput 1 q b h1 _ (N.mod_1_r q) HA) as (g & Eg & _); cbn [l_base l_size]; try lia. eauto 8.
  Qed.

  Lemma in_app_either : forall (b : lay) l bs rest, Permutation l (bs ++ rest) -> In b l -> In b bs \/ In b rest.
  Proof. intros b l bs rest P H. apply in_app_or. eapply Permutation_in; eauto. Qed.
  Lemma freed : forall t p h bs rest, readable t -> c_thing (hp_get h) p t bs -> Permutation (hp_live h) (bs ++ rest) ->
    all_apart (map region_of bs) -> lays_apart bs rest ->
    exists h', gives_back t p h = Ok h' /\ Permutation (hp_live h') rest /\ forall i, ~ covered bs i -> hp_get h' i = hp_get h i.
  Proof.
    intros t p h bs rest Hr Hc P Ha Hb.
    assert (B : forall there, in_block (hp_get h) p there bs -> exists h', free_block p h = Ok h' /\ Permutation (hp_live h') rest /\ forall i, ~ covered bs i -> hp_get h' i = hp_get h i).
    { intros there (size & front & parts & H8 & Hf & Hl & Hv & Hs & _ & _ & _ & ->). unfold free_block. destruct (N.eqb_spec p 0); [lia|].
      unfold get_num. rewrite <- Hl, (read_has _ _ _ Hf). cbn [bind]. rewrite Hv, layout8_ok by (unfold fits; lia). cbn [bind].
      destruct (hfree (p - 8) size 8 h) as (h' & E & S1 & S2); [lia|eapply in_app_perm; [exact P|now left]|]. exists h'. auto. }
    destruct t as [l|l|o|b]; cbn [gives_back c_thing readable] in *; try (eapply B; exact Hc).
    - eapply output_freed; [exact Hr|]. split; [exact Hc|]. auto.
    - destruct Hc as (Hp & _ & ->). unfold c_free. destruct (N.eqb_spec p 0) as [|_]; [contradiction|]. set (n := N.max 1 (nlen b)) in *.
      assert (Hin : In (Lay p n 16) (hp_live h)) by (eapply in_app_perm; [exact P|now left]).
      destruct (find _ (hp_live h)) as [c|] eqn:E.
      + apply find_some in E. destruct E as (Hc & E). rewrite !Bool.andb_true_iff, !N.eqb_eq, N.ltb_lt in E. destruct E as ((E1 & E2) & E3).
        assert (c = Lay p n 16) as ->.
        { destruct (in_app_either _ _ _ _ P Hc) as [[<-|[]]|Hc']; [reflexivity|]. exfalso. unfold lays_apart in Hb. rewrite Forall_forall in Hb.
          specialize (Hb (Lay p n 16) (or_introl eq_refl)). rewrite Forall_forall in Hb. specialize (Hb c Hc'). unfold apart, region_of in Hb. cbn [fst snd l_base l_size] in Hb. lia. }
        destruct (hfree p n 16 h) as (h' & Ef & S1 & S2); [lia|exact Hin|]. exists h'. auto.
      + exfalso. pose proof (find_none _ _ E _ Hin) as K. cbn [l_base l_size l_align] in K. rewrite !N.eqb_refl in K. destruct (N.ltb_spec 0 n); [discriminate|lia].
  Qed.

  (** A program that gets and gives back things, and writes to memory it had
      before *)
  Inductive program (h0 : heap) : list (N * thing) -> heap -> Prop :=
  | PgStart : program h0 [] h0
  | PgGet : forall held h t p h', program h0 held h -> thing_ok t -> readable t -> makes t h p h' -> program h0 ((p, t) :: held) h'
  | PgFree : forall a b p t h h', program h0 (a ++ (p, t) :: b) h -> gives_back t p h = Ok h' -> program h0 (a ++ b) h'
  | PgWrite : forall held h b a l, program h0 held h -> In b (hp_live h0) -> l_base b <= a -> a + nlen l <= l_base b + l_size b ->
      program h0 held (Heap (hp_live h) (write a l (hp_get h))).
  Definition holds_all (h0 h : heap) (held : list (N * thing)) (bss : list (list lay)) : Prop :=
    Forall2 (fun e bs => c_thing (hp_get h) (fst e) (snd e) bs) held bss /\
    Permutation (hp_live h) (List.concat bss ++ hp_live h0) /\ all_apart (map region_of (List.concat bss)) /\
    lays_apart (List.concat bss) (hp_live h0).
  Lemma all_agree : forall h h' (l : list (N * thing)) bss, Forall2 (fun e bs => c_thing (hp_get h) (fst e) (snd e) bs) l bss ->
    (forall bs i, In bs bss -> covered bs i -> hp_get h' i = hp_get h i) -> Forall2 (fun e bs => c_thing (hp_get h') (fst e) (snd e) bs) l bss.
  Proof.
    intros h h' l bss F. induction F as [|e bs l bss Hc _ IH]; intros K; constructor.
    - eapply thing_agree; [exact Hc|]. intros i Hi. apply (K bs i); [now left|exact Hi].
    - apply IH. intros bs' i Hb Hi. apply (K bs' i); [now right|exact Hi].
  Qed.
  Lemma concat_middle : forall (ba bb : list (list lay)) bs, Permutation (List.concat (ba ++ bs :: bb)) (bs ++ List.concat (ba ++ bb)).
  Proof. intros. rewrite !concat_app. cbn [List.concat]. rewrite !app_assoc. apply Permutation_app_tail, Permutation_app_comm. Qed.
  Lemma program_holds : forall h0 held h, program h0 held h -> Forall (fun e => readable (snd e)) held /\ exists bss, holds_all h0 h held bss.
  Proof.
    intros h0 held h Hs.
    induction Hs as [|held h t p h' Hs (IHs & bss & IHf & IHp & IHa & IHr) Ht Hrd E|a b p t h h' Hs (IHs & bss & IHf & IHp & IHa & IHr) E
                    |held h b a l Hs (IHs & bss & IHf & IHp & IHa & IHr) Hb H1 H2].
    - split; [constructor|]. exists []. split; [constructor|]. split; [apply Permutation_refl|]. split; constructor.
    - split; [constructor; auto|]. destruct (made t h p h' Ht E) as (bs & Hc & [L A O S]).
      assert (A' := lays_apart_perm _ _ _ IHp A). apply lays_apart_app_r in A'. destruct A' as (A1 & A2).
      exists (bs :: bss). split; [|split; [|split]]; cbn [List.concat].
      + constructor; [exact Hc|]. eapply all_agree; [exact IHf|]. intros bs' i Hb Hi. apply S; [|lia]. eapply covered_lay; [exact A1|]. eapply concat_covered; eauto.
      + rewrite L. rewrite <- app_assoc. apply Permutation_app_head. exact IHp.
      + apply lays_all. repeat split; auto.
      + apply lays_apart_app_l. auto.
    - apply Forall_app in IHs. destruct IHs as (Sa & Sb). inversion Sb as [|? ? So Sb']; subst. cbn [snd] in So. split; [apply Forall_app; auto|].
      apply Forall2_app_inv_l in IHf. destruct IHf as (ba & bb & Fa & Fb & ->). inversion Fb as [|? bs ? bb' Fo Fb']; subst. cbn [fst snd] in Fo.
      pose proof (concat_middle ba bb' bs) as Pm.
      assert (Ha' := all_apart_perm _ _ (Permutation_map region_of Pm) IHa). apply lays_all in Ha'. destruct Ha' as (A1 & A2 & A12).
      pose proof (lays_apart_perm _ _ _ Pm (lays_apart_sym _ _ IHr)) as IHr2. apply lays_apart_app_r in IHr2. destruct IHr2 as (R1 & R2).
      destruct (freed t p h bs (List.concat (ba ++ bb') ++ hp_live h0) So Fo) as (h1 & E1 & P1 & K1).
      { rewrite IHp, Pm. now rewrite app_assoc. }
      { exact A1. }
      { apply lays_apart_app_r. split; [exact A12|now apply lays_apart_sym]. }
      rewrite E in E1. injection E1 as <-. exists (ba ++ bb'). split; [|split; [exact P1|split; [exact A2|now apply lays_apart_sym]]].
      assert (K : forall bs' i, In bs' (ba ++ bb') -> covered bs' i -> hp_get h' i = hp_get h i).
      { intros bs' i Hb Hi. apply K1. eapply covered_lay; [exact A12|]. eapply concat_covered; eauto. }
      apply Forall2_app; (eapply all_agree; [eassumption|]); intros bs' i Hb Hi; apply (K bs' i); auto; apply in_or_app; auto.
    - split; [exact IHs|]. exists bss. split; [|split; [exact IHp|split; [exact IHa|exact IHr]]].
      eapply all_agree; [exact IHf|]. intros bs i Hin Hi. cbn [hp_get]. apply write_other.
      assert (Hn : ~ covered [b] i). { eapply covered_lay; [|eapply concat_covered; [exact Hin|exact Hi]]. apply lays_apart_sym in IHr. unfold lays_apart in *. rewrite Forall_forall in IHr. constructor; auto. }
      destruct (N.ltb_spec i a); [auto|]. destruct (N.leb_spec (a + nlen l) i); [auto|]. exfalso. apply Hn. constructor. lia.
  Qed.
  (** Everything held can be read and given back; what was there before stays
      allocated, and is all there is in the end. *)
  Theorem C83_held : forall h0 held h, program h0 held h ->
    Forall (fun '(p, t) => (exists bs, c_thing (hp_get h) p t bs /\ forall b, In b bs -> In b (hp_live h)) /\ exists h', gives_back t p h = Ok h') held /\
    (forall b, In b (hp_live h0) -> In b (hp_live h)) /\
    (held = [] -> Permutation (hp_live h) (hp_live h0)).
  Proof.
    intros h0 held h Hs. destruct (program_holds h0 held h Hs) as (Gs & bss & Gf & Gp & Ga & Gr). split; [|split].
    - apply Forall_forall. intros (p & t) Hin. apply in_split in Hin. destruct Hin as (a & b & ->).
      apply Forall_app in Gs. destruct Gs as (_ & Sb). inversion Sb as [|? ? So _]; subst.
      apply Forall2_app_inv_l in Gf. destruct Gf as (ba & bb & Fa & Fb & ->). inversion Fb as [|? bs ? bb' Fo Fb']; subst. cbn [fst snd] in *.
      pose proof (concat_middle ba bb' bs) as Pm.
      assert (Ha' := all_apart_perm _ _ (Permutation_map region_of Pm) Ga). apply lays_all in Ha'. destruct Ha' as (A1 & _ & A12).
      pose proof (lays_apart_perm _ _ _ Pm (lays_apart_sym _ _ Gr)) as R. apply lays_apart_app_r in R. destruct R as (R1 & _).
      assert (P : Permutation (hp_live h) (bs ++ List.concat (ba ++ bb') ++ hp_live h0)) by (rewrite Gp, Pm; now rewrite app_assoc).
      split; [exists bs; split; [exact Fo|intros c Hc; eapply in_app_perm; eauto]|].
      destruct (freed t p h bs (List.concat (ba ++ bb') ++ hp_live h0) So Fo P A1) as (h1 & E1 & _); [|eauto].
      apply lays_apart_app_r. split; [exact A12|now apply lays_apart_sym].
    - intros b Hb. eapply Permutation_in; [symmetry; exact Gp|]. apply in_or_app. auto.
    - intros ->. inversion Gf; subst. exact Gp.
  Qed.
  Theorem C83_null : forall h, free_block 0 h = Ok h /\ c_free 0 h = Ok h.
  Proof. intros h. split; reflexivity. Qed.
End Held.
Print Assumptions C83_made.
Print Assumptions C83_makes.
Print Assumptions C83_held.

(** ** Inspection *)
Section Inspection.
  Context (al : allocator) (Hal : sound al) (m : mode) {File Parser : Type}.
  Implicit Types (s : inspector File Parser).

  Lemma names_there : forall g fuel p l, names_at g fuel p l -> inspect_names g fuel p (length l) = Ok l.
  Proof.
    intros g fuel p l (ps & Ha & Hf & Hu). unfold inspect_names. assert (El : length ps = length l) by (clear - Hf; induction Hf; cbn; congruence). rewrite <- El, (C68_arrays _ _ _ Ha). cbn [bind]. apply names_ok.
    - eapply Forall2_impl; [|exact Hf]. intros a b (H & _). exact H.
    - clear - Hf Hu. induction Hf as [|p s ps names (H1 & H2) _ IH]; inversion Hu; subst; constructor; auto.
  Qed.
  (** What is returned for what the library says *)
  Definition shown_infos (l : list (list sym_info)) (h : heap) (r : res (Z * N * heap)) : Prop :=
    (exists p h', r = Ok (0%Z, p, h') /\ makes al m (TInfos l) h p h' /\ obtained h h' p (TInfos l)) \/
    (r = Ok ((-12)%Z, 0, h) /\ al h (lists_room l) 8 = 0).
  Lemma inspected : forall w fuel src names cnt path debug l s h, asks_syms (hp_get h) fuel src names cnt path debug l ->
    let '(r, s') := blaze_inspect_syms_elf al m w fuel src names cnt s h in
    let '(said, s'') := i_lookup w (IElf (path_of path) debug) l s in
    s' = s'' /\
    r = match said with
        | Ok syms => let* r := convert_syms_list_to_c al m syms h in
                     match r with None => let* e := blaze_err_from EOutOfMemory in Ok (e, 0, h) | Some (p, h) => Ok (0%Z, p, h) end
        | Err k => let* e := blaze_err_from k in Ok (e, 0, h)
        | Panic => Panic
        | NoFuel => NoFuel
        end.
  Proof.
    intros w fuel src names cnt path debug l s h ((c & Hst & U & (Hs & Hl) & Hd) & Hn & ->). unfold blaze_inspect_syms_elf.
    destruct (taken blaze_inspect_elf_src c src) as (o & E & Ho); [cbn; tauto|exact Hst|exact U|]. rewrite E. cbn [then_].
    unfold inspect_src. rewrite (member_value _ 1 8 c o Ho) by at_. change (offset_of (it_members blaze_inspect_elf_src) 1) with 8.
    rewrite (read_string _ _ _ _ Hs Hl). cbn [bind]. rewrite (flag_there _ 2 c o debug Ho) by at_. cbn [bind then_].
    rewrite (names_there _ _ _ _ Hn). cbn [then_]. destruct (i_lookup w (IElf (path_of path) debug) l s) as [[syms|k| |] s']; auto.
  Qed.
  Theorem C83_lookup : forall w fuel src names cnt path debug l s h ls, asks_syms (hp_get h) fuel src names cnt path debug l ->
    fst (i_lookup w (IElf (path_of path) debug) l s) = Ok ls -> thing_ok (TInfos ls) ->
    shown_infos ls h (fst (blaze_inspect_syms_elf al m w fuel src names cnt s h)).
  Proof.
    intros w fuel src names cnt path debug l s h ls Ha E Hok. pose proof (inspected w fuel src names cnt path debug l s h Ha) as K.
    destruct (blaze_inspect_syms_elf al m w fuel src names cnt s h) as [r s']. destruct (i_lookup w (IElf (path_of path) debug) l s) as [said s'']. cbn [fst] in *.
    destruct K as (_ & ->). subst said. destruct (c_infos_made al Hal m ls h Hok) as [(p & h' & bs & Ec & Hc & G)|(Ec & E0)]; rewrite Ec; cbn [bind]; [left|right; split; [reflexivity|exact E0]].
    exists p, h'. split; [reflexivity|]. split; [exact Ec|]. eapply grows_obtained; eauto.
  Qed.
  Theorem C83_error : forall w fuel src names cnt path debug l s h k, asks_syms (hp_get h) fuel src names cnt path debug l ->
    fst (i_lookup w (IElf (path_of path) debug) l s) = Err k -> k <> ENone ->
    fst (blaze_inspect_syms_elf al m w fuel src names cnt s h) = Ok (code_of k, 0, h).
  Proof.
    intros w fuel src names cnt path debug l s h k Ha E Hk. pose proof (inspected w fuel src names cnt path debug l s h Ha) as K.
    destruct (blaze_inspect_syms_elf al m w fuel src names cnt s h) as [r s']. destruct (i_lookup w (IElf (path_of path) debug) l s) as [said s'']. cbn [fst] in *.
    destruct K as (_ & ->). subst said. now rewrite (code_from _ Hk).
  Qed.
  Theorem C83_refused : forall w fuel src names cnt s h, asks_too_much src ->
    blaze_inspect_syms_elf al m w fuel src names cnt s h = (Ok ((-256)%Z, 0, h), s).
  Proof.
    intros w fuel src names cnt s h (c & (Hc & rest & ->) & U). unfold blaze_inspect_syms_elf.
    destruct (PropCapiIn.C47_taken blaze_inspect_elf_src c rest ltac:(cbn; tauto) Hc) as (_ & B). rewrite (B U). reflexivity.
  Qed.

  (** A history of calls to one inspector, each with memory and everything
      outside at that time *)
  Record cinspect := CInspect { cn_world : world File Parser; cn_heap : heap; cn_fuel : nat; cn_src : list N; cn_names : N; cn_cnt : nat }.
  Definition c_inspected (l : list cinspect) : inspector File Parser :=
    fold_left (fun s c => snd (blaze_inspect_syms_elf al m (cn_world c) (cn_fuel c) (cn_src c) (cn_names c) (cn_cnt c) s (cn_heap c))) l i_new.
  (** What is asked of the library *)
  Inductive asks_for : list cinspect -> list (icall File Parser) -> Prop :=
  | AfNil : asks_for [] []
  | AfAsks : forall c cs path debug l ops, asks_syms (hp_get (cn_heap c)) (cn_fuel c) (cn_src c) (cn_names c) (cn_cnt c) path debug l -> asks_for cs ops ->
      asks_for (c :: cs) (ILookup (cn_world c) (IElf (path_of path) debug) l :: ops)
  | AfTooMuch : forall c cs ops, asks_too_much (cn_src c) -> asks_for cs ops -> asks_for (c :: cs) ops.
  Theorem C83_history : forall cs ops, asks_for cs ops -> c_inspected cs = i_run ops.
  Proof.
    intros cs ops H. unfold c_inspected, i_run. generalize (@i_new File Parser) as s.
    induction H as [|c cs path debug l ops Ha H IH|c cs ops Ha H IH]; intros s; cbn [fold_left]; [reflexivity| |].
    - pose proof (inspected (cn_world c) _ _ _ _ _ _ _ s _ Ha) as K. cbn [i_after].
      destruct (blaze_inspect_syms_elf _ _ _ _ _ _ _ _ _) as [r s']. destruct (i_lookup (cn_world c) (IElf (path_of path) debug) l s) as [said s'']. cbn [snd]. destruct K as (-> & _). apply IH.
    - rewrite C83_refused by exact Ha. apply IH.
  Qed.
End Inspection.
Arguments cinspect : clear implicits.
Print Assumptions C83_lookup.
Print Assumptions C83_error.
Print Assumptions C83_refused.
Print Assumptions C83_history.

(** ** Build IDs *)
Section BuildId.
  Context (al : allocator) (Hal : sound al) (m : mode).
  Lemma length_written : forall len n h, length_there h len -> n < 2 ^ 64 ->
    exists h1, (if len =? 0 then Ok h else put_num 8 len n h) = Ok h1 /\ length_is h h1 len n.
  Proof.
    intros len n h [->|(H8 & b & Hb & H1 & H2)] Hn; [exists h; split; [reflexivity|]; repeat split; auto|].
    destruct (N.eqb_spec len 0) as [->|H0]; [exists h; split; [reflexivity|]; repeat split; auto|].
    destruct (hputn 8 len n h b Hn H8 Hb H1 H2) as (g & E & Hg & [_ _ _ S]). exists (Heap (hp_live h) g). split; [exact E|].
    split; [reflexivity|]. split; [right; exact Hg|]. cbn [hp_get] in *. intros i [->|[Hi|Hi]]; [contradiction| |]; apply S; auto; intros X; inversion X.
  Qed.
  Theorem C83_build_id : forall lib fuel path text len h id, path_at (hp_get h) fuel path text -> length_there h len ->
    lib text = Ok id -> match id with Some b => nlen b < 2 ^ 64 | None => True end ->
    exists h1, length_is h h1 len (match id with Some b => nlen b | None => 0 end) /\
    shown_id al id h1 (blaze_read_elf_build_id al lib fuel path len h).
  Proof.
    intros lib fuel path text len h id (Hs & Hl) Ht E Hn. unfold blaze_read_elf_build_id. rewrite (read_string _ _ _ _ Hs Hl). cbn [bind]. rewrite E.
    destruct (length_written len (match id with Some b => nlen b | None => 0 end) h Ht) as (h1 & E1 & H1); [destruct id; [exact Hn|reflexivity]|].
    exists h1. split; [exact H1|]. rewrite E1. cbn [bind]. destruct id as [b|]; cbn [shown_id]; [|reflexivity].
    destruct (malloc_ok al Hal (nlen b) h1) as [(p & h2 & Em & Hp & G)|(Em & E0)]; rewrite Em; [left|right; split; [reflexivity|exact E0]].
    assert (HA : In (Lay p (N.max 1 (nlen b)) 16) (hp_live h2)) by (eapply grows_new; [exact G|now left]).
    destruct (hput 1 p b h2 _ (N.mod_1_r p) HA) as (g & Eg & _); cbn [l_base l_size]; try lia.
    destruct (N.eqb_spec p 0) as [|_]; [contradiction|]. rewrite Eg. cbn [bind].
    exists p, (Heap (hp_live h2) g). split; [reflexivity|]. eapply (C83_made al Hal m (TBytes b)); [exact I|]. exists h2. auto.
  Qed.
  Theorem C83_build_id_error : forall lib fuel path text len h k, path_at (hp_get h) fuel path text -> lib text = Err k -> k <> ENone ->
    blaze_read_elf_build_id al lib fuel path len h = Ok (code_of k, 0, h).
  Proof. intros lib fuel path text len h k (Hs & Hl) E Hk. unfold blaze_read_elf_build_id. rewrite (read_string _ _ _ _ Hs Hl). cbn [bind]. now rewrite E, (code_from _ Hk). Qed.
End BuildId.
Print Assumptions C83_build_id.
Print Assumptions C83_build_id_error.

(** ** What files say *)
Section Files.
  Context (al : allocator) (Hal : sound al) (x : ext) (m : mode) (pick : N -> N -> N) (rest : world (N * list N) parser).
  Context (Hx : sorts x).
  Notation w := (host_world x m pick rest).
  (** The build ID of a file *)
  Theorem C83_build_id_file : forall H fuel path text len h ptr data e id, path_at (hp_get h) fuel path text -> length_there h len ->
    file_at H text ptr data -> elf_file ptr data e -> has_build_id e id -> match id with Some b => nlen b < 2 ^ 64 | None => True end ->
    exists h1, length_is h h1 len (match id with Some b => nlen b | None => 0 end) /\
    shown_id al id h1 (blaze_read_elf_build_id al (lib_build_id x m H) fuel path len h).
  Proof.
    intros H fuel path text len h ptr data e id Hp Hl (_ & Ho) He (l & Hn & Hg & Eid) Hs. apply (C83_build_id al Hal m _ fuel path text len h id Hp Hl); [|exact Hs].
    unfold lib_build_id. rewrite Ho. cbn [of_outcome bind]. rewrite (PropBuildId.C31_first x m ptr data e l He Hn Hg). now rewrite Eid.
  Qed.
  Theorem C83_build_id_none : forall H fuel path text len h k, path_at (hp_get h) fuel path text -> k <> ENone ->
    h_open H (path_of text) = Bad k ->
    blaze_read_elf_build_id al (lib_build_id x m H) fuel path len h = Ok (code_of k, 0, h).
  Proof. intros H fuel path text len h k Hp Hk Ho. eapply C83_build_id_error; eauto. unfold lib_build_id. now rewrite Ho. Qed.

  Lemma picked_in : forall A (P Q : A -> Prop) all l s, picks P Q all l -> In s l -> In s all.
  Proof. intros A P Q all l s (r & Hp & _) Hi. eapply Permutation_in; [symmetry; exact Hp|]. apply in_or_app. auto. Qed.
  Lemma infos_fine : forall e module t l r, in_space t -> placed e t -> (forall s, In s l -> In s (t_syms t)) ->
    Forall2 (info_of e (all_syms true) module t) l r -> Forall info_ok r.
  Proof.
    intros e module t l r Hs Hp Hl HF. induction HF as [|s i l r (_ & Ha & _ & _ & _ & Ho) HF IH]; constructor; [|apply IH; intros; apply Hl; now right].
    assert (Hin : In s (t_syms t)) by (apply Hl; now left). unfold in_space in Hs. rewrite Forall_forall in Hs. specialize (Hs s Hin). unfold two64 in *.
    split; [rewrite Ha; lia|]. cbn [all_syms fa_file_offset] in Ho. destruct Ho as [(_ & ->)|(Hx1 & sec & En & Ho)]; [exact I|].
    cbn zeta in Ho. destruct (N.eqb_spec (sh_type (s_hdr sec)) SHT_NOBITS) as [Eb|Eb]; [rewrite Ho; exact I|].
    destruct (Hp s sec Hin Hx1 En Eb) as (P1 & P2). specialize (Ho P1 P2). destruct (_ || _); rewrite Ho; [cbn [opt_lt]; unfold two64 in *; lia|exact I].
  Qed.
  Lemma named_fine : forall p e st dt name r, in_space st -> in_space dt -> placed e st -> placed e dt -> elf_named p e st dt name r -> Forall info_ok r.
  Proof.
    intros p e st dt name r S1 S2 P1 P2 [(_ & l & Hl & HF)|(_ & l & Hl & HF & _)].
    - eapply (infos_fine e _ st); [exact S1|exact P1| |exact HF]. intros s. eapply picked_in. exact Hl.
    - eapply (infos_fine e _ dt); [exact S2|exact P2| |exact HF]. intros s. eapply picked_in. exact Hl.
  Qed.
  (** Whatever was asked before, the symbols of the file that have the names *)
  Theorem C83_elf : forall cs ops H fuel src names cnt h p l ptr data e st dt, asks_for cs ops ->
    asks_syms (hp_get h) fuel src names cnt p false l -> steady (ops ++ [ILookup (w H) (IElf (path_of p) false) l]) ->
    is_bytes p -> file_at H p ptr data -> elf_program x ptr data e st dt -> elf_sections e st dt -> placed e st -> placed e dt ->
    exists ls, Forall2 (elf_named p e st dt) l ls /\ fst (i_lookup (w H) (IElf (path_of p) false) l (i_run ops)) = Ok ls /\
    (lists_room ls <= 2 ^ 63 - 8 -> shown_infos al m ls h (fst (blaze_inspect_syms_elf al m (w H) fuel src names cnt (c_inspected al m cs) h))).
  Proof.
    intros cs ops H fuel src names cnt h p l ptr data e st dt Hc Ha Hs Hb Hf Hp Hsec P1 P2.
    destruct (C75_lookup x m pick rest Hx ops H p ptr data e st dt l Hs Hb Hf Hp Hsec) as (ls & E & HF). exists ls. split; [exact HF|]. split; [exact E|]. intros Hr.
    rewrite (C83_history al m cs ops Hc). eapply C83_lookup; [exact Hal|exact Ha|exact E|]. split; [|exact Hr].
    destruct Hp as (_ & _ & _ & _ & S1 & S2 & _). clear - HF P1 P2 S1 S2. induction HF as [|name r l ls Hn HF IH]; constructor; auto. exact (named_fine p e st dt name r S1 S2 P1 P2 Hn).
  Qed.
End Files.
Print Assumptions C83_build_id_file.
Print Assumptions C83_build_id_none.
Print Assumptions C83_elf.

Lemma reported_fine : forall p e f i, segments_ok e -> snd (fst f) < 2 ^ 64 -> reported p e f i -> info_ok i.
Proof.
  intros p e [[n a] z] i Hs Ha (_ & E & _ & _ & Ho & _). cbn [fst snd] in Ha. split; [now rewrite E|].
  destruct Ho as [(s & Hl & Hat & ->)|(_ & ->)]; [|exact I]. destruct (Hs s Hl) as (B1 & B2). cbn [opt_lt]. unfold in_memory, two64 in *. lia.
Qed.
Lemma somes_in : forall A (os : list (option A)) f, In f (DwarfSymSpec.somes os) -> In (Some f) os.
Proof. induction os as [|[a|] os IH]; cbn; intros f Hf; [contradiction|destruct Hf as [->|Hf]; auto|auto]. Qed.
Lemma firsts_in : forall name (ls : list (list (list N * N * N))) os f, Forall2 (first_of name) ls os -> In (Some f) os -> exists l, In l ls /\ In f l.
Proof.
  intros name ls os f HF. induction HF as [|l o ls os Hl _ IH]; cbn; intros Hi; [contradiction|]. destruct Hi as [->|Hi].
  - destruct Hl as (_ & b & a & -> & _). exists (b ++ f :: a). split; [now left|]. apply in_or_app. right. now left.
  - destruct (IH Hi) as (l' & ? & ?). eauto.
Qed.
Section Debug.
  Context (al : allocator) (Hal : sound al) (x : ext) (m : mode) (pick : N -> N -> N) (d : debug_env) (rest : world (N * list N) parser) (H : host).
  Context (Hx : sorts x) (Hsort : Search.sorter_ok (de_sort d)).
  Notation w := (host_world x m pick (debug_rest x m d H rest) H).
  (** With debug information: functions of it or, there being none, symbols *)
  Theorem C83_debug : forall cs ops fuel src names cnt h p l ptr data e o us sets hs fs q ptr' data' e' st dt, asks_for cs ops ->
    asks_syms (hp_get h) fuel src names cnt p true l -> steady (ops ++ [ILookup w (IElf (path_of p) true) l]) ->
    is_bytes p -> file_at H p ptr data -> elf_file ptr data e -> segments_ok e -> informed m d H p ptr data o us sets hs -> units_list us fs ->
    Forall (Forall (fun f => snd (fst f) < 2 ^ 64)) fs ->
    symbols_in p ptr data o = (q, ptr', data') -> elf_program x ptr' data' e' st dt -> elf_sections e' st dt -> placed e' st -> placed e' dt ->
    exists ls, Forall2 (debug_named p e fs q e' st dt) l ls /\ fst (i_lookup w (IElf (path_of p) true) l (i_run ops)) = Ok ls /\
    (lists_room ls <= 2 ^ 63 - 8 -> shown_infos al m ls h (fst (blaze_inspect_syms_elf al m w fuel src names cnt (c_inspected al m cs) h))).
  Proof.
    intros cs ops fuel src names cnt h p l ptr data e o us sets hs fs q ptr' data' e' st dt Hc Ha Hs Hb Hf He Hseg Hi Hu Ha64 Eo Hp Hsec P1 P2.
    destruct (C81_lookup x m pick d rest H Hx ops p ptr data e o us sets hs fs q ptr' data' e' st dt l Hs Hb Hf He Hseg Hi Hu Eo Hp Hsec) as (ls & E & HF).
    exists ls. split; [exact HF|]. split; [exact E|]. intros Hr. rewrite (C83_history al m cs ops Hc). eapply C83_lookup; [exact Hal|exact Ha|exact E|]. split; [|exact Hr].
    destruct Hp as (_ & _ & _ & _ & S1 & S2 & _). clear - HF P1 P2 S1 S2 Hseg Ha64.
    induction HF as [|name r l ls (os & F & [(_ & D)|(_ & D)]) HF IH]; constructor; auto; [|exact (named_fine q e' st dt name r S1 S2 P1 P2 D)].
    assert (K : forall f, In f (DwarfSymSpec.somes os) -> snd (fst f) < 2 ^ 64).
    { intros f Hf. apply somes_in in Hf. destruct (firsts_in _ _ _ _ F Hf) as (k & K1 & K2). rewrite Forall_forall in Ha64. specialize (Ha64 k K1). rewrite Forall_forall in Ha64. auto. }
    clear F. induction D as [|f i fl r Hf D IHD]; [constructor|]. constructor; [eapply reported_fine; [exact Hseg|apply K; now left|exact Hf]|apply IHD; intros; apply K; now right].
  Qed.
End Debug.
Print Assumptions C83_debug.

(** ** Examples *)

(** The program's memory: the path at 4096, an array of names at 4112, the
    names after it, and a variable for lengths at 4160 *)
Definition ic_bytes : list N := ex_q ++ repeat 0 (16 - length ex_q)%nat ++ le_bytes 8 4128 ++ le_bytes 8 4136 ++
  ex_helper ++ [0; 0] ++ [109; 97; 105; 110; 0; 0; 0; 0] ++ repeat 0 24.
Definition ic_mem : mem := fun i => if (4096 <=? i) && (i <? 4096 + 72) then nnth (i - 4096) ic_bytes else None.
Definition ic_heap : heap := Heap [Lay 4096 72 8] ic_mem.
Definition ic_names : list (list N) := [ex_helper; [109; 97; 105; 110]].
Definition ic_src : list N := le_bytes 8 24 ++ le_bytes 8 4096 ++ repeat 0 8.
Definition ic_call (h : heap) : res (Z * N * heap) := fst (blaze_inspect_syms_elf nc_alloc Checked ex_w 20 ic_src 4112 2 i_new h).
(* The second symbol of the first name, and its name *)
Example C83_call_ex :
  (let* '(code, p, h) := ic_call ic_heap in
   let* infos := get_num 8 p h in
   let* name := get_num 8 (infos + 64) h in
   let* text := read_cstr (hp_get h) 100 name in
   let* addr := get_num 8 (infos + 64 + 8) h in
   let* h' := free_block p h in
   Ok (code, text, addr, nlen (hp_live h), hp_live h')) = Ok (0%Z, ex_helper, 4136, 2, [Lay 4096 72 8]).
Proof. vm_compute. reflexivity. Qed.
Ltac ic_string := split; [vm_compute; intuition discriminate|];
  intros i z E; repeat (destruct i as [|i]; [exact E|]); destruct i; discriminate E.
Lemma ic_asks : asks_syms ic_mem 20 ic_src 4112 2 ex_q false ic_names.
Proof.
  split; [|split; [|reflexivity]].
  - exists ic_src. split; [split; [split; [repeat constructor; reflexivity|split; [split; [vm_compute; discriminate|reflexivity]|reflexivity]]|exists []; reflexivity]|]. split.
    + intros i Hi. unfold byte. destruct (N.ltb_spec i 24) as [L|L]; [|apply nth_overflow; cbn; lia].
      assert (K : forallb (fun j => nth j ic_src 0 =? 0) (seq 17 7) = true) by reflexivity. rewrite forallb_forall in K. apply N.eqb_eq, K, in_seq. lia.
    + split; [|reflexivity]. split; [|cbn; lia]. change (value ic_src 8 8) with 4096. ic_string.
  - exists [4128; 4136]. split; [|split; [|repeat constructor]].
    + split; [discriminate|]. intros i v E. assert (Hi : (i < 2)%nat) by (apply (nth_error_Some [4128; 4136] i); congruence).
      exists (le_bytes 8 v). do 2 (destruct i as [|i];
        [injection E as <-; split; [reflexivity|]; split; [repeat constructor; reflexivity|]; split; [reflexivity|];
         intros i z Hz; do 8 (destruct i as [|i]; [exact Hz|]); destruct i; discriminate|]). lia.
    + constructor; [split; [ic_string|cbn; lia]|]. constructor; [split; [ic_string|cbn; lia]|constructor].
Qed.
Definition placed_b (e : image) (t : symtab) : bool :=
  forallb (fun s => match nnth (st_shndx s) (i_sections e) with
                    | Some sec => (sh_addr (s_hdr sec) <=? st_value s) && (st_value s + sh_offset (s_hdr sec) <? two64)
                    | None => true
                    end) (t_syms t).
Lemma placed_check : forall e t, placed_b e t = true -> placed e t.
Proof.
  intros e t H s sec Hi _ En _. unfold placed_b in H. rewrite forallb_forall in H. specialize (H s Hi). rewrite En, Bool.andb_true_iff, N.leb_le, N.ltb_lt in H. exact H.
Qed.
(* After a call before, and one that is refused *)
Definition ic_calls : list (cinspect (N * list N) parser) :=
  [CInspect ex_w ic_heap 20 ic_src 4112 2; CInspect ex_w ic_heap 20 (le_bytes 8 24 ++ le_bytes 8 4096 ++ repeat 1 8) 4112 2].
Example C83_elf_ex : exists ls, Forall2 (elf_named ex_q PropElf.ex_e PropElf.ex_st PropElf.ex_dt) ic_names ls /\
  map (map si_addr) ls = [[4128; 4136]; [4096]] /\
  exists p h', fst (blaze_inspect_syms_elf nc_alloc Checked ex_w 20 ic_src 4112 2 (c_inspected nc_alloc Checked ic_calls) ic_heap) = Ok (0%Z, p, h') /\
    obtained ic_heap h' p (TInfos ls).
Proof.
  destruct (C83_elf nc_alloc nc_sound ElfExample.no_ext Checked (fun _ _ => 0) ex_rest ElfExample.no_ext_sorts ic_calls
    [ILookup ex_w (IElf (path_of ex_q) false) ic_names] ex_host 20 ic_src 4112 2 ic_heap ex_q ic_names 4096 PropElf.ex_data
    PropElf.ex_e PropElf.ex_st PropElf.ex_dt) as (ls & HF & E & K).
  - unfold ic_calls. apply (AfAsks (CInspect ex_w ic_heap 20 ic_src 4112 2) _ ex_q false ic_names); [exact ic_asks|].
    apply AfTooMuch; [|constructor]. exists (le_bytes 8 24 ++ le_bytes 8 4096 ++ repeat 1 8). split; [split; [split; [|split; [split; [vm_compute; discriminate|reflexivity]|reflexivity]]|exists []; reflexivity]|].
    + cbn [cn_src]. repeat constructor; reflexivity.
    + intros F. specialize (F 18 ltac:(lia)). vm_compute in F. discriminate F.
  - exact ic_asks.
  - apply ex_steady.
    + intros c [<-|[<-|[]]]; reflexivity.
    + intros c p [<-|[<-|[]]]; discriminate.
  - repeat constructor.
  - apply ex_at.
  - exact ex_program.
  - exact PropElf.ex_sections.
  - apply placed_check. vm_compute. reflexivity.
  - apply placed_check. vm_compute. reflexivity.
  - vm_compute in E. injection E as <-. eexists. split; [exact HF|]. split; [reflexivity|].
    destruct K as [(p & h' & E & _ & O)|(_ & F)]; [vm_compute; discriminate| |vm_compute in F; discriminate F].
    exists p, h'. split; [exact E|exact O].
Qed.

(* A build ID, with its length, and then an array of symbols, given back in
   this order *)
Definition ic_id (h : heap) : res (Z * N * heap) := blaze_read_elf_build_id nc_alloc (lib_build_id ElfExample.no_ext Checked nx_host) 20 4096 4160 h.
Example C83_build_id_ex :
  (let* '(code, p, h) := ic_id ic_heap in
   let* len := get_num 8 4160 h in
   let* id := read_at (hp_get h) p (N.to_nat len) in
   let* '(code', q, h) := ic_call h in
   let* h := c_free p h in
   let* infos := get_num 8 q h in
   let* addr := get_num 8 (infos + 64 + 8) h in
   let* h' := free_block q h in
   Ok (code, id, code', addr, nlen (hp_live h), hp_live h')) = Ok (0%Z, [222; 173; 190; 239; 1], 0%Z, 4136, 2, [Lay 4096 72 8]).
Proof. vm_compute. reflexivity. Qed.
Example C83_build_id_file_ex : exists h1, length_is ic_heap h1 4160 5 /\
  shown_id nc_alloc (Some [222; 173; 190; 239; 1]) h1 (ic_id ic_heap).
Proof.
  apply (C83_build_id_file nc_alloc nc_sound ElfExample.no_ext Checked nx_host 20 4096 ex_q 4160 ic_heap 4096 nx_data (fst PropBuildId.id_made) (Some [222; 173; 190; 239; 1])).
  - split; [ic_string|cbn; lia].
  - right. split; [reflexivity|]. exists (Lay 4096 72 8). split; [now left|]. cbn. lia.
  - split; [eexists|]; vm_compute; reflexivity.
  - apply nx_elf.
  - apply nx_elf.
  - reflexivity.
Qed.
Definition ic_infos : list (list sym_info) := [[SymInfo ex_helper 4128 (Some 16) TFunction (Some 288) (Some ex_q)]; []].
Definition ic_holds (b : list N) (h : heap) : res (N * N * heap) :=
  let '(p, h) := malloc nc_alloc (nlen b) h in
  let* h := h_put 1 p b h in
  let* r := convert_syms_list_to_c nc_alloc Checked ic_infos h in
  match r with
  | Some (q, h) => let* h := c_free p h in Ok (p, q, h)
  | None => Panic
  end.
Example C83_program_ex : exists p q h, ic_holds [1; 2; 3] ic_heap = Ok (p, q, h) /\ p <> 0 /\
  program nc_alloc 0 Checked ic_heap [(q, TInfos ic_infos)] h.
Proof.
  assert (K : (let* '(p, q, _) := ic_holds [1; 2; 3] ic_heap in Ok (negb (p =? 0))) = Ok true) by (vm_compute; reflexivity).
  unfold ic_holds in *. destruct (malloc nc_alloc (nlen [1; 2; 3]) ic_heap) as [p h0] eqn:E0.
  destruct (h_put 1 p [1; 2; 3] h0) as [h1|k| |] eqn:E1; cbn [bind] in K; try discriminate K.
  destruct (convert_syms_list_to_c nc_alloc Checked ic_infos h1) as [[(q & h2)|]|k| |] eqn:E2; cbn [bind] in K; try discriminate K.
  destruct (c_free p h2) as [h3|k| |] eqn:E3; cbn [bind] in K; try discriminate K. cbn [bind]. rewrite E2. cbn [bind]. rewrite E3.
  destruct (N.eqb_spec p 0) as [|Hp]; [discriminate K|]. exists p, q, h3. split; [reflexivity|]. split; [exact Hp|].
  apply (PgFree nc_alloc 0 Checked ic_heap [(q, TInfos ic_infos)] [] p (TBytes [1; 2; 3]) h2 h3); [|exact E3].
  apply PgGet with (h := h1); [|split; [repeat constructor|vm_compute; discriminate]|exact I|exact E2].
  apply PgGet with (h := ic_heap); [constructor|exact I|exact I|]. exists h0. auto.
Qed.

(** A file with notes out of its bounds ends the program. *)
Theorem C83_build_id_crash_refuted : exists H path data, file_at H path 0 data /\ is_bytes data /\
  forall al fuel p len h r, path_at (hp_get h) fuel p path -> blaze_read_elf_build_id al (lib_build_id ElfExample.no_ext Wrapping H) fuel p len h <> Ok r.
Proof.
  exists (Host (fun _ => Good (FileMeta 1 1 0 0%Z 0%Z)) (fun _ => Good (0, PropBuildId.cut_data)) (h_maps ex_host) (h_memory ex_host) 42 (fun _ => 8)), ex_q, PropBuildId.cut_data.
  split; [split; [eexists|]; reflexivity|]. split; [apply Forall_forall; intros v Hv; apply N.ltb_lt; revert v Hv; rewrite <- forallb_forall; vm_compute; reflexivity|].
  intros al fuel p len h r (Hs & Hl). unfold blaze_read_elf_build_id. rewrite (read_string _ _ _ _ Hs Hl). cbn [bind].
  replace (lib_build_id _ _ _ _) with (@Panic (option (list N))) by (vm_compute; reflexivity). discriminate.
Qed.
Print Assumptions C83_build_id_crash_refuted.
