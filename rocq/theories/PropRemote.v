(** * C71: normalizing first and symbolizing later *)

From Verif Require Import Base Util UtilProofs Amap Maps Sym Normalize NormalizeProofs FileCache Symbolizer SymbolizerSpec
  SymbolizerState SymbolizerProcess HistorySpec RemoteSpec.
From Verif Require PropNormalize PropSymBatch Nom.
From Verif Require Import SymbolizerDemo.
From Coq Require Import String.
Local Open Scope N_scope.
Local Notation length := List.length.

Section Remote.
  Context {File Parser : Type}.
  Notation world := (world File Parser).
  Notation state := (state File Parser).
  Implicit Types (w : world) (s : state).

  (** ** One address of a process *)
  Lemma process_single : forall m cf w p o es a s, uses_vmas w p s es -> disjoint es -> es <> [] ->
    symbolize_single m cf w (SProcess p o) AbsAddr a s =
    match lookup es a with
    | None => (Ok (Unknown Unmapped), s)
    | Some e =>
        let '(r, h) := handle_entry m cf w p o a e (HState [] s) in
        (let* _ := r in let* l := reorder (hs_syms h) [0%nat] in unwrap (hd_error l), hs_state h)
    end.
  Proof.
    intros m cf w p o es a s Hu Hd Hne. unfold symbolize_single. cbn [symbolize_impl]. unfold user_addrs.
    assert (Hi : match aget pid_eqb p (s_vmas s) with Some es => Ok (map Ok es) | None => of_outcome (w_maps w p) end = Ok (map Ok es)).
    { unfold uses_vmas in Hu. destruct (aget pid_eqb p (s_vmas s)); [now subst|now rewrite Hu]. }
    rewrite Hi. cbn [then_]. change (map fst (isort pair_leb (enumerate [a]))) with [a].
    change (map snd (isort pair_leb (enumerate [a]))) with [0%nat].
    destruct es as [|e rest]; [congruence|]. unfold pass. cbn [map then_ pass_loop]. rewrite N.ltb_irrefl.
    destruct (find_entry_iter (H:=unit) (fun _ _ h => h) (fun _ _ h => Ok h) rest (S (length (map Ok rest))) a e) as (found & e' & rest' & E1 & E2 & E3 & E4 & E5).
    { rewrite map_length. lia. }
    { exact Hd. }
    rewrite E1. cbn [then_]. rewrite <- (E4 a) by lia.
    assert (Hun : lookup (e' :: rest') a = None ->
      then_ (let '(r, h) := pass_loop (fun _ r h => push (Unknown r) h) (handle_entry m cf w p o) (S (length (map Ok rest))) [] a e' (map Ok rest') (push (Unknown Unmapped) (HState [] s)) in
        (let* _ := r in reorder (hs_syms h) [0%nat], hs_state h)) (fun l s => (unwrap (hd_error l), s)) =
      match lookup (e' :: rest') a with
      | None => (Ok (Unknown Unmapped), s)
      | Some e => let '(r, h) := handle_entry m cf w p o a e (HState [] s) in
        (let* _ := r in let* l := reorder (hs_syms h) [0%nat] in unwrap (hd_error l), hs_state h)
      end).
    { intros ->. reflexivity. }
    destruct found; cbn [negb orb].
    - destruct (N.ltb_spec a (me_start e')).
      + apply Hun. apply lookup_below. constructor; auto. apply disjoint_cons in E2. destruct E2 as (_ & _ & E2).
        eapply Forall_impl; [|exact E2]. intros v Hv. simpl in Hv. lia.
      + rewrite lookup_hit by lia. destruct (handle_entry m cf w p o a e' (HState [] s)) as [[u|k| |] h]; cbn [then_ bind]; try reflexivity.
        destruct (reorder (hs_syms h) [0%nat]); reflexivity.
    - destruct E5 as [-> E5]. apply Hun. apply lookup_none. intros v [<-|[]]. lia.
  Qed.
  Lemma reorder_one : forall (x : symbolized), reorder [x] [0%nat] = Ok [x].
  Proof. reflexivity. Qed.

  Lemma pushed : forall (r : res symbolized) s,
    (let '(r, h) := then_ (r, HState [] s) (fun x h => (Ok tt, push x h)) in
     (let* _ := r in let* l := reorder (hs_syms h) [0%nat] in unwrap (hd_error l), hs_state h)) = (r, s).
  Proof. intros [x|k| |] s; reflexivity. Qed.
  Lemma push_translated_as : forall m cf off (r : resolver) (h : hstate File Parser),
    push_translated m cf off r h = then_ (translated m cf off r, h) (fun x h => (Ok tt, push x h)).
  Proof.
    intros m cf off r h. unfold push_translated, translated, push_sym. destruct (r_virt r off) as [[v|]|k| |]; cbn [bind then_]; try reflexivity.
  Qed.

  Definition actual (o : popts) (maps_file symbolic : list N) : list N := if po_map_files o then maps_file else symbolic.
  Lemma elf_single : forall m cf w q d off s,
    symbolize_single m cf w (SElf q d) FileOffset off s =
    (let '(r, c) := elf_resolver w q q d (s_elf s) in (let* x := r in translated m cf off (er_resolver x), set_elf c s)).
  Proof.
    intros m cf w q d off s. unfold symbolize_single. cbn [symbolize_impl]. unfold on_elf.
    destruct (elf_resolver w q q d (s_elf s)) as [[x|k| |] c]; cbn [then_ bind each]; try reflexivity.
    destruct (translated m cf off (er_resolver x)) as [y|k| |]; reflexivity.
  Qed.
  Lemma apk_single : forall m cf w q d off s,
    symbolize_single m cf w (SApk q d) FileOffset off s =
    (let '(r, c) := apk_resolver m w q q off d (s_apk s) in
     (let* x := r in match x with Some (r, addr) => with_resolver m cf addr r | None => Ok (Unknown InvalidFileOffset) end, set_apk c s)).
  Proof.
    intros m cf w q d off s. unfold symbolize_single. cbn [symbolize_impl each]. unfold on_apk.
    destruct (apk_resolver m w q q off d (s_apk s)) as [[[[r v]|]|k| |] c]; cbn [then_ bind]; try reflexivity.
    destruct (with_resolver m cf v r) as [y|k| |]; reflexivity.
  Qed.
  (** What is done for an address in a mapping *)
  Lemma entry_single : forall m cf w p o a e s off, w_dispatch w = None ->
    (let* d := sub64 m a (me_start e) in add64 m d (me_offset e)) = Ok off ->
    (let '(r, h) := handle_entry m cf w p o a e (HState [] s) in
     (let* _ := r in let* l := reorder (hs_syms h) [0%nat] in unwrap (hd_error l), hs_state h)) =
    match me_path e with
    | Some (PPath mf sy) =>
        if beq (extension sy) str_apk || beq (extension sy) str_zip then
          let '(r, c) := apk_resolver m w (path_of (actual o mf sy)) (path_of sy) off (po_debug o) (s_apk s) in
          (let* x := r in match x with Some (r, addr) => with_resolver m cf addr r | None => Ok (Unknown InvalidFileOffset) end, set_apk c s)
        else
          let '(r, c) := elf_resolver w (path_of (actual o mf sy)) (path_of sy) (po_debug o) (s_elf s) in
          (let* x := r in translated m cf off (er_resolver x), set_elf c s)
    | Some (PComponent c) =>
        if po_vdso o && beq c str_vdso then
          let '(r, s) := vdso_parser w p (me_start e) (me_end e) s in (let* r := r in translated m cf off r, s)
        else (Ok (Unknown Unsupported), s)
    | None =>
        if po_perf_map o then
          let '(r, c) := perf_map_resolver cf w p (s_perf s) in
          (let* x := r in match x with Some r => with_resolver m cf a r | None => Ok (Unknown UnknownAddr) end, set_perf c s)
        else (Ok (Unknown UnknownAddr), s)
    end.
  Proof.
    intros m cf w p o a e s off Hn Eo. unfold handle_entry. rewrite Eo. cbn [then_].
    assert (Hd : forall name h, on_state (dispatch_resolver w (me_start e) (me_end e) name) h = (Ok None, h)).
    { intros name [l s']. unfold on_state, dispatch_resolver. rewrite Hn. reflexivity. }
    destruct (me_path e) as [[mf sy|c]|] eqn:Ep.
    - rewrite Hd. cbn [then_]. unfold handle_default. rewrite Ep. destruct (beq (extension sy) str_apk || beq (extension sy) str_zip).
      + unfold handle_apk_addr, on_state, on_apk, actual. cbn [hs_state hs_syms].
        destruct (apk_resolver _ _ _ _ _ _ _) as [[[[r v]|]|k| |] c]; cbn [then_ bind]; try reflexivity.
        unfold push_sym. apply (pushed (with_resolver m cf v r)).
      + unfold handle_elf_addr, on_state, on_elf, actual. cbn [hs_state hs_syms].
        destruct (elf_resolver _ _ _ _ _) as [[x|k| |] c]; cbn [then_ bind]; try reflexivity.
        rewrite push_translated_as. apply pushed.
    - rewrite Hd. cbn [then_]. unfold handle_default. rewrite Ep. destruct (po_vdso o && beq c str_vdso); [|reflexivity].
      unfold handle_vdso_addr, on_state. cbn [hs_state hs_syms]. destruct (vdso_parser _ _ _ _ _) as [[x|k| |] s']; cbn [then_ bind]; try reflexivity.
      rewrite push_translated_as. apply pushed.
    - unfold handle_default. rewrite Ep. destruct (po_perf_map o); [|reflexivity].
      unfold handle_perf_map_addr, on_state, on_perf. cbn [hs_state hs_syms].
      destruct (perf_map_resolver _ _ _ _) as [[[r|]|k| |] c]; cbn [then_ bind]; try reflexivity.
      unfold push_sym. apply (pushed (with_resolver m cf a r)).
  Qed.
  Lemma offset_ok : forall m es e a, PropNormalize.wf_space es -> In e es -> PropNormalize.contains_addr e a -> a < two64 ->
    (let* d := sub64 m a (me_start e) in add64 m d (me_offset e)) = Ok (a - me_start e + me_offset e).
  Proof.
    intros m es e a (Hd & Ho & _) He (H1 & H2) Ha. rewrite Forall_forall in Ho. specialize (Ho e He).
    unfold sub64, add64. rewrite usub_small by lia. cbn [bind]. apply uadd_small. lia.
  Qed.

  Lemma some_mapping : forall Sym (env : nenv Sym) no m es src vis cache fuel cached addrs out,
    PropNormalize.wf_space es -> PropNormalize.wf_archives env -> PropNormalize.source_of es src vis -> (length es < fuel)%nat ->
    cached = None \/ cached = Some vis -> normalize_opts m env no cache fuel src cached addrs = Ok out -> vis <> [].
  Proof.
    intros Sym env no m es src vis cache fuel cached addrs out Hw Ha Hs Hf Hc E Hv.
    assert (X : forall ts, fst (normalize_iter m env no cache fuel src cached ts) = Err EUnexpectedEof).
    { intros ts. apply (PropNormalize.iter_run env no m es src vis cache fuel cached ts); auto. subst vis. unfold PropNormalize.starts.
      destruct src; [tauto|]. destruct cache; [tauto|]. intros (v & [] & _). }
    unfold normalize_opts, with_ordered_elems in E. rewrite !X in E. destruct (no_sorted_addrs no); discriminate.
  Qed.
  Lemma archive_ext : forall sy, PropNormalize.is_archive sy -> beq (extension sy) str_apk || beq (extension sy) str_zip = true.
  Proof. intros sy H. now apply PropNormalize.ext_archive. Qed.
  Lemma no_archive_ext : forall sy, ~ PropNormalize.is_archive sy -> beq (extension sy) str_apk || beq (extension sy) str_zip = false.
  Proof. intros sy H. destruct (_ || _) eqn:E; auto. apply PropNormalize.ext_archive in E. contradiction. Qed.

  Lemma vis_full : forall es src vis v, PropNormalize.source_of es src vis -> In v vis -> In v (filter PropNormalize.interesting es).
  Proof.
    intros es src vis v Hs. destruct Hs as [|q Hq]; auto. rewrite !filter_In. intros (H1 & H2). split; auto.
    unfold PropNormalize.interesting, PropNormalize.interesting_q in *. now rewrite H2.
  Qed.
  (** Execute-only mappings are not seen by the query interface. *)
  Definition seen (es vis : list maps_entry) (a : N) : Prop :=
    forall v, In v es -> PropNormalize.contains_addr v a -> PropNormalize.interesting v = true -> In v vis.
  Lemma seen_text : forall es a, seen es (filter PropNormalize.interesting es) a.
  Proof. intros es a v Hv _ Hi. apply filter_In. auto. Qed.
  Lemma seen_readable : forall es a, (forall v, In v es -> PropNormalize.contains_addr v a -> PropNormalize.readable v) ->
    seen es (filter PropNormalize.interesting_q es) a.
  Proof. intros es a H v Hv Hc _. apply filter_In. split; auto. exact (H v Hv Hc). Qed.
  (** All but the files *)
  Lemma relate : forall (R : res symbolized -> res symbolized -> Prop) m cf w at_ w' s' p o s env no es src vis cache fuel cached addrs out,
    (forall x y, agree x y -> R x y) ->
    PropNormalize.wf_space es -> PropNormalize.wf_archives env -> PropNormalize.source_of es src vis -> (length es < fuel)%nat ->
    cached = None \/ cached = Some vis -> normalize_opts m env no cache fuel src cached addrs = Ok out ->
    no_apk_to_elf no = false ->
    uses_vmas w p s (filter PropNormalize.interesting es) -> w_dispatch w = None -> po_vdso o = true -> same_vdso m cf w p s env vis ->
    (forall v f q off, In v vis -> me_path v = Some (PPath f q) -> ~ PropNormalize.is_archive q ->
      R (fst (let '(r, c) := elf_resolver w (path_of (actual o f q)) (path_of q) (po_debug o) (s_elf s) in
              (let* x := r in translated m cf off (er_resolver x), set_elf c s)))
        (fst (symbolize_single m cf w' (SElf (at_ (PropNormalize.chosen no f q)) (po_debug o)) FileOffset off s'))) ->
    (forall v f q off, In v vis -> me_path v = Some (PPath f q) -> PropNormalize.is_archive q ->
      R (fst (let '(r, c) := apk_resolver m w (path_of (actual o f q)) (path_of q) off (po_debug o) (s_apk s) in
              (let* x := r in match x with Some (r, addr) => with_resolver m cf addr r | None => Ok (Unknown InvalidFileOffset) end, set_apk c s)))
        (fst (symbolize_single m cf w' (SApk (at_ (PropNormalize.chosen no f q)) (po_debug o)) FileOffset off s'))) ->
    forall n a x i, nth_error addrs n = Some a -> nth_error (uo_outputs out) n = Some (x, i) -> a < two64 -> seen es vis a ->
    (forall e, In e vis -> PropNormalize.contains_addr e a -> me_path e = None -> po_perf_map o = false) ->
    exists mt, nth_error (uo_meta out) i = Some mt /\
      R (fst (symbolize_single m cf w (SProcess p o) AbsAddr a s)) (later m cf w' at_ (po_debug o) x mt s').
  Proof.
    intros R m cf w at_ w' s' p o s env no es src vis cache fuel cached addrs out HR Hw Har Hs Hf Hc E Hae Hu Hdi Hvd Hsv HE HA n a x i En Ex Ha Hse Hpf.
    assert (Hwv : PropNormalize.wf_space vis) by (destruct Hs; now apply PropNormalize.wf_space_filter).
    pose proof (some_mapping sym env no m es src vis cache fuel cached addrs out Hw Har Hs Hf Hc E) as Hne.
    pose proof (PropNormalize.C10_attribution sym env no m es src vis cache fuel cached addrs out Hw Har Hs Hf Hc E) as H.
    destruct (Forall2_nth_l _ _ _ _ _ H n a En) as ([x' i'] & Ex' & mt & Hi & Hat).
    rewrite Ex in Ex'. injection Ex' as <- <-. exists mt. split; auto.
    set (full := filter PropNormalize.interesting es) in *.
    assert (Hwf : PropNormalize.wf_space full) by now apply PropNormalize.wf_space_filter.
    assert (Hsub : forall v, In v vis -> In v full) by (intros v; exact (vis_full es src vis v Hs)).
    assert (Hnf : full <> []). { destruct vis as [|v0 ?]; [congruence|]. intros Z. specialize (Hsub v0 (or_introl eq_refl)). rewrite Z in Hsub. destruct Hsub. }
    rewrite (process_single m cf w p o full a s Hu (proj1 Hwf) Hnf).
    assert (Hl : forall v, In v vis -> PropNormalize.contains_addr v a -> lookup full a = Some v)
      by (intros v Hv Hcv; exact (lookup_unique full a v (proj1 Hwf) (Hsub v Hv) Hcv)).
    assert (Hvdso : forall v vd, In v vis -> PropNormalize.contains_addr v a -> me_path v = Some (PComponent [91; 118; 100; 115; 111; 93]) ->
      nv_vdso env (me_start v) (me_end v) = Good vd ->
      exists r, fst (let '(r, h) := handle_entry m cf w p o a v (HState [] s) in
         (let* _ := r in let* l := reorder (hs_syms h) [0%nat] in unwrap (hd_error l), hs_state h)) = translated m cf (a - me_start v + me_offset v) r /\
       (forall off, r_virt r off = vd_virt_offset vd off) /\
       forall va, with_resolver m cf va r =
        let* x := vd_symbolize vd va in Ok (match x with inl y => Known y | inr reason => Unknown reason end)).
    { intros v vd Hv Hcv Ep Ev. destruct (Hsv v Hv Ep vd Ev) as (r & Er & R1 & R2). exists r. split; auto.
      rewrite (entry_single m cf w p o a v s _ Hdi (offset_ok m vis v a Hwv Hv Hcv Ha)), Ep, Hvd. cbn [andb]. change (beq _ str_vdso) with true. cbn [fst].
      destruct (vdso_parser w p (me_start v) (me_end v) s) as [r0 s0]. cbn [fst] in *. subst r0. reflexivity. }
    destruct Hat as [Hno|v Hv Hcv Ev|v c Hv Hcv Ev Hc'|v vd va y Hv Hcv Ev Evd Eva Ey|v vd va r Hv Hcv Ev Evd Eva Ey|v vd Hv Hcv Ev Evd Eva
      |v f q b Hv Hcv Ev Hn' Hid|v f q Hv Hcv Ev Hn' Hap|v f q ms mb b Hv Hcv Ev Hn' Hap|v f q ms Hv Hcv Ev Hn' Hap]; try congruence.
    - rewrite (proj2 (lookup_none full a)). { apply HR, AgSame. }
      intros v Hv. apply filter_In in Hv. destruct Hv as (Hv & Hi'). 
      destruct (N.lt_ge_cases a (me_start v)) as [?|G1]; [lia|]. destruct (N.le_gt_cases (me_end v) a) as [?|G2]; [lia|].
      exfalso. apply (Hno v); [apply Hse|]; auto; split; auto.
    - rewrite (Hl v Hv Hcv). rewrite (entry_single m cf w p o a v s _ Hdi (offset_ok m vis v a Hwv Hv Hcv Ha)), Ev.
      rewrite (Hpf v Hv Hcv Ev). apply HR, AgAnonymous.
    - rewrite (Hl v Hv Hcv). rewrite (entry_single m cf w p o a v s _ Hdi (offset_ok m vis v a Hwv Hv Hcv Ha)), Ev.
      assert (Hb : beq c str_vdso = false). { destruct (beq c str_vdso) eqn:Eb; auto. apply beq_eq in Eb. now apply Hc' in Eb. }
      rewrite Hb, andb_false_r. apply HR, AgSame.
    - rewrite (Hl v Hv Hcv). destruct (Hvdso v vd Hv Hcv Ev Evd) as (r & -> & R1 & R2). unfold translated. rewrite R1, Eva. cbn [bind]. rewrite R2, Ey. apply HR, AgSame.
    - rewrite (Hl v Hv Hcv). destruct (Hvdso v vd Hv Hcv Ev Evd) as (r' & -> & R1 & R2). unfold translated. rewrite R1, Eva. cbn [bind]. rewrite R2, Ey. apply HR, AgSame.
    - rewrite (Hl v Hv Hcv). destruct (Hvdso v vd Hv Hcv Ev Evd) as (r' & -> & R1 & R2). unfold translated. rewrite R1, Eva. apply HR, AgVdso.
    - rewrite (Hl v Hv Hcv). rewrite (entry_single m cf w p o a v s _ Hdi (offset_ok m vis v a Hwv Hv Hcv Ha)), Ev, (no_archive_ext q Hn').
      exact (HE v f q _ Hv Ev Hn').
    - rewrite (Hl v Hv Hcv). rewrite (entry_single m cf w p o a v s _ Hdi (offset_ok m vis v a Hwv Hv Hcv Ha)), Ev, (archive_ext q Hn').
      exact (HA v f q _ Hv Ev Hn').
  Qed.
  (** Symbolizing what normalizing gives, with paths as the maps have them,
      gives what symbolizing the address gives, whatever was done with the
      [Symbolizer] before. *)
  Theorem C71_direct : forall m cf w p o s env no es src vis cache fuel cached addrs out,
    PropNormalize.wf_space es -> PropNormalize.wf_archives env -> PropNormalize.source_of es src vis -> (length es < fuel)%nat ->
    cached = None \/ cached = Some vis -> normalize_opts m env no cache fuel src cached addrs = Ok out ->
    no_map_files no = false -> no_apk_to_elf no = false ->
    uses_vmas w p s (filter PropNormalize.interesting es) -> w_dispatch w = None -> po_map_files o = false -> po_vdso o = true -> same_vdso m cf w p s env vis ->
    forall n a x i, nth_error addrs n = Some a -> nth_error (uo_outputs out) n = Some (x, i) -> a < two64 -> seen es vis a ->
    (forall e, In e vis -> PropNormalize.contains_addr e a -> me_path e = None -> po_perf_map o = false) ->
    exists mt, nth_error (uo_meta out) i = Some mt /\
      agree (fst (symbolize_single m cf w (SProcess p o) AbsAddr a s)) (later m cf w path_of (po_debug o) x mt s).
  Proof.
    intros m cf w p o s env no es src vis cache fuel cached addrs out Hw Har Hs Hf Hc E Hmf Hae Hu Hdi Hpm Hvd Hsv.
    eapply (relate agree m cf w path_of w s p o s env no es src vis cache fuel cached addrs out); auto; intros v f q off Hv Ev Hn;
      unfold PropNormalize.chosen, actual; rewrite Hmf, Hpm; [rewrite elf_single|rewrite apk_single]; apply AgSame.
  Qed.

  (** ** Elsewhere *)
  Lemma entry_fresh : forall T (w : world) p b,
    match opened w p with
    | Ok f => exists meta c, fc_entry (w_fs w) p (@fc_new File T b) = (Ok meta, c) /\ eget meta (fc_entries c) = Some (Entry 1 f None)
    | Err k => exists c, fc_entry (w_fs w) p (@fc_new File T b) = (Err k, c)
    | _ => False
    end.
  Proof.
    intros T w p b. unfold opened, fc_entry, fc_new, pget. cbn [fc_cache aget fc_entries]. unfold get_or_insert.
    destruct (fs_stat (w_fs w) p) as [mt|k]; cbn [of_outcome bind]; [|eauto]. unfold eget at 1. cbn [aget].
    destruct (fs_open (w_fs w) p) as [f|k]; cbn [of_outcome]; [|eexists; reflexivity]. cbn [pe_current path_entry_default pe_previous contains existsb].
    exists mt. eexists. split; [reflexivity|]. cbn [fc_entries e_references e_file e_value]. unfold eget, eset. apply aget_aset_eq, meta_eqb_spec.
  Qed.
  Lemma elf_fresh : forall w p r b, fst (elf_resolver w p r false (s_elf (s_new b))) =
    let* P := parsed w p r in Ok (ElfRes P false (w_elf_plain w P)).
  Proof.
    intros w p r b. unfold elf_resolver, elf_none, parsed. cbn [s_new s_elf]. pose proof (entry_fresh (elf_data Parser) w p b) as H.
    destruct (opened w p) as [f|k| |]; [destruct H as (meta & c & -> & He)|destruct H as (c & ->); reflexivity|easy..].
    cbn [then_]. unfold slot_get. rewrite He. cbn [unwrap bind then_ e_file e_value]. destruct (w_elf_parse w f r); reflexivity.
  Qed.
  Lemma apk_fresh : forall m w p r off d b, fst (apk_resolver m w p r off d (s_apk (s_new b : state))) =
    let* f := opened w p in let* ms := of_outcome (w_archive w f) in fst (apk_find m w p r d off ms []).
  Proof.
    intros m w p r off d b. unfold apk_resolver. cbn [s_new s_apk]. pose proof (entry_fresh apk_data w p b) as H.
    destruct (opened w p) as [f|k| |]; [destruct H as (meta & c & -> & He)|destruct H as (c & ->); reflexivity|easy..].
    cbn [then_]. unfold fc_fill. unfold apk_data in *. rewrite He. cbn [e_value e_file e_references]. unfold get_or_try_init.
    cbn [bind]. destruct (w_archive w f) as [ms|k]; cbn [of_outcome then_ bind fst]; [|reflexivity]. destruct (apk_find m w p r d off ms []); reflexivity.
  Qed.
  Lemma unnamed_strip : forall m cf a (r r' : resolver), (forall a o, strip (r_find r a o) = strip (r_find r' a o)) ->
    unnamed (with_resolver m cf a r) = unnamed (with_resolver m cf a r').
  Proof.
    intros m cf a r r' H. specialize (H a (cf_opts cf)). unfold with_resolver, convert_sym. revert H.
    destruct (r_find r a (cf_opts cf)) as [[x|u]|k| |], (r_find r' a (cf_opts cf)) as [[y|u']|k'| |]; cbn [strip bind]; intros H; try discriminate; try congruence.
    injection H as H1 H2 H3 H4 H5 H6. rewrite H2. destruct (sub64 m a (rs_addr y)) as [off|k| |]; cbn; auto. now rewrite H1, H3, H4, H5, H6.
  Qed.
  Lemma unnamed_translated : forall m cf off (r r' : resolver), like r r' ->
    unnamed (translated m cf off r) = unnamed (translated m cf off r').
  Proof.
    intros m cf off r r' (Hv & Hf). unfold translated. rewrite Hv. destruct (r_virt r' off) as [[a|]|k| |]; cbn [bind]; auto using unnamed_strip.
  Qed.
  Lemma apk_like : forall m cf w w' p r p' r' off, same_program w w' -> path_is_module w ->
    forall ms, let g x := match x with Some (r, addr) => with_resolver m cf addr r | None => Ok (Unknown InvalidFileOffset) end in
    unnamed (let* x := fst (apk_find m w p r false off ms []) in g x) = unnamed (let* x := fst (apk_find m w' p' r' false off ms []) in g x).
  Proof.
    intros m cf w w' p r p' r' off (_ & _ & _ & H4 & H5 & H6) (_ & HA). induction ms as [|[mb|k] ms IH]; auto. cbn [apk_find].
    destruct (add64 m (mb_offset mb) (mb_len mb)) as [end_|k| |]; cbn [then_]; auto.
    destruct ((mb_offset mb <=? off) && (off <? end_)); [|exact IH]. cbn [aget]. unfold member_resolver. rewrite H5, H6.
    destruct (mb_mapped mb); [|reflexivity]. rewrite <- (H4 r'). specialize (HA r r' mb). unfold outcomes_like in HA.
    destruct (w_apk_default w r mb false) as [x|k], (w_apk_default w r' mb false) as [y|k']; try contradiction; [|now subst].
    cbn [then_]. destruct HA as (Hv & Hf). destruct (sub64 m off (mb_offset mb)) as [eo|k| |]; cbn [then_]; auto. rewrite Hv.
    destruct (r_virt y eo) as [[a|]|k| |]; cbn [then_ fst bind]; auto using unnamed_strip.
  Qed.
  Lemma agree_unnamed : forall x y, agree x y -> agree (unnamed x) (unnamed y).
  Proof. intros x y []; [apply AgSame|apply AgAnonymous|apply AgVdso]. Qed.

  (** Symbolizing elsewhere, with copies of the files, gives the same but for
      the module, which is the path of the copy. *)
  Theorem C71_remote : forall m cf w w' at_ p o b b' env no es src vis cache fuel cached addrs out,
    PropNormalize.wf_space es -> PropNormalize.wf_archives env -> PropNormalize.source_of es src vis -> (length es < fuel)%nat ->
    cached = None \/ cached = Some vis -> normalize_opts m env no cache fuel src cached addrs = Ok out ->
    no_apk_to_elf no = false ->
    w_maps w p = Good (map Ok (filter PropNormalize.interesting es)) -> w_dispatch w = None -> po_vdso o = true -> po_debug o = false ->
    same_vdso m cf w p (s_new b) env vis -> same_program w w' -> path_is_module w ->
    (forall v f q, In v vis -> me_path v = Some (PPath f q) ->
      same_file w (path_of (if po_map_files o then f else q)) w' (at_ (if no_map_files no then f else q))) ->
    forall n a x i, nth_error addrs n = Some a -> nth_error (uo_outputs out) n = Some (x, i) -> a < two64 -> seen es vis a ->
    (forall e, In e vis -> PropNormalize.contains_addr e a -> me_path e = None -> po_perf_map o = false) ->
    exists mt, nth_error (uo_meta out) i = Some mt /\
      agree (unnamed (fst (symbolize_single m cf w (SProcess p o) AbsAddr a (s_new b)))) (unnamed (later m cf w' at_ false x mt (s_new b'))).
  Proof.
    intros m cf w w' at_ p o b b' env no es src vis cache fuel cached addrs out Hw Har Hs Hf Hc E Hae Hu Hdi Hvd Hde Hsv Hsp Hpm Hsf n a x i En Ex Ha Hse Hpf.
    pose proof (relate (fun x y => agree (unnamed x) (unnamed y)) m cf w at_ w' (s_new b') p o (s_new b) env no es src vis cache fuel cached addrs out agree_unnamed
      Hw Har Hs Hf Hc E Hae Hu Hdi Hvd Hsv) as X.
    rewrite Hde in X. apply (fun A B => X A B n a x i En Ex Ha Hse Hpf); clear X; intros v f q off Hv Ev Hn; specialize (Hsf v f q Hv Ev); unfold same_file in Hsf; fold (actual o f q) in Hsf;
      fold (PropNormalize.chosen no f q) in Hsf.
    - rewrite elf_single. pose proof (elf_fresh w (path_of (actual o f q)) (path_of q) b) as H1.
      pose proof (elf_fresh w' (at_ (PropNormalize.chosen no f q)) (at_ (PropNormalize.chosen no f q)) b') as H2.
      destruct (elf_resolver w _ _ _ _) as [r c], (elf_resolver w' _ _ _ _) as [r' c']. cbn [fst] in *. subst r r'.
      unfold parsed. rewrite Hsf. destruct (opened w' _) as [g|k| |]; cbn [bind]; try apply AgSame.
      destruct Hsp as (P1 & P2 & _). rewrite <- P1. destruct Hpm as (Hpm & _). specialize (Hpm g (path_of q) (at_ (PropNormalize.chosen no f q))).
      unfold outcomes_like in Hpm.
      destruct (w_elf_parse w g (path_of q)) as [A|k], (w_elf_parse w g (at_ (PropNormalize.chosen no f q))) as [B|k']; try contradiction; cbn [of_outcome bind];
        [|subst; apply AgSame]. cbn [er_resolver]. rewrite <- P2. rewrite (unnamed_translated _ _ _ _ _ Hpm). apply AgSame.
    - rewrite apk_single. pose proof (apk_fresh m w (path_of (actual o f q)) (path_of q) off false b) as H1.
      pose proof (apk_fresh m w' (at_ (PropNormalize.chosen no f q)) (at_ (PropNormalize.chosen no f q)) off false b') as H2.
      destruct (apk_resolver m w _ _ _ _ _) as [r c], (apk_resolver m w' _ _ _ _ _) as [r' c']. cbn [fst] in *. subst r r'.
      rewrite Hsf. destruct (opened w' _) as [g|k| |]; cbn [bind]; try apply AgSame.
      pose proof Hsp as (_ & _ & P3 & _). rewrite <- P3. destruct (w_archive w g) as [ms|k]; cbn [of_outcome bind]; [|apply AgSame].
      rewrite (apk_like m cf w w' (path_of (actual o f q)) (path_of q) (at_ (PropNormalize.chosen no f q)) (at_ (PropNormalize.chosen no f q)) off Hsp Hpm ms). apply AgSame.
  Qed.

  (** In batches *)
  Theorem C71_batch : forall m cf w p o s env no es src vis cache fuel cached addrs out l,
    PropNormalize.wf_space es -> PropNormalize.wf_archives env -> PropNormalize.source_of es src vis -> (length es < fuel)%nat ->
    cached = None \/ cached = Some vis -> normalize_opts m env no cache fuel src cached addrs = Ok out ->
    no_map_files no = false -> no_apk_to_elf no = false ->
    uses_vmas w p s (filter PropNormalize.interesting es) -> w_dispatch w = None -> po_map_files o = false -> po_vdso o = true ->
    same_vdso m cf w p s env vis -> po_perf_map o = false ->
    reachable s -> settled w p o (filter PropNormalize.interesting es) s -> (forall a, In a addrs -> a < two64 /\ seen es vis a) ->
    fst (symbolize m cf w (SProcess p o) AbsAddr addrs s) = Ok l ->
    Forall2 (fun y '(x, i) => exists mt, nth_error (uo_meta out) i = Some mt /\ agree (Ok y) (later m cf w path_of (po_debug o) x mt s))
      l (uo_outputs out).
  Proof.
    intros m cf w p o s env no es src vis cache fuel cached addrs out l Hw Har Hs Hf Hc E Hmf Hae Hu Hdi Hpm Hvd Hsv Hpf Hre Hset Hse El.
    pose proof (PropSymBatch.C43_process m cf w p o _ addrs s Hre Hu (proj1 (PropNormalize.wf_space_filter PropNormalize.interesting es Hw)) Hset) as B.
    rewrite El in B. cbn [batch_all] in B.
    pose proof (PropNormalize.C10_attribution sym env no m es src vis cache fuel cached addrs out Hw Har Hs Hf Hc E) as H.
    pose proof (Base.Forall2_length _ _ _ _ _ B) as L1. pose proof (Base.Forall2_length _ _ _ _ _ H) as L2.
    apply Forall2_nth_error; [congruence|]. intros n y [x i] Ey Ex.
    destruct (nth_error addrs n) as [a|] eqn:En; [|apply nth_error_None in En; assert (n < length l)%nat by (apply nth_error_Some; congruence); lia].
    pose proof (Forall2_nth _ _ _ _ _ _ _ _ B En Ey) as Ea. cbn beta in Ea.
    destruct (Hse a (nth_error_In _ _ En)) as (Ha & Hsa).
    destruct (C71_direct m cf w p o s env no es src vis cache fuel cached addrs out Hw Har Hs Hf Hc E Hmf Hae Hu Hdi Hpm Hvd Hsv n a x i En Ex Ha Hsa) as (mt & Hi & Hag).
    { intros. exact Hpf. }
    exists mt. split; auto. now rewrite Ea in Hag.
  Qed.
End Remote.

(** ** Example: a device with an executable, an archive, anonymous memory and
    the vDSO; and a host with copies of the files, at paths 1 and 2 *)
Definition nm := Nom.bs "/a"%string.
Definition ar := Nom.bs "/b.apk"%string.
Definition nm_mf := Nom.bs "/m/1"%string.
Definition ar_mf := Nom.bs "/m/2"%string.
Definition rx_entries : list maps_entry :=
  [MapsEntry 4096 8192 5 4096 (Some (PPath nm_mf nm)) None; MapsEntry 8192 12288 5 0 (Some (PPath ar_mf ar)) None;
   MapsEntry 12288 16384 5 0 None None; MapsEntry 16384 20480 5 0 (Some (PComponent [9])) None;
   MapsEntry 20480 24576 5 0 (Some (PComponent str_vdso)) None; MapsEntry 24576 28672 2 0 (Some (PPath [3] nm)) None].
Definition rx_file (p : path) : option N :=
  if (p =? path_of nm) || (p =? path_of nm_mf) then Some 12 else if (p =? path_of ar) || (p =? path_of ar_mf) then Some 113 else None.
Definition rx_device : world N N := demo (with_entries (filter PropNormalize.interesting rx_entries) (with_file rx_file plain_setup)).
Definition rx_host : world N N := demo (with_file (fun p => if p =? 1 then Some 12 else if p =? 2 then Some 113 else None) plain_setup).
Definition rx_at (q : list N) : path := if beq q nm_mf || beq q nm then 1 else 2.
Definition rx_vdso : vdso sym :=
  Vdso (r_virt (demo_resolver 7))
    (fun va => let* x := with_resolver Checked demo_config va (demo_resolver 7) in Ok (match x with Known y => inl y | Unknown r => inr r end)).
Definition rx_env : nenv sym := NEnv (fun _ => Good None) (fun _ => Good [Good (ZMember [113] 100 50 (Good None))]) (fun _ _ => Good rx_vdso).
Definition rx_addrs := [8192 + 120; 4100; 12300; 16390; 20481; 30000; 8192 + 10; 25000].
Definition rx_query (a : N) : res (option maps_entry) := Ok (next_vma (filter PropNormalize.interesting_q rx_entries) a).
Definition rx_outcome (map_files : bool) (src : Normalize.source) := normalize_opts Checked rx_env (NOpts false map_files false false) false 9 src None rx_addrs.
Definition rx_text := Text (map Ok (filter PropNormalize.interesting rx_entries)).
Definition rx_later (w : world N N) (at_ : list N -> path) (r : res (uoutput sym)) : res (list (res ((list N * N * N) + reason))) :=
  let* out := r in
  Ok (map (fun '(x, i) => match nth_error (uo_meta out) i with Some mt => brief_one (later Checked demo_config w at_ false x mt (s_new false)) | None => Panic end)
        (uo_outputs out)).
Definition rx_popts (map_files : bool) := POpts false false map_files true.
Definition rx_answers (r : reason) : list ((list N * N * N) + reason) :=
  [inl ([2000; 4112], 4112, 4); inl ([12; 8192], 8192, 4); inr r; inr Unsupported; inl ([7; 4096], 4096, 1); inr Unmapped; inr InvalidFileOffset; inr Unmapped].
Example C71_ex :
  (forall map_files, brief_all (fst (symbolize Checked demo_config rx_device (SProcess (Pid 5) (rx_popts map_files)) AbsAddr rx_addrs (s_new true))) = Ok (rx_answers UnknownAddr)) /\
  (forall map_files, rx_later rx_host rx_at (rx_outcome map_files rx_text) = Ok (map Ok (rx_answers MissingComponent))) /\
  (forall map_files, rx_later rx_device path_of (rx_outcome map_files (Query rx_query)) = Ok (map Ok (rx_answers MissingComponent))).
Proof. repeat split; intros []; vm_compute; reflexivity. Qed.

(** The theorems apply. *)
Lemma rx_wf : PropNormalize.wf_space rx_entries.
Proof.
  split; [split|split].
  - unfold rx_entries. repeat (constructor; [|repeat (constructor; [cbn; lia|]); constructor]). constructor.
  - unfold rx_entries. repeat (constructor; [cbn; lia|]). constructor.
  - unfold rx_entries. repeat (constructor; [cbn; unfold two64; lia|]). constructor.
  - intros v w f p q Hv Hw Ev Ew. unfold rx_entries in Hv, Hw.
    repeat (destruct Hv as [<-|Hv]; [repeat (destruct Hw as [<-|Hw]; [try reflexivity; try discriminate;
      injection Ev as <- <-; injection Ew as ?; discriminate|]); destruct Hw|]). destruct Hv.
Qed.
Lemma rx_archives : PropNormalize.wf_archives rx_env.
Proof. intros p ms mb [= <-] [[= <-]|[]]. cbn. unfold two64. lia. Qed.
Lemma rx_demo_like : forall u, path_is_module (demo u).
Proof.
  intros u. split.
  - intros f q q'. cbn. destruct (f <? 100); cbn; auto. split; auto.
  - intros q q' mb. cbn. split; auto.
Qed.
Example C71_ex_remote : forall map_files map_files' b b' n a x i out,
  normalize_opts Checked rx_env (NOpts false map_files' false false) false 9 rx_text None rx_addrs = Ok out ->
  nth_error rx_addrs n = Some a -> nth_error (uo_outputs out) n = Some (x, i) ->
  exists mt, nth_error (uo_meta out) i = Some mt /\
    agree (unnamed (fst (symbolize_single Checked demo_config rx_device (SProcess (Pid 5) (rx_popts map_files)) AbsAddr a (s_new b))))
      (unnamed (later Checked demo_config rx_host rx_at false x mt (s_new b'))).
Proof.
  intros map_files map_files' b b' n a x i out E En Ex.
  refine (C71_remote Checked demo_config rx_device rx_host rx_at (Pid 5) (rx_popts map_files) b b' rx_env (NOpts false map_files' false false)
    rx_entries rx_text (filter PropNormalize.interesting rx_entries) false 9 None rx_addrs out rx_wf rx_archives _ _ _ E _ _ _ _ _ _ _ _ _ n a x i En Ex _ _ _).
  - apply PropNormalize.so_text.
  - cbn. lia.
  - now left.
  - reflexivity.
  - reflexivity.
  - reflexivity.
  - reflexivity.
  - reflexivity.
  - intros e He Hp vd [= <-]. exists (demo_resolver 7). split; [|split].
    + clear - He Hp. unfold vdso_parser. cbn [s_new s_vdso]. unfold get_or_try_init.
      change (create_vdso_parser rx_device (Pid 5) (me_start e) (me_end e)) with (@Ok resolver (demo_resolver 7)). reflexivity.
    + intros off. reflexivity.
    + intros va. cbn [vd_symbolize rx_vdso]. destruct (with_resolver Checked demo_config va (demo_resolver 7)) as [[y|r]|k| |]; reflexivity.
  - split; [|split; [|split; [|split]]]; auto.
  - apply rx_demo_like.
  - intros v f q Hv Ev. destruct map_files, map_files'; repeat (destruct Hv as [<-|Hv]; [try discriminate; injection Ev as <- <-; vm_compute; reflexivity|]); destruct Hv.
  - apply nth_error_In in En. cbn in En. unfold two64. lia.
  - apply seen_text.
  - reflexivity.
Qed.

(** Where it is not so: debug information is looked for next to the path
    reported, so that it is found with the path of the file but not with the
    one in /proc/<pid>/map_files. *)
Definition dx_world : world N N :=
  let w := rx_device in
  World (w_fs w) (fun _ q => Good q) (w_elf_plain w) (w_elf_cache w)
    (fun P => Ok (if P =? path_of nm then Some (path_of ar, 0) else None)) (w_crc w) (w_dwp w)
    (fun _ link _ => Good (demo_resolver (match link with Some _ => 50 | None => 60 end)))
    (w_archive w) None (w_apk_default w) (w_breakpad w) (w_gsym w) (w_perf_map w) (w_gsym_data w)
    (w_kernel w) (w_maps w) (w_image w) None.
Theorem C71_map_files_debug_refuted : exists cf (w : world N N) p o env no es out a x i mt,
  PropNormalize.wf_space es /\ PropNormalize.wf_archives env /\ po_debug o = true /\ po_map_files o = true /\ no_map_files no = true /\
  normalize_opts Checked env no false 9 (Text (map Ok (filter PropNormalize.interesting es))) None [a] = Ok out /\
  nth_error (uo_outputs out) 0 = Some (x, i) /\ nth_error (uo_meta out) i = Some mt /\
  brief_one (fst (symbolize_single Checked cf w (SProcess p o) AbsAddr a (s_new true))) = Ok (inl ([50; 8192], 8192, 4)) /\
  brief_one (later Checked cf w path_of true x mt (s_new true)) = Ok (inl ([60; 8192], 8192, 4)).
Proof.
  exists demo_config, dx_world, (Pid 5), (POpts true false true true), rx_env, (NOpts false true false false), rx_entries.
  eexists. exists 4100. do 3 eexists. split; [apply rx_wf|]. split; [apply rx_archives|]. do 3 (split; [reflexivity|]).
  split; [vm_compute; reflexivity|]. split; [reflexivity|]. split; [reflexivity|]. split; vm_compute; reflexivity.
Qed.
(** What [apk_to_elf] names is no file. *)
Theorem C71_apk_to_elf_refuted : exists cf (w : world N N) p o env no es out a x i mt,
  PropNormalize.wf_space es /\ PropNormalize.wf_archives env /\ no_apk_to_elf no = true /\
  normalize_opts Checked env no false 9 (Text (map Ok (filter PropNormalize.interesting es))) None [a] = Ok out /\
  nth_error (uo_outputs out) 0 = Some (x, i) /\ nth_error (uo_meta out) i = Some mt /\
  brief_one (fst (symbolize_single Checked cf w (SProcess p o) AbsAddr a (s_new true))) = Ok (inl ([2000; 4112], 4112, 4)) /\
  later Checked cf w path_of (po_debug o) x mt (s_new true) = Err ENotFound.
Proof.
  exists demo_config, rx_device, (Pid 5), (rx_popts false), rx_env, (NOpts false false true false), rx_entries.
  eexists. exists (8192 + 120). do 3 eexists. split; [apply rx_wf|]. split; [apply rx_archives|]. split; [reflexivity|].
  split; [vm_compute; reflexivity|]. split; [reflexivity|]. split; [reflexivity|]. split; vm_compute; reflexivity.
Qed.
(** Memory that can be executed but not read is unknown to normalization with
    the kernel's query interface. *)
Definition qx_entries : list maps_entry := [MapsEntry 4096 8192 1 4096 (Some (PPath nm_mf nm)) None; MapsEntry 8192 12288 4 0 (Some (PPath ar_mf ar)) None].
Theorem C71_execute_only_refuted : exists cf (w : world N N) p o (env : nenv sym) no es q out a x i,
  PropNormalize.wf_space es /\ PropNormalize.wf_archives env /\ PropNormalize.answers q es /\
  normalize_opts Checked env no false 9 (Query q) None [a] = Ok out /\
  nth_error (uo_outputs out) 0 = Some (x, i) /\ nth_error (uo_meta out) i = Some (UUnknown Unmapped) /\
  w_maps w p = Good (map Ok (filter PropNormalize.interesting es)) /\
  brief_one (fst (symbolize_single Checked cf w (SProcess p o) AbsAddr a (s_new true))) = Ok (inl ([12; 8192], 8192, 4)).
Proof.
  exists demo_config, (demo (with_entries (filter PropNormalize.interesting qx_entries) (with_file rx_file plain_setup))), (Pid 5), (rx_popts false), rx_env,
    (NOpts false false false false), qx_entries, (fun a => Ok (if a <? 12288 then nth_error qx_entries 1 else None)).
  eexists. exists 4100. do 2 eexists. split; [|split; [apply rx_archives|split]].
  - split; [split|split].
    + unfold qx_entries. repeat (constructor; [|repeat (constructor; [cbn; lia|]); constructor]). constructor.
    + unfold qx_entries. repeat (constructor; [cbn; lia|]). constructor.
    + unfold qx_entries. repeat (constructor; [cbn; unfold two64; lia|]). constructor.
    + intros v w f p q [<-|[<-|[]]] [<-|[<-|[]]]; cbn; intros [= <- <-] [= ?]; auto; discriminate.
  - intros a. destruct (N.ltb_spec a 12288).
    + right. exists (MapsEntry 8192 12288 4 0 (Some (PPath ar_mf ar)) None). split; [reflexivity|]. cbn [me_end]. repeat split; cbn; auto.
      intros w [<-|[<-|[]]] Hr _; cbn; [discriminate Hr|lia].
    + left. split; auto. intros v [<-|[<-|[]]] _; cbn; lia.
  - split; [vm_compute; reflexivity|]. split; [reflexivity|]. split; [reflexivity|]. split; vm_compute; reflexivity.
Qed.

Print Assumptions C71_direct.
Print Assumptions C71_remote.
Print Assumptions C71_batch.
Print Assumptions C71_map_files_debug_refuted.
Print Assumptions C71_apk_to_elf_refuted.
Print Assumptions C71_execute_only_refuted.
