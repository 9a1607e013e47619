(** * C72: from the contents of files to answers *)

From Verif Require Import Base Util UtilProofs Bytes Amap Maps Sym Inspect Mmap Elf ElfSpec Normalize NormalizeProofs FileCache
  Symbolizer SymbolizerSpec SymbolizerState SymbolizerProcess HistorySpec PropRemote Host HostSpec.
From Verif Require Zip ZipSpec ZipProofs PropZip PropElf PropNormalize PropMaps PropGsym PropBreakpad PropPerf GsymSpec GsymProofs BreakpadSpec PerfSpec Gsym Breakpad PerfMap Text Total.
Local Open Scope N_scope.
Local Notation length := List.length.

(** ** Paths *)
Lemma path_of_cons : forall b l, path_of (b :: l) = b + 1 + 257 * path_of l.
Proof. reflexivity. Qed.
Lemma unpath_loop_ok : forall l fuel, is_bytes l -> path_of l < 2 ^ N.of_nat fuel -> unpath_loop fuel (path_of l) = l.
Proof.
  induction l as [|b l IH]; intros fuel Hb Hf.
  - destruct fuel; reflexivity.
  - inversion Hb as [|? ? Hb1 Hb2]; subst. rewrite path_of_cons in *. destruct fuel as [|fuel]; [change (2 ^ N.of_nat 0) with 1 in Hf; lia|].
    cbn [unpath_loop]. destruct (N.eqb_spec (b + 1 + 257 * path_of l) 0); [lia|].
    assert (Hm : (b + 1 + 257 * path_of l) mod 257 = b + 1).
    { symmetry. apply (N.mod_unique _ _ (path_of l)); lia. }
    assert (Hd : (b + 1 + 257 * path_of l) / 257 = path_of l).
    { symmetry. apply (N.div_unique _ _ _ (b + 1)); lia. }
    rewrite Hm, Hd. rewrite IH; auto; [f_equal; lia|]. rewrite Nat2N.inj_succ, N.pow_succ_r' in Hf. lia.
Qed.
Lemma unpath_path_of : forall l, is_bytes l -> unpath (path_of l) = l.
Proof.
  intros l Hb. unfold unpath. apply unpath_loop_ok; auto. rewrite N2Nat.id.
  destruct (N.eq_dec (path_of l) 0) as [->|Hn]; [reflexivity|]. now apply N.size_gt.
Qed.

(** ** Opening never panics *)
Lemma safe_parse_perf_map : forall t, safe (PerfMap.parse_perf_map t).
Proof.
  intros t. unfold PerfMap.parse_perf_map. apply safe_bind; auto. match goal with |- safe (PerfMap.collect _ ?l) => generalize l end.
  induction l as [|line l IH]; cbn [PerfMap.collect]; auto. apply safe_bind.
  - unfold PerfMap.parse_perf_map_line. apply safe_bind; [apply safe_of_option|]. intros [a r] _. apply safe_bind.
    { destruct (Text.utf8_valid a); [apply safe_of_option|auto]. }
    intros n _. apply safe_bind; [apply safe_of_option|]. intros [b r'] _. apply safe_bind.
    { destruct (Text.utf8_valid b); [apply safe_of_option|auto]. }
    intros k _. destruct (Text.utf8_valid r'); auto.
  - intros f _. apply safe_bind; auto.
Qed.
Theorem C72_total : forall ptr data,
  (safe (Zip.with_mmap (map_file data)) /\
   forall a, Zip.with_mmap (map_file data) = Ok a -> exists es, Zip.entries a = Ok es /\
     (is_bytes data -> Forall safe es)) /\
  safe (Gsym.parse_header ptr data) /\ safe (Breakpad.from_bytes data) /\ safe (PerfMap.parse_perf_map data).
Proof.
  intros ptr data. split; [|split; [|split]].
  - destruct (PropZip.C24_total (map_file data)) as (H1 & H2). split; auto. intros a Ha.
    destruct (H2 a Ha) as (es & He & _ & Hes). exists es. split; auto. intros Hb.
    assert (Hd : is_bytes (deref (map_file data))).
    { unfold map_file, deref. destruct (nlen data =? 0); cbn [mm_mapping mm_start mm_end]; [constructor|].
      unfold get_range. destruct (_ && _); [|constructor]. now apply is_bytes_ntake, is_bytes_ndrop. }
    eapply Forall_impl; [|exact (Hes Hd)]. intros r [[e ->]| ->]; auto.
  - apply Total.total_safe, (GsymProofs.total_parse_header Wrapping ptr data).
  - destruct (PropBreakpad.C23_terminates data) as [[sf ->]|[k ->]]; auto.
  - apply safe_parse_perf_map.
Qed.
Print Assumptions C72_total.

Lemma deref_whole : forall data, deref (map_file data) = data.
Proof.
  intros data. unfold map_file, deref. destruct (N.eqb_spec (nlen data) 0) as [E|E]; cbn [mm_mapping mm_start mm_end].
  - destruct data; auto. rewrite nlen_cons in E. lia.
  - unfold get_range. replace ((0 <=? nlen data) && (nlen data <=? nlen data)) with true
      by (symmetry; apply andb_true_iff; split; apply N.leb_le; lia).
    rewrite N.sub_0_r. rewrite ndrop_0, ntake_firstn. apply firstn_all2. unfold nlen. lia.
Qed.
Lemma shortest_unique : forall base t t' v, 1 < base -> PropMaps.shortest_text base t v -> PropMaps.shortest_text base t' v -> t = t'.
Proof.
  assert (H : forall base k k' v, 1 < base -> (1 <= k)%nat -> v < base ^ N.of_nat k -> (k' = 1%nat \/ base ^ (N.of_nat k' - 1) <= v) -> (k' <= k)%nat).
  { intros base k k' v Hb Hk Hv [->|H]; auto. destruct (Nat.le_gt_cases k' k) as [|Hlt]; auto. exfalso.
    assert (base ^ N.of_nat k <= base ^ (N.of_nat k' - 1)) by (apply N.pow_le_mono_r; lia). lia. }
  intros base t t' v Hb (k & -> & H1 & H2 & H3) (k' & -> & H1' & H2' & H3'). replace k' with k; auto.
  pose proof (H base k k' v Hb H1 H2 H3'). pose proof (H base k' k v Hb H1' H2' H3). lia.
Qed.
Section Host.
  Context (x : ext) (m : mode) (pick : N -> N -> N) (rest : world (N * list N) parser) (h : host) (cf : config).
  Notation w := (host_world x m pick rest h).
  Context (Hx : sorts x).

  Lemma opened_at : forall p ptr data, file_at h p ptr data -> opened w (path_of p) = Ok (ptr, data).
  Proof. intros p ptr data ((mt & E1) & E2). unfold opened. cbn [host_world w_fs fs_stat fs_open]. now rewrite E1, E2. Qed.

  (** ** ELF files *)
  Lemma elf_lookup : forall ptr data e st dt module addr, elf_program x ptr data e st dt ->
    exists r, with_resolver m cf addr (elf_resolver_of x m (Parser (Some module) (Mem ptr data))) = Ok r /\
      elf_answer cf module st dt addr r.
  Proof.
    intros ptr data e st dt module addr (Hf & Hs & Hst & Hdt & S1 & S2 & N1 & N2).
    destruct (PropElf.C27_symbolize x m ptr data e st dt (Some module) addr Hx Hf Hst Hdt S1 S2 N1 N2) as (f & E & H).
    unfold with_resolver. cbn [elf_resolver_of r_find]. rewrite E. cbn [bind].
    assert (Hsym : forall kind t s y, closest_symbol kind t TUndefined addr s -> reported (Some module) t s y ->
      exists r, (let* s0 := convert_sym m cf addr y in Ok (Known s0)) = Ok r /\ exists name, has_name t s name /\
        r = answer cf name (Some module) addr (st_value s) (if st_size s =? 0 then None else Some (st_size s))).
    { intros kind t s [nm md ad sz lg ci il] (_ & _ & _ & _ & (Hv & _) & _) (Hn & Hm & Ha & Hz & Hl & Hc & Hi). cbn in *. subst.
      unfold convert_sym. cbn [rs_addr rs_name rs_lang rs_module rs_size rs_code_info rs_inlined map]. unfold sub64. rewrite usub_small by lia. cbn [bind].
      eexists. split; [reflexivity|]. exists nm. split; auto. }
    destruct f as [y|why].
    - destruct H as [(s & Hc & Hr)|(Hm & s & Hc & Hr)]; destruct (Hsym _ _ _ _ Hc Hr) as (r & -> & Hr'); exists r; split; auto.
      + left. eauto.
      + right. left. eauto.
    - destruct H as (H1 & H2 & ->). eexists. split; [reflexivity|]. right. right. auto.
  Qed.
  Lemma elf_translated : forall ptr data e st dt module off, elf_program x ptr data e st dt ->
    exists r, translated m cf off (elf_resolver_of x m (Parser (Some module) (Mem ptr data))) = Ok r /\
      elf_offset_answer cf module e st dt off r.
  Proof.
    intros ptr data e st dt module off Hp. unfold translated. cbn [elf_resolver_of r_virt p_backend].
    destruct (PropElf.C28_to_virt m ptr data e off (proj1 Hp) (proj1 (proj2 Hp))) as [(p & H1 & H2 & ->)|[H1 ->]]; cbn [bind].
    - destruct (elf_lookup ptr data e st dt module (off - p_offset p + p_vaddr p) Hp) as (r & -> & Hr). exists r. split; auto. left. eauto.
    - eexists. split; [reflexivity|]. right. auto.
  Qed.
  (** Whatever an ELF file's symbols are, they are what is found in it, by
      address and by file offset. *)
  Theorem C72_elf : forall b p ptr data e st dt addr, is_bytes p -> file_at h p ptr data -> elf_program x ptr data e st dt ->
    exists r, fst (symbolize_single m cf w (SElf (path_of p) false) VirtOffset addr (s_new b)) = Ok r /\ elf_answer cf p st dt addr r.
  Proof.
    intros b p ptr data e st dt addr Hb Hf Hp. destruct (elf_lookup ptr data e st dt p addr Hp) as (r & E & Hr). exists r. split; auto.
    unfold symbolize_single. cbn [symbolize_impl]. unfold on_elf.
    pose proof (elf_fresh w (path_of p) (path_of p) b) as H. destruct (elf_resolver w (path_of p) (path_of p) false (s_elf (s_new b))) as [r0 c].
    cbn [fst] in H. subst r0. unfold parsed. rewrite (opened_at _ _ _ Hf). cbn [bind host_world w_elf_parse elf_from_file of_outcome fst snd then_ w_elf_plain er_resolver each].
    rewrite (unpath_path_of p Hb), E. reflexivity.
  Qed.
  Theorem C72_elf_offset : forall b p ptr data e st dt off, is_bytes p -> file_at h p ptr data -> elf_program x ptr data e st dt ->
    exists r, fst (symbolize_single m cf w (SElf (path_of p) false) FileOffset off (s_new b)) = Ok r /\ elf_offset_answer cf p e st dt off r.
  Proof.
    intros b p ptr data e st dt off Hb Hf Hp. destruct (elf_translated ptr data e st dt p off Hp) as (r & E & Hr). exists r. split; auto.
    rewrite elf_single. pose proof (elf_fresh w (path_of p) (path_of p) b) as H. destruct (elf_resolver w (path_of p) (path_of p) false (s_elf (s_new b))) as [r0 c].
    cbn [fst] in H |- *. subst r0. unfold parsed. rewrite (opened_at _ _ _ Hf). cbn [bind host_world w_elf_parse elf_from_file of_outcome fst snd w_elf_plain er_resolver].
    rewrite (unpath_path_of p Hb). exact E.
  Qed.

  (** ** Archives *)
  Context (Hnd : w_apk_dispatch rest = None).
  Definition in_mb (off : N) (mb : member) : Prop := mb_offset mb <= off < mb_offset mb + mb_len mb.
  Lemma apk_skip : forall q q' off mb ms, mb_offset mb + mb_len mb < two64 -> ~ in_mb off mb ->
    apk_find m w q q' false off (Good mb :: ms) [] = apk_find m w q q' false off ms [].
  Proof.
    intros q q' off mb ms Hl Hn. cbn [apk_find]. unfold add64. rewrite uadd_small by lia. cbn [then_].
    destruct (N.leb_spec (mb_offset mb) off); cbn [andb]; auto. destruct (N.ltb_spec off (mb_offset mb + mb_len mb)); auto.
    exfalso. apply Hn. split; auto.
  Qed.
  Definition fine (off : N) (o : outcome member) : Prop :=
    exists mb, o = Good mb /\ mb_offset mb + mb_len mb < two64 /\ ~ in_mb off mb.
  Lemma apk_first : forall q q' off mb ptr d ms2 ms1, Forall (fine off) ms1 ->
    in_mb off mb -> mb_offset mb + mb_len mb < two64 -> mb_mmap mb = Some (ptr, d) ->
    (let* x := fst (apk_find m w q q' false off (ms1 ++ Good mb :: ms2) []) in
     match x with Some (r, addr) => with_resolver m cf addr r | None => Ok (Unknown InvalidFileOffset) end) =
    translated m cf (off - mb_offset mb)
      (elf_resolver_of x m (Parser (Some (create_apk_elf_path (unpath q') (mb_path mb))) (Mem ptr d))).
  Proof.
    intros q q' off mb ptr d ms2. induction ms1 as [|o ms1 IH]; intros Hf Hi Hl Hm.
    - cbn [app apk_find]. unfold add64. rewrite uadd_small by lia. cbn [then_]. destruct Hi as [H1 H2].
      rewrite (proj2 (N.leb_le _ _) H1), (proj2 (N.ltb_lt _ _) H2). cbn [andb aget]. unfold member_resolver, mb_mapped. rewrite Hm.
      cbn [host_world w_apk_dispatch w_apk_default]. rewrite Hnd. unfold default_member. rewrite Hm. cbn [then_]. unfold sub64. rewrite usub_small by lia. cbn [then_].
      unfold translated. destruct (r_virt _ _) as [[a|]|k| |]; reflexivity.
    - inversion Hf as [|? ? (mb' & -> & L & N') Hf']; subst. cbn [app]. rewrite (apk_skip q q' off mb' _ L N'). apply IH; auto.
  Qed.
  Lemma apk_none : forall q q' off ms, Forall (fine off) ms -> fst (apk_find m w q q' false off ms []) = Ok None.
  Proof. intros q q' off ms Hf. induction Hf as [|o ms (mb' & -> & L & N') Hf IH]; auto. now rewrite (apk_skip q q' off mb' _ L N'). Qed.

  (** The members an archive has *)
  Definition member_is (ptr : N) (data : list N) (c : ZipSpec.cdrec) (o : outcome member) : Prop :=
    forall name start contents, stored data c name start contents ->
      o = Good (Member name start (nlen contents) (Some (ptr + start, contents))) /\ start + nlen contents <= nlen data.
  Lemma archive_members : forall ptr data rs, HostSpec.archive data rs ->
    exists ms, archive_of m (ptr, data) = Good ms /\ Forall2 (member_is ptr data) rs ms.
  Proof.
    intros ptr data rs (Hb & Hl & p & z & Hz & Hp & Hs & Hfit & Hd & Hn). unfold archive_of. cbn [fst snd].
    assert (Hw : Zip.with_mmap (map_file data) = Ok (Zip.Archive (map_file data) (ZipSpec.z_offset z) (ZipSpec.z_records z))).
    { apply (PropZip.C25_found _ p z); rewrite ?deref_whole; auto. }
    rewrite Hw. cbn [bind].
    destruct (PropZip.C24_directory (map_file data) _ rs ltac:(rewrite deref_whole; auto) Hw) as (es & He & HF).
    { cbn [Zip.a_cd_offset]. now rewrite deref_whole. }
    { exact Hn. }
    rewrite He. cbn [bind to_outcome]. eexists. split; [reflexivity|]. cbn [Zip.a_mmap].
    assert (Hin : forall k e, nth_error es k = Some (Ok e) ->
      exists v', constrain m (map_file data) (Zip.e_data_offset e) (Zip.e_data_offset e + nlen (Zip.e_data e)) = Ok (Some v') /\
        deref v' = Zip.e_data e /\ mm_start v' = Zip.e_data_offset e /\ Zip.e_data_offset e + nlen (Zip.e_data e) <= nlen data).
    { intros k e Hk.
      assert (Hne : nlen data <> 0). { destruct Hz as ((_ & cm & _ & (pre & post & E & _)) & _). rewrite E, !nlen_app. unfold ZipSpec.enc_eocd. rewrite !nlen_app. change (nlen [80; 75; 5; 6]) with 4. lia. }
      assert (Hv : PropZip.view_ok (map_file data)).
      { exists data. unfold map_file. destruct (N.eqb_spec (nlen data) 0); [congruence|]. cbn [mm_mapping mm_start mm_end]. split; auto. lia. }
      assert (Hme : mm_end (map_file data) = nlen data /\ mm_start (map_file data) = 0).
      { unfold map_file. destruct (N.eqb_spec (nlen data) 0); [congruence|]. auto. }
      destruct (PropZip.C24_member_mapping m (map_file data) _ es k e Hv ltac:(lia) ltac:(rewrite deref_whole; auto) Hw He Hk) as (v' & Ec & Ed).
      cbn [Zip.a_mmap] in Ec. exists v'. split; auto. split; auto.
      destruct (PropZip.C24_in_bounds (map_file data) _ es k e ltac:(rewrite deref_whole; auto) Hw He Hk) as (_ & Hle). rewrite deref_whole in Hle. split; [|exact Hle].
      unfold constrain in Ec. destruct Hme as (Me & Ms). rewrite Me, Ms in Ec. unfold add64 in Ec. rewrite !uadd_small in Ec by lia. cbn [bind] in Ec.
      destruct (_ <? _); [discriminate|]. injection Ec as <-. cbn [mm_start]. lia. }
    rewrite deref_whole in HF. clear He Hw Hd Hn. revert HF Hin. generalize rs es. clear rs es.
    intros rs es HF. induction HF as [|c r rs es Hr HF IH]; intros Hin; constructor.
    - intros name start contents (l & Hm & -> & ->). destruct Hr as [(l' & ct' & Hm' & ->)|(Hno & _)]; [|exfalso; exact (Hno l contents Hm)].
      pose proof (ZipProofs.entry_complete _ _ _ _ Hm) as E1. pose proof (ZipProofs.entry_complete _ _ _ _ Hm') as E2. rewrite E1 in E2. injection E2 as E2 E3 E4 E5. subst ct'.
      destruct (Hin 0%nat _ eq_refl) as (v' & Ec & Ed & Es & Hle). cbn [Zip.e_data_offset Zip.e_data] in *. cbn [bind to_outcome]. unfold member_of. cbn [Zip.e_data_offset Zip.e_data Zip.e_path].
      rewrite Ec, Ed, Es. rewrite <- E3, <- E4. split; auto. now rewrite E4.
    - apply IH. intros k e Hk. exact (Hin (S k) e Hk).
  Qed.
  Lemma elsewhere_fine : forall ptr data off rs ms, nlen data < two64 -> Forall2 (member_is ptr data) rs ms -> Forall (elsewhere data off) rs -> Forall (fine off) ms.
  Proof.
    intros ptr data off rs ms Hl HF. induction HF as [|c o rs ms Hc HF IH]; intros He; constructor; inversion He as [|? ? (name & start & ct & Hs & Hn) He']; subst; auto.
    destruct (Hc _ _ _ Hs) as (-> & Hle). eexists. split; [reflexivity|]. cbn [mb_offset mb_len in_mb]. split; [lia|]. unfold in_mb. cbn [mb_offset mb_len]. lia.
  Qed.
  Lemma apk_answer : forall q p b ptr data rs1 c rs2 name start contents e st dt off,
    is_bytes p -> file_at h q ptr data -> HostSpec.archive data (rs1 ++ c :: rs2) ->
    Forall (elsewhere data off) rs1 -> stored data c name start contents -> start <= off < start + nlen contents ->
    elf_program x (ptr + start) contents e st dt ->
    exists r, (let* x := fst (apk_resolver m w (path_of q) (path_of p) off false (s_apk (s_new b : state (N * list N) parser))) in
               match x with Some (r, addr) => with_resolver m cf addr r | None => Ok (Unknown InvalidFileOffset) end) = Ok r /\
      elf_offset_answer cf (PropNormalize.member_path p name) e st dt (off - start) r.
  Proof.
    intros q p b ptr data rs1 c rs2 name start contents e st dt off Hb Hf Ha He Hs Hi Hp.
    destruct (archive_members ptr data _ Ha) as (ms & Em & HF). destruct Ha as (_ & Hl & _).
    apply Forall2_app_inv_l in HF. destruct HF as (ms1 & ms2' & HF1 & HF2 & ->). inversion HF2 as [|? o ? ms2 Hc HF2']; subst.
    destruct (Hc _ _ _ Hs) as (-> & Hle).
    destruct (elf_translated (ptr + start) contents e st dt (PropNormalize.member_path p name) (off - start) Hp) as (r & Er & Hr).
    exists r. split; auto. rewrite apk_fresh, (opened_at _ _ _ Hf). cbn [bind host_world w_archive]. rewrite Em. cbn [of_outcome bind].
    rewrite (apk_first (path_of q) (path_of p) off _ (ptr + start) contents ms2 ms1); cbn [mb_offset mb_len mb_path mb_mmap in_mb]; auto.
    - rewrite (unpath_path_of p Hb), PropNormalize.member_path_eq. exact Er.
    - exact (elsewhere_fine ptr data off rs1 ms1 Hl HF1 He).
    - lia.
  Qed.
  Lemma apk_no_answer : forall q p b ptr data rs off, file_at h q ptr data -> HostSpec.archive data rs -> Forall (elsewhere data off) rs ->
    fst (apk_resolver m w (path_of q) (path_of p) off false (s_apk (s_new b : state (N * list N) parser))) = Ok None.
  Proof.
    intros q p b ptr data rs off Hf Ha He. destruct (archive_members ptr data _ Ha) as (ms & Em & HF). destruct Ha as (_ & Hl & _).
    rewrite apk_fresh, (opened_at _ _ _ Hf). cbn [bind host_world w_archive]. rewrite Em. cbn [of_outcome bind]. apply apk_none.
    exact (elsewhere_fine ptr data off rs ms Hl HF He).
  Qed.
  (** In an archive, the first file that the offset is in counts. *)
  Theorem C72_apk : forall b p ptr data rs1 c rs2 name start contents e st dt off,
    is_bytes p -> file_at h p ptr data -> HostSpec.archive data (rs1 ++ c :: rs2) ->
    Forall (elsewhere data off) rs1 -> stored data c name start contents -> start <= off < start + nlen contents ->
    elf_program x (ptr + start) contents e st dt ->
    exists r, fst (symbolize_single m cf w (SApk (path_of p) false) FileOffset off (s_new b)) = Ok r /\
      elf_offset_answer cf (PropNormalize.member_path p name) e st dt (off - start) r.
  Proof.
    intros b p ptr data rs1 c rs2 name start contents e st dt off Hb Hf Ha He Hs Hi Hp.
    destruct (apk_answer p p b ptr data rs1 c rs2 name start contents e st dt off Hb Hf Ha He Hs Hi Hp) as (r & E & Hr). exists r. split; auto.
    rewrite apk_single. destruct (apk_resolver m w _ _ _ _ _) as [r0 c0]. exact E.
  Qed.
  Theorem C72_apk_none : forall b p ptr data rs off, file_at h p ptr data -> HostSpec.archive data rs -> Forall (elsewhere data off) rs ->
    fst (symbolize_single m cf w (SApk (path_of p) false) FileOffset off (s_new b)) = Ok (Unknown InvalidFileOffset).
  Proof.
    intros b p ptr data rs off Hf Ha He. pose proof (apk_no_answer p p b ptr data rs off Hf Ha He) as E.
    rewrite apk_single. destruct (apk_resolver m w _ _ _ _ _) as [r0 c0]. cbn [fst] in *. now rewrite E.
  Qed.

  (** ** Processes *)
  Context (Hdi : w_dispatch rest = None).
  Definition entries_of (p : pid) (vs : list (vma * (bool * PropMaps.layout))) : list maps_entry :=
    filter PropNormalize.interesting (map (PropNormalize.entry_t (number h p)) (map fst vs)).
  Lemma process_maps : forall p vs, process h p vs ->
    w_maps w p = Good (map Ok (entries_of p vs)) /\ PropNormalize.wf_space (entries_of p vs).
  Proof.
    intros p vs (E & Hw & Hl). cbn [host_world w_maps]. rewrite E. split.
    - f_equal. unfold entries_of. replace (match p with Slf => h_pid h | Pid n => n end) with (number h p) by reflexivity. now apply PropNormalize.text_source.
    - apply PropNormalize.wf_space_filter. apply (PropNormalize.wf_entries _ (number h p)); auto.
  Qed.
  Lemma entry_in : forall p vs v, In v (map fst vs) -> accessible v -> In (PropNormalize.entry_t (number h p) v) (entries_of p vs).
  Proof.
    intros p vs v Hv Ha. apply filter_In. split; [now apply in_map|]. unfold PropNormalize.interesting. cbn [PropNormalize.entry_t me_perm].
    destruct (PropNormalize.perm_of_bits v) as [-> ->]. destruct Ha as [-> | ->]; auto using orb_true_r.
  Qed.
  (** What an address of a process leads to *)
  Lemma in_process : forall b p o vs v a, process h p vs -> mapped_at vs v a -> a < two64 ->
    fst (symbolize_single m cf w (SProcess p o) AbsAddr a (s_new b)) =
    fst (match parse_path_name (vma_name v) (number h p) (vma_start v) (vma_end v) with
    | Some (PPath mf sy) =>
        if beq (extension sy) str_apk || beq (extension sy) str_zip then
          let '(r, c) := apk_resolver m w (path_of (actual o mf sy)) (path_of sy) (a - vma_start v + vma_offset v) (po_debug o) (s_apk (s_new b : state (N * list N) parser)) in
          (let* x := r in match x with Some (r, addr) => with_resolver m cf addr r | None => Ok (Unknown InvalidFileOffset) end, set_apk c (s_new b : state (N * list N) parser))
        else
          let '(r, c) := elf_resolver w (path_of (actual o mf sy)) (path_of sy) (po_debug o) (s_elf (s_new b : state (N * list N) parser)) in
          (let* x := r in translated m cf (a - vma_start v + vma_offset v) (er_resolver x), set_elf c (s_new b : state (N * list N) parser))
    | Some (PComponent c) =>
        if po_vdso o && beq c str_vdso then
          let '(r, s) := vdso_parser w p (vma_start v) (vma_end v) (s_new b : state (N * list N) parser) in (let* r := r in translated m cf (a - vma_start v + vma_offset v) r, s)
        else (Ok (Unknown Unsupported), (s_new b : state (N * list N) parser))
    | None =>
        if po_perf_map o then
          let '(r, c) := perf_map_resolver cf w p (s_perf (s_new b : state (N * list N) parser)) in
          (let* x := r in match x with Some r => with_resolver m cf a r | None => Ok (Unknown UnknownAddr) end, set_perf c (s_new b : state (N * list N) parser))
        else (Ok (Unknown UnknownAddr), (s_new b : state (N * list N) parser))
    end).
  Proof.
    intros b p o vs v a Hp (Hv & Hac & Hr) Ha. destruct (process_maps p vs Hp) as (Em & Hw). pose proof (entry_in p vs v Hv Hac) as Hin.
    rewrite (process_single m cf w p o (entries_of p vs) a (s_new b)); [|exact Em|apply Hw|now destruct (entries_of p vs)].
    rewrite (lookup_unique (entries_of p vs) a _ (proj1 Hw) Hin Hr).
    rewrite (entry_single m cf w p o a _ (s_new b) _ Hdi (offset_ok m (entries_of p vs) _ a Hw Hin Hr Ha)). reflexivity.
  Qed.
  Lemma file_entry : forall v q p, of_file v q ->
    exists f, parse_path_name (vma_name v) (number h p) (vma_start v) (vma_end v) = Some (PPath f q) /\ PropMaps.is_map_file (number h p) (vma_start v) (vma_end v) f.
  Proof.
    intros v q p (H47 & Hn). pose proof (PropMaps.parse_path_name_ok (vma_name v) (number h p) (vma_start v) (vma_end v)) as D.
    assert (H47' : forall t, hd_error (q ++ t) = Some 47) by (intros t; destruct q; [discriminate|exact H47]).
    revert D Hn. generalize (vma_name v) (parse_path_name (vma_name v) (number h p) (vma_start v) (vma_end v)). intros nm pn D Hn.
    destruct D as [|r f H1 H2 H3|r f H1 H2|n c l En Hc].
    - destruct Hn as [(E & _)|E]; [now subst|]. symmetry in E. apply app_eq_nil in E. now destruct E as (-> & _).
    - destruct Hn as [(E & _)|E]; [subst; eauto|exfalso; exact (H2 q E)].
    - destruct Hn as [(E & Hd)|E]; [exfalso; exact (Hd r (eq_sym E))|]. apply app_inv_tail in E. subst. eauto.
    - exfalso. destruct Hn as [(E & _)|E]; subst.
      + cbn in H47. congruence.
      + specialize (H47' PropMaps.str_deleted). rewrite <- E in H47'. cbn in H47'. congruence.
  Qed.
  (** An address of a process in a mapping of a program or library: what the
      file has at the offset that is mapped there, no matter whether the file
      is still there by its name *)
  Theorem C72_process : forall b p o vs v a q ptr data e st dt, process h p vs -> mapped_at vs v a -> a < two64 ->
    po_debug o = false -> of_file v q -> is_bytes q -> ~ PropNormalize.is_archive q ->
    mapped_file h o p v q ptr data -> elf_program x ptr data e st dt ->
    exists r, fst (symbolize_single m cf w (SProcess p o) AbsAddr a (s_new b)) = Ok r /\
      elf_offset_answer cf q e st dt (a - vma_start v + vma_offset v) r.
  Proof.
    intros b p o vs v a q ptr data e st dt Hp Hm Ha Hd Hq Hb Hn Hf Hpr.
    destruct (elf_translated ptr data e st dt q (a - vma_start v + vma_offset v) Hpr) as (r & E & Hr). exists r. split; auto.
    rewrite (in_process b p o vs v a Hp Hm Ha). destruct (file_entry v q p Hq) as (f & -> & Hmf). rewrite (no_archive_ext q Hn), Hd.
    specialize (Hf f Hmf). change (if po_map_files o then f else q) with (actual o f q) in Hf.
    pose proof (elf_fresh w (path_of (actual o f q)) (path_of q) b) as H. destruct (elf_resolver w _ _ false (s_elf (s_new b))) as [r0 c].
    cbn [fst] in H |- *. subst r0. unfold parsed. rewrite (opened_at _ _ _ Hf). cbn [bind host_world w_elf_parse elf_from_file of_outcome fst snd w_elf_plain er_resolver].
    rewrite (unpath_path_of q Hb). exact E.
  Qed.
  (** In a mapping of an archive: what the file in it has *)
  Theorem C72_process_apk : forall b p o vs v a q ptr data rs1 c rs2 name start contents e st dt, process h p vs -> mapped_at vs v a -> a < two64 ->
    po_debug o = false -> of_file v q -> is_bytes q -> PropNormalize.is_archive q ->
    mapped_file h o p v q ptr data -> let off := a - vma_start v + vma_offset v in
    HostSpec.archive data (rs1 ++ c :: rs2) -> Forall (elsewhere data off) rs1 -> stored data c name start contents ->
    start <= off < start + nlen contents -> elf_program x (ptr + start) contents e st dt ->
    exists r, fst (symbolize_single m cf w (SProcess p o) AbsAddr a (s_new b)) = Ok r /\
      elf_offset_answer cf (PropNormalize.member_path q name) e st dt (off - start) r.
  Proof.
    intros b p o vs v a q ptr data rs1 c rs2 name start contents e st dt Hp Hm Ha Hd Hq Hb Hn Hf off Har He Hs Hi Hpr.
    destruct (file_entry v q p Hq) as (f & Ef & Hmf). specialize (Hf f Hmf). change (if po_map_files o then f else q) with (actual o f q) in Hf.
    destruct (apk_answer (actual o f q) q b ptr data rs1 c rs2 name start contents e st dt off Hb Hf Har He Hs Hi Hpr) as (r & E & Hr). exists r. split; auto.
    rewrite (in_process b p o vs v a Hp Hm Ha), Ef, (archive_ext q Hn), Hd. fold off. destruct (apk_resolver m w _ _ _ _ _) as [r0 c0]. exact E.
  Qed.
  Theorem C72_process_apk_none : forall b p o vs v a q ptr data rs, process h p vs -> mapped_at vs v a -> a < two64 ->
    po_debug o = false -> of_file v q -> PropNormalize.is_archive q -> mapped_file h o p v q ptr data ->
    HostSpec.archive data rs -> Forall (elsewhere data (a - vma_start v + vma_offset v)) rs ->
    fst (symbolize_single m cf w (SProcess p o) AbsAddr a (s_new b)) = Ok (Unknown InvalidFileOffset).
  Proof.
    intros b p o vs v a q ptr data rs Hp Hm Ha Hd Hq Hn Hf Har He.
    destruct (file_entry v q p Hq) as (f & Ef & Hmf). specialize (Hf f Hmf). change (if po_map_files o then f else q) with (actual o f q) in Hf.
    pose proof (apk_no_answer (actual o f q) q b ptr data rs _ Hf Har He) as E.
    rewrite (in_process b p o vs v a Hp Hm Ha), Ef, (archive_ext q Hn), Hd. destruct (apk_resolver m w _ _ _ _ _) as [r0 c0]. cbn [fst] in *. now rewrite E.
  Qed.
  (** In the vDSO *)
  Lemma vdso_entry : forall v p, is_vdso v -> parse_path_name (vma_name v) (number h p) (vma_start v) (vma_end v) = Some (PComponent str_vdso).
  Proof. intros v p ->. reflexivity. Qed.
  Lemma find_vdso_in : forall p v' us, In v' us -> accessible v' -> is_vdso v' -> (forall u, In u us -> is_vdso u -> u = v') ->
    find_vdso_maps (map Ok (filter PropNormalize.interesting (map (PropNormalize.entry_t (number h p)) us))) = Ok (Some (vma_start v', vma_end v')).
  Proof.
    intros p v' us Hin Hac Hvd. revert Hin. induction us as [|u us IH]; intros Hin Hu; [destruct Hin|]. cbn [map filter].
    assert (Hr : In v' us -> find_vdso_maps (map Ok (filter PropNormalize.interesting (map (PropNormalize.entry_t (number h p)) us))) = Ok (Some (vma_start v', vma_end v'))).
    { intros H. apply IH; auto. intros u' H'. apply Hu. now right. }
    destruct (PropNormalize.interesting _) eqn:Ei.
    - cbn [map find_vdso_maps bind PropNormalize.entry_t me_path me_start me_end].
      destruct (parse_path_name (vma_name u) _ _ _) as [[f q|c]|] eqn:Ep.
      + destruct Hin as [->|Hin]; auto. rewrite (vdso_entry v' p Hvd) in Ep. discriminate.
      + destruct (beq c str_vdso) eqn:Eb.
        * apply beq_eq in Eb. subst c.
          assert (Hn : is_vdso u). { pose proof (PropMaps.parse_path_name_ok (vma_name u) (number h p) (vma_start u) (vma_end u)) as D. rewrite Ep in D. unfold is_vdso. inversion D; congruence. }
          now rewrite (Hu u (or_introl eq_refl) Hn).
        * destruct Hin as [->|Hin]; auto. rewrite (vdso_entry v' p Hvd) in Ep. injection Ep as <-. discriminate Eb.
      + destruct Hin as [->|Hin]; auto. rewrite (vdso_entry v' p Hvd) in Ep. discriminate.
    - destruct Hin as [->|Hin]; auto. exfalso. unfold PropNormalize.interesting in Ei. cbn [PropNormalize.entry_t me_perm] in Ei.
      destruct (PropNormalize.perm_of_bits v') as [E2 E0]. rewrite E2, E0 in Ei. destruct Hac as [H|H]; rewrite H in Ei; rewrite ?orb_true_r in Ei; discriminate.
  Qed.
  Theorem C72_vdso : forall b p o vs v a start data e st dt, process h p vs -> mapped_at vs v a -> a < two64 ->
    po_vdso o = true -> is_vdso v -> vdso_image h p v start data -> elf_program x start data e st dt ->
    exists r, fst (symbolize_single m cf w (SProcess p o) AbsAddr a (s_new b)) = Ok r /\
      elf_offset_answer cf str_vdso e st dt (a - vma_start v + vma_offset v) r.
  Proof.
    intros b p o vs v a start data e st dt Hp Hm Ha Ho Hv Him Hpr.
    destruct (elf_translated start data e st dt str_vdso (a - vma_start v + vma_offset v) Hpr) as (r & E & Hr). exists r. split; auto.
    rewrite (in_process b p o vs v a Hp Hm Ha), (vdso_entry v p Hv), Ho. cbn [andb]. change (beq str_vdso str_vdso) with true. cbn [fst].
    assert (Ev : fst (vdso_parser w p (vma_start v) (vma_end v) (s_new b)) = Ok (elf_resolver_of x m (Parser (Some str_vdso) (Mem start data)))).
    { unfold vdso_parser, get_or_try_init. cbn [s_new s_vdso]. destruct Him as (end_ & -> & Hi). destruct p as [|n]; cbn [create_vdso_parser].
      - destruct Hi as (-> & ->). reflexivity.
      - destruct Hi as (vs' & v' & Hp' & Hin & Hac & Hvd & Hu & -> & ->). destruct (process_maps Slf vs' Hp') as (Em & _).
        unfold find_vdso. rewrite Em. cbn [of_outcome bind]. unfold entries_of. rewrite (find_vdso_in Slf v' (map fst vs') Hin Hac Hvd Hu). reflexivity. }
    destruct (vdso_parser w p _ _ _) as [r0 s0]. cbn [fst] in Ev |- *. subst r0. exact E.
  Qed.
  (** Nothing mapped there *)
  Theorem C72_unmapped : forall b p o vs a, process h p vs -> (exists v, In v (map fst vs) /\ accessible v) ->
    (forall v, ~ mapped_at vs v a) ->
    fst (symbolize_single m cf w (SProcess p o) AbsAddr a (s_new b)) = Ok (Unknown Unmapped).
  Proof.
    intros b p o vs a Hp (v0 & Hv0 & Ha0) Hno. destruct (process_maps p vs Hp) as (Em & Hw). pose proof (entry_in p vs v0 Hv0 Ha0) as Hin.
    rewrite (process_single m cf w p o (entries_of p vs) a (s_new b)); [|exact Em|apply Hw|now destruct (entries_of p vs)].
    rewrite (proj2 (lookup_none (entries_of p vs) a)); auto. intros e He. apply filter_In in He. destruct He as (He & Hi).
    apply in_map_iff in He. destruct He as (v & <- & Hv). cbn [PropNormalize.entry_t me_start me_end].
    destruct (N.lt_ge_cases a (vma_start v)) as [?|G1]; [lia|]. destruct (N.le_gt_cases (vma_end v) a) as [?|G2]; [lia|].
    exfalso. apply (Hno v). split; auto. split; auto. unfold PropNormalize.interesting in Hi. cbn [PropNormalize.entry_t me_perm] in Hi.
    destruct (PropNormalize.perm_of_bits v) as [E2 E0]. rewrite E2, E0 in Hi. now apply orb_true_iff in Hi.
  Qed.

  (** ** Other formats *)
  Lemma file_fresh : forall p b (init : N * list N -> path -> outcome resolver), fst (file_resolver w init p (@fc_new (N * list N) resolver b)) =
    let* f := opened w p in of_outcome (init f p).
  Proof.
    intros p b init. unfold file_resolver. pose proof (entry_fresh resolver w p b) as H.
    destruct (opened w p) as [f|k| |]; [destruct H as (meta & c & -> & He)|destruct H as (c & ->); reflexivity|easy..].
    cbn [then_]. unfold fc_fill. rewrite He. cbn [e_value e_file e_references]. unfold get_or_try_init.
    cbn [bind]. destruct (init f p) as [r|k]; reflexivity.
  Qed.
  Lemma known : forall (r : resolver) addr y, r_find r addr (cf_opts cf) = Ok (inl y) -> rs_addr y <= addr ->
    rs_lang y = LangUnknown -> rs_code_info y = None -> rs_inlined y = [] ->
    with_resolver m cf addr r = Ok (answer cf (rs_name y) (rs_module y) addr (rs_addr y) (rs_size y)).
  Proof.
    intros r addr y E Hle Hl Hc Hi. unfold with_resolver. rewrite E. cbn [bind]. unfold convert_sym, sub64. rewrite usub_small by lia. cbn [bind].
    unfold answer. now rewrite Hl, Hc, Hi.
  Qed.
  Lemma file_single : forall p ptr data b (init : N * list N -> path -> outcome resolver) r, file_at h p ptr data ->
    init (ptr, data) (path_of p) = Good r -> fst (file_resolver w init (path_of p) (@fc_new (N * list N) resolver b)) = Ok r.
  Proof. intros p ptr data b init r Hf E. rewrite file_fresh, (opened_at _ _ _ Hf). cbn [bind]. now rewrite E. Qed.
  Lemma each_single : forall {S} (f : N -> res symbolized) addr (s : S),
    fst (then_ (each (fun a s => (f a, s)) (fun k => Err k) [addr] s) (fun l s => (unwrap (hd_error l), s))) = f addr.
  Proof. intros S f addr s. cbn [each]. destruct (f addr); reflexivity. Qed.
  Lemma gsym_opened : forall ptr data addr y, Gsym.gsym_lookup m ptr data addr (cf_opts cf) = Ok y ->
    exists r, gsym_of m ptr data = Good r /\ r_find r addr (cf_opts cf) = Ok y.
  Proof.
    intros ptr data addr y E. unfold Gsym.gsym_lookup in E. unfold gsym_of. destruct (Gsym.parse_header ptr data) as [g|k| |]; cbn [bind] in E; try discriminate.
    eexists. split; [reflexivity|]. exact E.
  Qed.
  Lemma gsym_file : forall b p ptr data addr y, file_at h p ptr data -> Gsym.gsym_lookup m ptr data addr (cf_opts cf) = Ok y ->
    exists r, r_find r addr (cf_opts cf) = Ok y /\
      fst (symbolize_single m cf w (SGsymFile (path_of p)) VirtOffset addr (s_new b)) = with_resolver m cf addr r.
  Proof.
    intros b p ptr data addr y Hf E. destruct (gsym_opened _ _ _ _ E) as (r & Er & Ey). exists r. split; auto.
    pose proof (file_single p ptr data b (w_gsym w) r Hf Er) as H. unfold symbolize_single. cbn [symbolize_impl]. unfold on_gsym. cbn [s_new s_gsym].
    destruct (file_resolver w (w_gsym w) (path_of p) _) as [r0 c]. cbn [fst] in H. subst r0. cbn [then_]. apply (each_single (fun a => with_resolver m cf a r)).
  Qed.
  Lemma gsym_data : forall b data addr y, Gsym.gsym_lookup m (h_data_at h data) data addr (cf_opts cf) = Ok y ->
    exists r, r_find r addr (cf_opts cf) = Ok y /\
      fst (symbolize_single m cf w (SGsymData data) VirtOffset addr (s_new b)) = with_resolver m cf addr r.
  Proof.
    intros b data addr y E. destruct (gsym_opened _ _ _ _ E) as (r & Er & Ey). exists r. split; auto.
    unfold symbolize_single. cbn [symbolize_impl host_world w_gsym_data]. rewrite Er. cbn [of_outcome then_]. apply (each_single (fun a => with_resolver m cf a r)).
  Qed.
  Lemma unknown : forall (r : resolver) addr why, r_find r addr (cf_opts cf) = Ok (inr why) -> with_resolver m cf addr r = Ok (Unknown why).
  Proof. intros r addr why E. unfold with_resolver. now rewrite E. Qed.

  (** Gsym files, and data. *)
  Theorem C72_gsym : forall b p ptr data d addr f name, file_at h p ptr data -> cf_opts cf = Basic ->
    GsymSpec.is_gsym data d -> ptr mod 8 = 0 -> GsymSpec.sorted_funcs d -> GsymSpec.no_wrap d ->
    GsymSpec.nearest d addr f -> GsymSpec.covers d addr f -> GsymSpec.name_at d (GsymSpec.f_name f) name ->
    fst (symbolize_single m cf w (SGsymFile (path_of p)) VirtOffset addr (s_new b)) =
    Ok (answer cf name None addr (GsymSpec.gf_base d + GsymSpec.f_start f) (Some (GsymSpec.f_size f))).
  Proof.
    intros b p ptr data d addr f name Hf Ho Hg Hp Hs Hn Hne Hc Hna.
    pose proof (PropGsym.C16_found m ptr data d addr f name Hg Hp Hs Hn Hne Hc Hna) as E. rewrite <- Ho in E.
    destruct (gsym_file b p ptr data addr _ Hf E) as (r & Er & ->). rewrite (known r addr _ Er); auto. cbn [rs_addr]. exact (proj1 (proj2 Hne)).
  Qed.
  Theorem C72_gsym_unknown : forall b p ptr data d addr, file_at h p ptr data ->
    GsymSpec.is_gsym data d -> ptr mod 8 = 0 -> GsymSpec.sorted_funcs d -> GsymSpec.no_wrap d ->
    (forall f, GsymSpec.nearest d addr f -> ~ GsymSpec.covers d addr f) ->
    fst (symbolize_single m cf w (SGsymFile (path_of p)) VirtOffset addr (s_new b)) = Ok (Unknown UnknownAddr).
  Proof.
    intros b p ptr data d addr Hf Hg Hp Hs Hn Hno.
    destruct (gsym_file b p ptr data addr _ Hf (PropGsym.C16_unknown m ptr data d addr (cf_opts cf) Hg Hp Hs Hn Hno)) as (r & Er & ->). now apply unknown.
  Qed.
  Theorem C72_gsym_data : forall b data d addr f name, cf_opts cf = Basic ->
    GsymSpec.is_gsym data d -> h_data_at h data mod 8 = 0 -> GsymSpec.sorted_funcs d -> GsymSpec.no_wrap d ->
    GsymSpec.nearest d addr f -> GsymSpec.covers d addr f -> GsymSpec.name_at d (GsymSpec.f_name f) name ->
    fst (symbolize_single m cf w (SGsymData data) VirtOffset addr (s_new b)) =
    Ok (answer cf name None addr (GsymSpec.gf_base d + GsymSpec.f_start f) (Some (GsymSpec.f_size f))).
  Proof.
    intros b data d addr f name Ho Hg Hp Hs Hn Hne Hc Hna.
    pose proof (PropGsym.C16_found m _ data d addr f name Hg Hp Hs Hn Hne Hc Hna) as E. rewrite <- Ho in E.
    destruct (gsym_data b data addr _ E) as (r & Er & ->). rewrite (known r addr _ Er); auto. cbn [rs_addr]. exact (proj1 (proj2 Hne)).
  Qed.

  (** Breakpad files *)
  Lemma breakpad_file : forall b p ptr data addr y, file_at h p ptr data -> BreakpadSpec.breakpad_lookup m pick data addr (cf_opts cf) = Ok y ->
    exists r, r_find r addr (cf_opts cf) = Ok y /\
      fst (symbolize_single m cf w (SBreakpad (path_of p)) FileOffset addr (s_new b)) = with_resolver m cf addr r.
  Proof.
    intros b p ptr data addr y Hf E.
    assert (X : exists r, breakpad_of m pick (ptr, data) = Good r /\ r_find r addr (cf_opts cf) = Ok y).
    { unfold BreakpadSpec.breakpad_lookup in E. unfold breakpad_of. cbn [snd]. destruct (Breakpad.from_bytes data) as [g|k| |]; cbn [bind] in E; try discriminate.
      eexists. split; [reflexivity|]. exact E. }
    destruct X as (r & Er & Ey). exists r. split; auto.
    pose proof (file_single p ptr data b (w_breakpad w) r Hf Er) as H. unfold symbolize_single. cbn [symbolize_impl]. unfold on_breakpad. cbn [s_new s_breakpad].
    destruct (file_resolver w (w_breakpad w) (path_of p) _) as [r0 c]. cbn [fst] in H. subst r0. cbn [then_]. apply (each_single (fun a => with_resolver m cf a r)).
  Qed.
  Theorem C72_breakpad : forall b p ptr data rs f addr, file_at h p ptr data -> cf_opts cf = Basic ->
    BreakpadSpec.is_breakpad data rs -> BreakpadSpec.no_overlap BreakpadSpec.func_at (BreakpadSpec.functions rs) ->
    Forall (fun f => Breakpad.fn_addr f + Breakpad.fn_size f < 2 ^ 64) (BreakpadSpec.functions rs) ->
    In f (BreakpadSpec.functions rs) -> BreakpadSpec.func_at addr f ->
    fst (symbolize_single m cf w (SBreakpad (path_of p)) FileOffset addr (s_new b)) =
    Ok (answer cf (Breakpad.fn_name f) (BreakpadSpec.module_of rs) addr (Breakpad.fn_addr f) (Some (Breakpad.fn_size f))).
  Proof.
    intros b p ptr data rs f addr Hf Ho Hb Hov Hfit Hin Hat.
    pose proof (PropBreakpad.C21_found m pick data rs f addr Hb Hov Hfit Hin Hat) as E. rewrite <- Ho in E.
    destruct (breakpad_file b p ptr data addr _ Hf E) as (r & Er & ->). rewrite (known r addr _ Er); auto. cbn [rs_addr]. unfold BreakpadSpec.func_at, BreakpadSpec.in_range in Hat. lia.
  Qed.
  Theorem C72_breakpad_unknown : forall b p ptr data rs addr, file_at h p ptr data -> BreakpadSpec.is_breakpad data rs ->
    Forall (fun f => Breakpad.fn_addr f + Breakpad.fn_size f < 2 ^ 64) (BreakpadSpec.functions rs) ->
    (forall f, In f (BreakpadSpec.functions rs) -> ~ BreakpadSpec.func_at addr f) ->
    fst (symbolize_single m cf w (SBreakpad (path_of p)) FileOffset addr (s_new b)) =
    Ok (Unknown (match BreakpadSpec.functions rs with [] => MissingSyms | _ => UnknownAddr end)).
  Proof.
    intros b p ptr data rs addr Hf Hb Hfit Hno.
    destruct (breakpad_file b p ptr data addr _ Hf (PropBreakpad.C21_unknown m pick data rs addr (cf_opts cf) Hb Hfit Hno)) as (r & Er & ->). now apply unknown.
  Qed.

  (** Code made at run time, described by a perf map *)
  Lemma perf_found : forall b p ptr data fs, perf_file cf h p ptr data -> PerfMap.parse_perf_map data = Ok fs ->
    fst (perf_map_resolver cf w p (@fc_new (N * list N) resolver b)) =
      Ok (Some (symbolize_only (fun addr _ => PerfMap.perf_find_sym m fs addr))).
  Proof.
    intros b p ptr data fs (digits & Hd & Hf) E.
    assert (Hp : perf_path cf p = path_of (str_perf ++ digits ++ str_map)).
    { destruct (PropPerf.C37_path cf p) as (digits' & -> & Hd'). do 4 f_equal.
      assert (Hd2 : PropMaps.shortest_text 10 digits' (match p with Slf => cf_self cf | Pid n => n end)) by (apply Hd'; destruct p; auto).
      exact (shortest_unique 10 _ _ _ ltac:(lia) Hd2 Hd). }
    unfold perf_map_resolver. rewrite Hp. pose proof (entry_fresh resolver w (path_of (str_perf ++ digits ++ str_map)) b) as H.
    rewrite (opened_at _ _ _ Hf) in H. destruct H as (meta & c & -> & He). unfold fc_fill. rewrite He. cbn [e_value e_file e_references]. unfold get_or_try_init.
    cbn [host_world w_perf_map perf_map_of snd]. unfold perf_map_of. cbn [snd]. rewrite E. reflexivity.
  Qed.
  Theorem C72_perf : forall b p o vs v a ptr data es f, process h p vs -> mapped_at vs v a -> a < two64 -> vma_name v = [] -> po_perf_map o = true ->
    perf_file cf h p ptr data -> PerfSpec.perf_text es data -> Forall PerfSpec.fits es -> PerfSpec.disjoint_fns es -> In f es -> PerfSpec.at_fn f a ->
    fst (symbolize_single m cf w (SProcess p o) AbsAddr a (s_new b)) =
    Ok (answer cf (PerfMap.pf_name f) None a (PerfMap.pf_addr f) (Some (PerfMap.pf_size f))).
  Proof.
    intros b p o vs v a ptr data es f Hp Hm Ha Hv Ho Hf Ht Hfit Hd Hin Hat. rewrite (in_process b p o vs v a Hp Hm Ha), Hv, Ho. cbn [parse_path_name].
    destruct (PropPerf.C37_parse es data Ht) as (fs & E & _). pose proof (perf_found b p ptr data fs Hf E) as H. cbn [s_new s_perf].
    destruct (perf_map_resolver cf w p _) as [r0 c]. cbn [fst] in H |- *. subst r0. cbn [bind].
    destruct (PropPerf.C37_found m es data fs f a Ht E Hfit Hd Hin Hat) as (y & Ey & ->).
    refine (known (symbolize_only (fun addr _ => PerfMap.perf_find_sym m fs addr)) a _ Ey _ eq_refl eq_refl eq_refl). cbn [rs_addr]. unfold PerfSpec.at_fn in Hat. lia.
  Qed.
End Host.
Print Assumptions C72_elf.
Print Assumptions C72_elf_offset.
Print Assumptions C72_apk.
Print Assumptions C72_apk_none.
Print Assumptions C72_process.
Print Assumptions C72_process_apk.
Print Assumptions C72_process_apk_none.
Print Assumptions C72_vdso.
Print Assumptions C72_unmapped.
Print Assumptions C72_gsym.
Print Assumptions C72_gsym_unknown.
Print Assumptions C72_gsym_data.
Print Assumptions C72_breakpad.
Print Assumptions C72_breakpad_unknown.
Print Assumptions C72_perf.

(** ** Example: a process with a program, a library that has been deleted, an
    archive, the vDSO, and code made at run time *)
Definition ex_q : list N := [47; 112]. (* /p *)
Definition ex_gone : list N := [47; 113]. (* /q *)
Definition ex_apk : list N := [47; 120; 46; 97; 112; 107]. (* /x.apk *)
Definition ex_members : list N := PropZip.sample_local 0 [97] [1; 2; 3] ++ PropZip.sample_local 0 [98; 47; 99] PropElf.ex_data.
Definition ex_rs : list ZipSpec.cdrec := [PropZip.sample_record 0 [97]; PropZip.sample_record 36 [98; 47; 99]].
Definition ex_eocd := ZipSpec.Eocd 0 0 2 2 0 (nlen ex_members) 0.
Definition ex_zip : list N := ex_members ++ flat_map ZipSpec.enc_cdrec ex_rs ++ ZipSpec.enc_eocd ex_eocd.
Definition ex_ly : PropMaps.layout := PropMaps.Layout 12 12 8 [48; 48; 58; 48; 49] [49] 3.
Definition ex_vs : list (vma * (bool * PropMaps.layout)) :=
  [(Vma 4194304 4198400 5 0 ex_q [], (false, ex_ly)); (Vma 5242880 5246976 5 0 (ex_gone ++ PropMaps.str_deleted) [], (false, ex_ly));
   (Vma 6291456 6299648 5 0 ex_apk [], (false, ex_ly)); (Vma 7340032 7344128 5 0 str_vdso [], (false, ex_ly));
   (Vma 4294963200 4294967296 7 0 [] [], (false, ex_ly))].
Definition ex_own : list (vma * (bool * PropMaps.layout)) := [(Vma 4096 8192 5 0 str_vdso [], (false, ex_ly))].
Definition ex_files : list (list N * (N * list N)) :=
  [(ex_q, (4096, PropElf.ex_data)); (map_files_path 7 4194304 4198400, (4096, PropElf.ex_data));
   (map_files_path 7 5242880 5246976, (4096, PropElf.ex_data)); (map_files_path 7 6291456 6299648, (4096 - 71, ex_zip));
   (str_perf ++ [55] ++ str_map, (0, PropPerf.ex_text)); ([47; 103], (0, PropGsym.ex_data)); ([47; 98], (0, PropBreakpad.ex_text))].
Definition ex_find (p : path) : outcome (list N * (N * list N)) :=
  match find (fun '(q, _) => path_of q =? p) ex_files with Some f => Good f | None => Bad ENotFound end.
Definition ex_host : host :=
  Host (fun p => match ex_find p with Good _ => Good (FileMeta 1 p 0 0%Z 0%Z) | Bad k => Bad k end)
       (fun p => match ex_find p with Good (_, f) => Good f | Bad k => Bad k end)
       (fun p => match p with Pid 7 => Good (PropNormalize.maps_text ex_vs) | Slf => Good (PropNormalize.maps_text ex_own) | _ => Bad ENotFound end)
       (fun s e => if (s =? 4096) && (e =? 8192) then PropElf.ex_data else []) 42 (fun _ => 8).
Definition ex_none : resolver := symbolize_only (fun _ _ => Err EUnsupported).
Definition ex_rest : world (N * list N) parser :=
  World (Fs (fun _ => Bad ENotFound) (fun _ => Bad ENotFound)) (fun _ _ => Bad ENotFound) (fun _ => ex_none) (fun _ => Good tt)
    (fun _ => Ok None) (fun _ => 0) (fun _ => None) (fun _ _ _ => Bad ENotFound) (fun _ => Bad ENotFound) None (fun _ _ _ => Bad ENotFound)
    (fun _ _ => Bad ENotFound) (fun _ _ => Bad ENotFound) (fun _ _ => Bad ENotFound) (fun _ => Bad ENotFound) (fun _ => Bad ENotFound)
    (fun _ => Bad ENotFound) (fun _ _ => ex_none) None.
Definition ex_cf : config := Config Basic (fun name _ => name) 42.
Definition ex_w := host_world ElfExample.no_ext Checked (fun _ _ => 0) ex_rest ex_host.
Definition brief_of (x : symbolized) : (list N * option (list N) * N * N) + reason :=
  match x with Known s => inl (sy_name s, sy_module s, sy_addr s, sy_offset s) | Unknown r => inr r end.
Example C72_example :
  (let* l := fst (symbolize Checked ex_cf ex_w (SProcess (Pid 7) (POpts false true true true)) AbsAddr
     [4194304 + 178; 5242880 + 178; 6291456 + 71 + 178; 6291456 + 10; 7340032 + 178; 4294967290; 0] (s_new true)) in Ok (map brief_of l)) =
  Ok [inl ([109; 97; 105; 110], Some ex_q, 4096, 2); inl ([109; 97; 105; 110], Some ex_gone, 4096, 2);
      inl ([109; 97; 105; 110], Some (ex_apk ++ [33; 47; 98; 47; 99]), 4096, 2); inr InvalidFileOffset;
      inl ([109; 97; 105; 110], Some str_vdso, 4096, 2); inl ([108; 97; 115; 116], None, 4294967280, 10); inr Unmapped].
Proof. vm_compute. reflexivity. Qed.

Ltac checked := vm_compute; repeat (constructor; [try reflexivity|]); try constructor; auto.
Lemma ex_wf_name : forall l, (forall b, hd_error l = Some b -> ~ PropMaps.white b) -> (forall b, hd_error (rev l) = Some b -> ~ PropMaps.white b) -> PropMaps.wf_name l.
Proof.
  intros l H1 H2. split; intros b l' E.
  - apply H1. now rewrite E.
  - apply H2. now rewrite E, rev_app_distr.
Qed.
Ltac a_vma := split; [repeat split; try (vm_compute; reflexivity); try (cbn; lia); repeat constructor; unfold PropMaps.white; cbn; intuition discriminate|];
  split; [apply ex_wf_name; intros b E; vm_compute in E; try discriminate E; injection E as <-; unfold PropMaps.white; cbn; intuition discriminate|
          unfold PropMaps.no_lf; repeat constructor; discriminate].
Lemma ex_process : process ex_host (Pid 7) ex_vs /\ process ex_host Slf ex_own.
Proof.
  split; (split; [reflexivity|]); (split; [split; [repeat (constructor; [|repeat (constructor; try (cbn; lia))]); constructor|repeat (constructor; [cbn; vm_compute; split; [reflexivity|discriminate]|]); constructor]|]).
  - repeat (constructor; [a_vma|]). constructor.
  - repeat (constructor; [a_vma|]). constructor.
Qed.
Lemma ex_program : elf_program ElfExample.no_ext 4096 PropElf.ex_data PropElf.ex_e PropElf.ex_st PropElf.ex_dt.
Proof.
  split; [exact PropElf.ex_file|]. split; [exact (proj1 PropElf.C28_example)|]. split; [exact PropElf.ex_symtab|]. split; [exact PropElf.ex_dynsym|].
  split; [apply PropElf.ex_space|]. split; [apply PropElf.ex_space|]. split; apply PropElf.ex_names.
Qed.
Lemma ex_archive : HostSpec.archive ex_zip ex_rs.
Proof.
  assert (El : nlen ex_zip = nlen (ex_members ++ flat_map ZipSpec.enc_cdrec ex_rs) + 22) by reflexivity.
  split; [unfold is_bytes; apply Forall_forall; intros b Hb; assert (H : forallb (fun b => b <? 256) ex_zip = true) by (vm_compute; reflexivity);
    rewrite forallb_forall in H; apply N.ltb_lt; auto|].
  split; [reflexivity|]. exists (nlen (ex_members ++ flat_map ZipSpec.enc_cdrec ex_rs)), ex_eocd.
  split; [split|].
  - split; [split; repeat constructor; vm_compute; auto|]. exists []. split; [reflexivity|].
    exists (ex_members ++ flat_map ZipSpec.enc_cdrec ex_rs), []. split; [unfold ex_zip; now rewrite !app_nil_r, <- app_assoc|reflexivity].
  - intros q y Hq (_ & cm & _ & (pre & post & E & Ep)). apply (f_equal (@nlen N)) in E. rewrite El in E.
    revert Hq E. generalize (nlen (ex_members ++ flat_map ZipSpec.enc_cdrec ex_rs)). intros L Hq E. rewrite !nlen_app in E. unfold ZipSpec.enc_eocd in E. rewrite !nlen_app, !le_bytes_nlen in E. change (nlen [80; 75; 5; 6]) with 4 in E. lia.
  - split; [vm_compute; discriminate|]. split; [repeat split|]. split; [vm_compute; discriminate|]. split; [|reflexivity].
    split; [repeat constructor; vm_compute; auto|]. exists ex_members, (ZipSpec.enc_eocd ex_eocd). split; [reflexivity|reflexivity].
Qed.
Lemma map_file_unique : forall pid s e f f', PropMaps.is_map_file pid s e f -> PropMaps.is_map_file pid s e f' -> f = f'.
Proof.
  intros pid s e f f' (a & b & c & Ha & Hb & Hc & ->) (a' & b' & c' & Ha' & Hb' & Hc' & ->).
  now rewrite (shortest_unique 10 a a' pid ltac:(lia) Ha Ha'), (shortest_unique 16 b b' s ltac:(lia) Hb Hb'), (shortest_unique 16 c c' e ltac:(lia) Hc Hc').
Qed.
Lemma ex_stored : stored ex_zip (PropZip.sample_record 0 [97]) [97] 33 [1; 2; 3] /\
  stored ex_zip (PropZip.sample_record 36 [98; 47; 99]) [98; 47; 99] 71 PropElf.ex_data.
Proof.
  split.
  - exists (ZipSpec.Local 20 0 0 0 0 0 3 3 [97] [0; 0]). split; [|split; reflexivity].
    split; [split; repeat constructor|]. split; [exists [], (skipn 36 ex_zip); split; reflexivity|]. repeat split.
  - exists (ZipSpec.Local 20 0 0 0 0 0 (nlen PropElf.ex_data) (nlen PropElf.ex_data) [98; 47; 99] [0; 0]). split; [|split; reflexivity].
    split; [split; repeat constructor; vm_compute; auto|]. split; [exists (PropZip.sample_local 0 [97] [1; 2; 3]), (flat_map ZipSpec.enc_cdrec ex_rs ++ ZipSpec.enc_eocd ex_eocd); split; [vm_compute; reflexivity|reflexivity]|]. repeat split.
Qed.
Example C72_apk_example : exists r,
  fst (symbolize_single Checked ex_cf ex_w (SProcess (Pid 7) (POpts false true true true)) AbsAddr (6291456 + 71 + 178) (s_new true)) = Ok r /\
  elf_offset_answer ex_cf (ex_apk ++ [33; 47; 98; 47; 99]) PropElf.ex_e PropElf.ex_st PropElf.ex_dt 178 r.
Proof.
  refine (C72_process_apk ElfExample.no_ext Checked (fun _ _ => 0) ex_rest ex_host ex_cf ElfExample.no_ext_sorts eq_refl eq_refl true (Pid 7) (POpts false true true true) ex_vs
    (Vma 6291456 6299648 5 0 ex_apk []) (6291456 + 71 + 178) ex_apk (4096 - 71) ex_zip [PropZip.sample_record 0 [97]] (PropZip.sample_record 36 [98; 47; 99]) []
    [98; 47; 99] 71 PropElf.ex_data PropElf.ex_e PropElf.ex_st PropElf.ex_dt (proj1 ex_process) _ eq_refl eq_refl _ _ _ _ ex_archive _ (proj2 ex_stored) _ ex_program).
  - split; [right; right; now left|]. split; [now left|]. cbn. lia.
  - split; [reflexivity|]. left. split; [reflexivity|]. intros r E. apply (f_equal (@rev N)) in E. rewrite rev_app_distr in E. discriminate E.
  - repeat constructor.
  - exists [47], 120, [97; 112; 107]. split; [reflexivity|]. split; [discriminate|now left].
  - intros f Hf. rewrite (map_file_unique _ _ _ f (map_files_path 7 6291456 6299648) Hf (PropMaps.map_files_path_ok 7 6291456 6299648)).
    cbn [po_map_files]. split; [eexists; vm_compute; reflexivity|vm_compute; reflexivity].
  - constructor; [|constructor]. exists [97], 33, [1; 2; 3]. split; [exact (proj1 ex_stored)|]. vm_compute. intros [_ H]. discriminate H.
  - vm_compute. split; [discriminate|reflexivity].
Qed.
Example C72_perf_example :
  fst (symbolize_single Checked ex_cf ex_w (SProcess (Pid 7) (POpts false true true true)) AbsAddr 4294967290 (s_new true)) =
  Ok (answer ex_cf [108; 97; 115; 116] None 4294967290 4294967280 (Some 15)).
Proof.
  refine (C72_perf ElfExample.no_ext Checked (fun _ _ => 0) ex_rest ex_host ex_cf eq_refl true (Pid 7) (POpts false true true true) ex_vs
    (Vma 4294963200 4294967296 7 0 [] []) 4294967290 0 PropPerf.ex_text PropPerf.ex_fns (PerfMap.PFn [108; 97; 115; 116] 4294967280 15) (proj1 ex_process) _ eq_refl eq_refl eq_refl _
    PropPerf.ex_perf (proj1 (proj2 PropPerf.C37_example)) (proj1 (proj2 (proj2 PropPerf.C37_example))) _ _).
  - split; [do 4 right; now left|]. split; [now left|]. cbn. lia.
  - exists [55]. split; [exists 1%nat; repeat split; auto|]. split; [eexists; vm_compute; reflexivity|vm_compute; reflexivity].
  - do 3 right. now left.
  - unfold PerfSpec.at_fn. cbn. lia.
Qed.
Example C72_formats_example :
  (fst (symbolize_single Checked ex_cf ex_w (SGsymFile (path_of [47; 103])) VirtOffset 4107 (s_new true)),
   fst (symbolize_single Checked ex_cf ex_w (SGsymData PropGsym.ex_data) VirtOffset 4128 (s_new true)),
   fst (symbolize_single Checked ex_cf ex_w (SBreakpad (path_of [47; 98])) FileOffset 8200 (s_new true))) =
  (Ok (answer ex_cf [109; 97; 105; 110] None 4107 4096 (Some 32)), Ok (Unknown UnknownAddr),
   Ok (answer ex_cf [104] (Some [98; 97; 114]) 8200 8192 (Some 16))).
Proof. vm_compute. reflexivity. Qed.
