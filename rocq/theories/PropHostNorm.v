(** * C73: normalization from the contents of files *)

From Coq Require Import Permutation Sorting.Sorted.
From Verif Require Import Base Util UtilProofs Bytes Maps Sym Inspect Mmap Elf ElfSpec BuildId BuildIdSpec Normalize NormalizeProofs FileCache
  Symbolizer SymbolizerProcess Host HostSpec PropHost HostNorm HostNormSpec.
From Verif Require Zip ZipSpec PropZip PropBuildId PropNormalize PropMaps.
Local Open Scope N_scope.
Local Notation length := List.length.

Section Host.
  Context (x : ext) (m : mode) (pick : N -> N -> N) (rest : world (N * list N) parser) (h : host).
  Context (Hx : sorts x) (Hwf : wf_host h).
  Notation env := (host_nenv x m pick rest h).
  Notation normalize := (host_normalize x m pick rest h).

  (** ** What is read *)
  Lemma archive_bounds : forall ptr data ms mb, is_bytes data -> archive_of m (ptr, data) = Good ms -> In (Good mb) ms ->
    mb_offset mb + mb_len mb <= nlen data.
  Proof.
    intros ptr data ms mb Hb. unfold archive_of. cbn [fst snd]. destruct (Zip.with_mmap (map_file data)) as [a|k| |] eqn:Ea; cbn [bind to_outcome]; try discriminate.
    destruct (Zip.entries a) as [es|k| |] eqn:Ee; cbn [bind to_outcome]; try discriminate. intros [= <-] Hin.
    apply in_map_iff in Hin. destruct Hin as (r & Er & Hr). destruct r as [e|k| |]; try discriminate Er. cbn [bind to_outcome] in Er. injection Er as <-.
    apply In_nth_error in Hr. destruct Hr as (k & Hk).
    destruct (PropZip.C24_in_bounds (map_file data) a es k e ltac:(rewrite deref_whole; auto) Ea Ee Hk) as (_ & Hle). rewrite deref_whole in Hle.
    unfold member_of. cbn [mb_offset mb_len]. exact Hle.
  Qed.
  Lemma archives_ok : forall p, PropNormalize.wf_archives (env p).
  Proof.
    intros p q ms mb. cbn [host_nenv nv_archive]. unfold zarchive_of. destruct (h_stat h (path_of q)); [|discriminate].
    destruct (h_open h (path_of q)) as [[ptr data]|k] eqn:Eo; [|discriminate]. destruct (archive_of m (ptr, data)) as [ms0|k] eqn:Ea; [|discriminate].
    intros [= <-] Hin. apply in_map_iff in Hin. destruct Hin as (o & E & Ho). destruct o as [mb0|]; [|discriminate]. injection E as <-. cbn [zmember_of zm_data_offset zm_data_len].
    destruct (Hwf _ _ _ Eo) as (Hb & Hl). pose proof (archive_bounds ptr data ms0 mb0 Hb Ea Ho). lia.
  Qed.
  Lemma build_id_ok : forall ptr data e b, elf_file ptr data e -> has_build_id e b -> build_id_of x m ptr data = Good b.
  Proof. intros ptr data e b He (l & Hl & Hg & ->). unfold build_id_of. now rewrite (PropBuildId.C31_first x m ptr data e l He Hl Hg). Qed.

  (** The members of an archive, with their build IDs *)
  Lemma zarchive_ok : forall q ptr data rs, file_at h q ptr data -> archive data rs ->
    exists ms, zarchive_of x m h q = Good (map (fun o => match o with Good mb => Good (zmember_of x m mb) | Bad k => Bad k end) ms) /\
      Forall2 (member_is ptr data) rs ms.
  Proof.
    intros q ptr data rs ((mt & E1) & E2) Ha. destruct (archive_members m pick ptr data rs Ha) as (ms & Em & HF). exists ms. split; auto.
    unfold zarchive_of. now rewrite E1, E2, Em.
  Qed.
  Lemma elsewhere_out : forall ptr data off rs ms, Forall2 (member_is ptr data) rs ms -> Forall (elsewhere data off) rs ->
    exists l, map (fun o => match o with Good mb => Good (zmember_of x m mb) | Bad k => Bad k end) ms = map Good l /\
      Forall (fun mb => ~ PropNormalize.in_member off mb) l.
  Proof.
    intros ptr data off rs ms HF. induction HF as [|c o rs ms Hc HF IH]; intros He; [exists []; auto|].
    inversion He as [|? ? (name & start & ct & Hs & Hn) He']; subst. destruct (Hc _ _ _ Hs) as (-> & _). destruct (IH He') as (l & El & Hl).
    eexists (_ :: l). cbn [map]. rewrite El. split; [reflexivity|]. constructor; auto.
  Qed.
  Lemma first_in_archive : forall q ptr data off rs1 c rs2 name start contents, file_at h q ptr data -> archive data (rs1 ++ c :: rs2) ->
    Forall (elsewhere data off) rs1 -> stored data c name start contents -> start <= off < start + nlen contents ->
    exists ms, zarchive_of x m h q = Good ms /\
      PropNormalize.first_member ms off (ZMember name start (nlen contents) (build_id_of x m (ptr + start) contents)).
  Proof.
    intros q ptr data off rs1 c rs2 name start contents Hf Ha He Hs Hi. destruct (zarchive_ok q ptr data _ Hf Ha) as (ms & Em & HF).
    eexists. split; [exact Em|]. apply Forall2_app_inv_l in HF. destruct HF as (ms1 & ms2 & H1 & H2 & ->). inversion H2 as [|? o ? ms3 Hc H3]; subst.
    destruct (elsewhere_out ptr data off rs1 ms1 H1 He) as (l & El & Hl). destruct (Hc _ _ _ Hs) as (-> & _).
    rewrite map_app, El. cbn [map zmember_of mb_path mb_offset mb_len mb_mmap]. exists l. eexists. split; [reflexivity|]. split; auto.
  Qed.
  Lemma none_in_archive : forall q ptr data off rs, file_at h q ptr data -> archive data rs -> Forall (elsewhere data off) rs ->
    exists ms, zarchive_of x m h q = Good ms /\ PropNormalize.no_member ms off.
  Proof.
    intros q ptr data off rs Hf Ha He. destruct (zarchive_ok q ptr data _ Hf Ha) as (ms & Em & HF). eexists. split; [exact Em|].
    destruct (elsewhere_out ptr data off rs ms HF He) as (l & El & Hl). exists l. auto.
  Qed.

  (** The vDSO *)
  Lemma vdso_ok : forall p v start data, vdso_image h p v start data ->
    vdso_of x m pick rest h p (vma_start v) (vma_end v) =
    let r := elf_resolver_of x m (Parser (Some str_vdso) (Mem start data)) in
    Good (Vdso (r_virt r) (fun va => let* y := with_resolver m vdso_config va r in
                             Ok (match y with Known s => inl s | Unknown why => inr why end))).
  Proof.
    intros p v start data (end_ & -> & Hi). unfold vdso_of. destruct p as [|n]; cbn [create_vdso_parser].
    - destruct Hi as (-> & ->). reflexivity.
    - destruct Hi as (vs' & v' & Hp' & Hin & Hac & Hvd & Hu & -> & ->). destruct (process_maps x m pick rest h Slf vs' Hp') as (Em & _).
      unfold find_vdso. rewrite Em. cbn [of_outcome bind]. unfold entries_of. rewrite (find_vdso_in h Slf v' (map fst vs') Hin Hac Hvd Hu). reflexivity.
  Qed.

  (** ** The mappings *)
  Definition all (p : pid) (vs : list (vma * (bool * PropMaps.layout))) : list maps_entry := map (PropNormalize.entry_t (number h p)) (map fst vs).
  Lemma text_length : forall vs, (length vs <= length (PropNormalize.maps_text vs))%nat.
  Proof.
    induction vs as [|[v [sh l]] vs IH]; [cbn; lia|]. unfold PropNormalize.maps_text, PropMaps.kernel_file in *. cbn [map concat].
    rewrite app_length, app_length. cbn [length]. lia.
  Qed.
  Lemma run_eq : forall p vs o cache addrs, process h p vs -> exists fuel, (length (all p vs) < fuel)%nat /\
    PropNormalize.wf_space (all p vs) /\
    normalize p o cache addrs = normalize_opts m (env p) o cache fuel (Text (map Ok (entries_of h p vs))) None addrs.
  Proof.
    intros p vs o cache addrs (E & Hw & Hl). exists (S (length (PropNormalize.maps_text vs))). split; [|split].
    - unfold all. rewrite !map_length. pose proof (text_length vs). lia.
    - apply (PropNormalize.wf_entries _ (number h p)); auto.
    - unfold host_normalize. rewrite E. cbn [of_outcome bind]. replace (match p with Slf => h_pid h | Pid n => n end) with (number h p) by reflexivity.
      rewrite (PropNormalize.text_source m (number h p) vs Hl). reflexivity.
  Qed.
  Lemma attribution : forall p vs o cache addrs out n a, process h p vs -> normalize p o cache addrs = Ok out -> nth_error addrs n = Some a ->
    exists y i mt, nth_error (uo_outputs out) n = Some (y, i) /\ nth_error (uo_meta out) i = Some mt /\
      PropNormalize.attributed (env p) o (entries_of h p vs) a y mt.
  Proof.
    intros p vs o cache addrs out n a Hp E En. destruct (run_eq p vs o cache addrs Hp) as (fuel & Hf & Hw & Er). rewrite Er in E.
    pose proof (PropNormalize.C10_attribution sym (env p) o m _ _ _ cache fuel None addrs out Hw (archives_ok p) (PropNormalize.so_text _) Hf (or_introl eq_refl) E) as H.
    destruct (Forall2_nth_l _ _ _ _ _ H n a En) as ([y i] & Ex & mt & Hi & Hat). exists y, i, mt. auto.
  Qed.
  Lemma only : forall p vs v a e, process h p vs -> mapped_at vs v a -> In e (entries_of h p vs) -> PropNormalize.contains_addr e a ->
    e = PropNormalize.entry_t (number h p) v.
  Proof.
    intros p vs v a e Hp (Hv & Hac & Hr) He Hc. destruct (process_maps x m pick rest h p vs Hp) as (_ & Hw).
    eapply (PropNormalize.C10_unique_mapping (entries_of h p vs)); eauto using entry_in.
  Qed.
  Lemma entry_file : forall v p f q, parse_path_name (vma_name v) (number h p) (vma_start v) (vma_end v) = Some (PPath f q) ->
    of_file v q /\ PropMaps.is_map_file (number h p) (vma_start v) (vma_end v) f.
  Proof.
    intros v p f q E. pose proof (PropMaps.parse_path_name_ok (vma_name v) (number h p) (vma_start v) (vma_end v)) as D. rewrite E in D. unfold of_file.
    inversion D as [|? ? H1 H2 H3|r ? H1 H2 Hn|]; subst.
    - repeat split; auto.
    - repeat split; auto. destruct q; [discriminate H1|exact H1].
  Qed.
  Lemma chosen_as : forall o p v q f path, PropMaps.is_map_file (number h p) (vma_start v) (vma_end v) f ->
    reported_as h o p v q path -> PropNormalize.chosen o f q = path.
  Proof.
    intros o p v q f path Hf. unfold reported_as, PropNormalize.chosen. destruct (no_map_files o); intros H; [|auto].
    exact (map_file_unique _ _ _ _ _ Hf H).
  Qed.
  Lemma vdso_name : forall v p, parse_path_name (vma_name v) (number h p) (vma_start v) (vma_end v) = Some (PComponent str_vdso) -> is_vdso v.
  Proof.
    intros v p E. pose proof (PropMaps.parse_path_name_ok (vma_name v) (number h p) (vma_start v) (vma_end v)) as D. rewrite E in D.
    unfold is_vdso. inversion D; congruence.
  Qed.

  (** ** Programs and libraries

      The offset in the file, the file's path and its build ID, whichever the
      other addresses are *)
  Lemma file_meta_ok : forall p vs o path b', PropNormalize.identity (env p) o (entries_of h p vs) path b' ->
    (no_apk_to_elf o = true -> plain path) ->
    b' = PropNormalize.file_build_id (env p) o path.
  Proof.
    intros p vs o path b' Hid Hpl. destruct Hid as [e f q He Ep Hn -> ->|e f q ms mb He Ep Hn Ho Em Hi -> Hb].
    - unfold entries_of in He. apply filter_In in He. destruct He as (He & _). apply in_map_iff in He. destruct He as (v & <- & _). reflexivity.
    - exfalso. eapply (Hpl Ho). reflexivity.
  Qed.
  Lemma elf_meta : forall p vs o cache addrs out n a v q path, process h p vs -> normalize p o cache addrs = Ok out ->
    nth_error addrs n = Some a -> mapped_at vs v a -> of_file v q -> ~ PropNormalize.is_archive q -> reported_as h o p v q path ->
    (no_apk_to_elf o = true -> plain path) ->
    exists i, nth_error (uo_outputs out) n = Some (a - vma_start v + vma_offset v, i) /\
      nth_error (uo_meta out) i = Some (UElf path (PropNormalize.file_build_id (env p) o path)).
  Proof.
    intros p vs o cache addrs out n a v q path Hp E En Hm Hq Hn Hr Hpl.
    destruct (attribution p vs o cache addrs out n a Hp E En) as (y & i & mt & Ey & Ei & Hat). exists i. rewrite Ey, Ei. clear Ey Ei.
    destruct (file_entry h v q p Hq) as (f & Ef & Hmf). pose proof (chosen_as o p v q f path Hmf Hr) as Hch.
    assert (Hu : forall w, In w (entries_of h p vs) -> PropNormalize.contains_addr w a -> w = PropNormalize.entry_t (number h p) v) by (intros w; now apply only).
    assert (Hin : In (PropNormalize.entry_t (number h p) v) (entries_of h p vs) /\ PropNormalize.contains_addr (PropNormalize.entry_t (number h p) v) a)
      by (destruct Hm as (Hv & Hac & Hr'); split; [apply entry_in; auto|exact Hr']).
    inversion Hat as [Hno|w Hiw Hcw Ew|w c Hiw Hcw Ew|w vd va sym Hiw Hcw Ew|w vd va r Hiw Hcw Ew|w vd Hiw Hcw Ew
      |w f' p' b Hiw Hcw Ew Hn' Hid|w f' p' Hiw Hcw Ew Hn'|w f' p' ms mb b Hiw Hcw Ew Hn'|w f' p' ms Hiw Hcw Ew Hn'];
      subst; [exfalso; eapply Hno; apply Hin| | | | | | | | |];
      pose proof (Hu w Hiw Hcw); subst w; cbn [PropNormalize.entry_t me_path me_start me_offset] in *; rewrite Ef in Ew; try discriminate; injection Ew as <- <-; try contradiction.
    split; auto. do 2 f_equal. now apply (file_meta_ok p vs o).
  Qed.
  Theorem C73_elf : forall p vs o cache addrs out n a v q path ptr data e b, process h p vs -> normalize p o cache addrs = Ok out ->
    nth_error addrs n = Some a -> mapped_at vs v a -> of_file v q -> ~ PropNormalize.is_archive q -> reported_as h o p v q path ->
    (no_apk_to_elf o = true -> plain path) -> file_at h path ptr data -> elf_file ptr data e -> build_id_reported o e b ->
    exists i, nth_error (uo_outputs out) n = Some (a - vma_start v + vma_offset v, i) /\ nth_error (uo_meta out) i = Some (UElf path b).
  Proof.
    intros p vs o cache addrs out n a v q path ptr data e b Hp E En Hm Hq Hn Hr Hpl (_ & Hf) He Hb.
    destruct (elf_meta p vs o cache addrs out n a v q path Hp E En Hm Hq Hn Hr Hpl) as (i & H1 & H2). exists i. split; auto. rewrite H2. do 2 f_equal.
    unfold PropNormalize.file_build_id, build_id_reported in *. destruct (no_build_ids o); auto. cbn [host_nenv nv_build_id]. unfold file_build_id_of.
    now rewrite Hf, (build_id_ok ptr data e b He Hb).
  Qed.
  (** A file that is gone or of no use makes for a missing build ID only. *)
  Theorem C73_unreadable : forall p vs o cache addrs out n a v q path, process h p vs -> normalize p o cache addrs = Ok out ->
    nth_error addrs n = Some a -> mapped_at vs v a -> of_file v q -> ~ PropNormalize.is_archive q -> reported_as h o p v q path ->
    (no_apk_to_elf o = true -> plain path) -> (exists k, h_open h (path_of path) = Bad k) \/ (exists ptr data, file_at h path ptr data /\ ntake 4 data <> [127; 69; 76; 70]) ->
    exists i, nth_error (uo_outputs out) n = Some (a - vma_start v + vma_offset v, i) /\ nth_error (uo_meta out) i = Some (UElf path None).
  Proof.
    intros p vs o cache addrs out n a v q path Hp E En Hm Hq Hn Hr Hpl Hf.
    destruct (elf_meta p vs o cache addrs out n a v q path Hp E En Hm Hq Hn Hr Hpl) as (i & H1 & H2). exists i. split; auto. rewrite H2. do 2 f_equal.
    unfold PropNormalize.file_build_id. destruct (no_build_ids o); auto. cbn [host_nenv nv_build_id]. unfold file_build_id_of.
    destruct Hf as [(k & ->)|(ptr & data & (_ & ->) & Hl)]; auto.
    unfold build_id_of, read_build_id, parse_shdrs, parse_ehdr, read_bytes, get_from. destruct (0 <=? nlen data); [|reflexivity]. cbn [of_option bind]. rewrite ndrop_0.
    unfold read_slice. destruct (nlen data <? 16); [reflexivity|]. cbn [ok_or bind].
    rewrite !ntake_firstn. rewrite ntake_firstn in Hl. rewrite firstn_firstn. change (Init.Nat.min (N.to_nat 4) (N.to_nat 16)) with (N.to_nat 4).
    destruct (beq _ _) eqn:Eb; [apply beq_eq in Eb; contradiction|reflexivity].
  Qed.

  (** ** Archives *)
  Lemma apk_served : forall p vs o a, process h p vs -> tellable x h o p vs a -> PropNormalize.served (env p) o (entries_of h p vs) a.
  Proof.
    intros p vs o a Hp Ht w Hw Hc. cbv zeta. unfold entries_of in Hw. apply filter_In in Hw. destruct Hw as (Hw & Hi). apply in_map_iff in Hw. destruct Hw as (v & <- & Hv).
    cbn [PropNormalize.entry_t me_path me_start me_end me_offset] in *.
    assert (Hac : accessible v).
    { unfold PropNormalize.interesting in Hi. cbn [PropNormalize.entry_t me_perm] in Hi. destruct (PropNormalize.perm_of_bits v) as [E2 E0]. rewrite E2, E0 in Hi. now apply orb_true_iff in Hi. }
    assert (Hm : mapped_at vs v a) by (split; [auto|split; auto]). specialize (Ht v Hm). cbv zeta in Ht. destruct Ht as (Ha & Hd).
    revert Ha Hd. generalize (a - vma_start v + vma_offset v). intros off Ha Hd. split.
    - intros f q Ep Har Ho. destruct (entry_file v p f q Ep) as (Hq & Hmf).
      destruct (Ha q Hq Har Ho) as (path & ptr & data & rs1 & rs2 & Hr & Hf & Hz & Hrs & Hc2). rewrite (chosen_as o p v q f path Hmf Hr).
      cbn [host_nenv nv_archive]. destruct Hc2 as [->|(c & name & start & contents & e & b & tl & -> & Hs & Hi2 & He & Hb)].
      + rewrite app_nil_r in Hz. destruct (none_in_archive path ptr data off rs1 Hf Hz Hrs) as (ms & -> & Hno). eauto.
      + destruct (first_in_archive path ptr data off rs1 c tl name start contents Hf Hz Hrs Hs Hi2) as (ms & -> & Hfm). eexists. split; [reflexivity|].
        right. eexists. exists b. split; [exact Hfm|]. unfold PropNormalize.member_build_id, build_id_reported in *. destruct (no_build_ids o); auto.
        cbn [zm_build_id]. now apply (build_id_ok _ _ e).
    - intros Ep. apply vdso_name in Ep. destruct (Hd Ep) as (start & data & e & st & dt & Him & Hpr). cbn [host_nenv nv_vdso]. rewrite (vdso_ok p v start data Him). cbv zeta.
      cbn [elf_resolver_of r_virt p_backend].
      destruct (PropElf.C28_to_virt m start data e off (proj1 Hpr) (proj1 (proj2 Hpr))) as [(ph & H1 & H2 & E)|[H1 E]].
      + eexists. eexists. split; [reflexivity|]. split; [exact E|]. cbn [vd_symbolize]. intros va [= <-].
        destruct (elf_lookup x m pick vdso_config Hx start data e st dt str_vdso (off - p_offset ph + p_vaddr ph) Hpr) as (r & -> & _). cbn [bind]. eauto.
      + eexists. eexists. split; [reflexivity|]. split; [exact E|]. discriminate.
  Qed.
  (** There is an outcome as long as what there is at the addresses can be
      told. *)
  Theorem C73_some : forall p vs o cache addrs, process h p vs -> (exists v, In v (map fst vs) /\ accessible v) ->
    Forall (tellable x h o p vs) addrs -> (no_sorted_addrs o = true -> StronglySorted N.le addrs) ->
    exists out, normalize p o cache addrs = Ok out.
  Proof.
    intros p vs o cache addrs Hp (v & Hv & Hac) Ht Hs. destruct (run_eq p vs o cache addrs Hp) as (fuel & Hf & Hw & ->).
    assert (Hne : entries_of h p vs <> []) by (pose proof (entry_in h p vs v Hv Hac) as Hin; intros E; rewrite E in Hin; destruct Hin).
    eapply (PropNormalize.arranged_run sym (env p) o m (all p vs) _ (entries_of h p vs) cache fuel None addrs); eauto using archives_ok.
    - apply PropNormalize.so_text.
    - eapply Forall_impl; [|exact Ht]. intros a. now apply apk_served.
    - destruct (no_sorted_addrs o); [auto|apply sorted_elems].
  Qed.
  (** An address in an archive that is looked into: offset in the file that is
      there, its path, starting with that of the archive, and its build ID *)
  Theorem C73_apk : forall p vs o cache a v q path ptr data rs1 c rs2 name start contents e b, process h p vs ->
    mapped_at vs v a -> of_file v q -> PropNormalize.is_archive q -> no_apk_to_elf o = true ->
    reported_as h o p v q path -> file_at h path ptr data -> let off := a - vma_start v + vma_offset v in
    archive data (rs1 ++ c :: rs2) -> Forall (elsewhere data off) rs1 -> stored data c name start contents -> start <= off < start + nlen contents ->
    elf_file (ptr + start) contents e -> build_id_reported o e b ->
    normalize p o cache [a] = Ok (UOutput [(off - start, 0%nat)] [UElf (PropNormalize.member_path path name) b]).
  Proof.
    intros p vs o cache a v q path ptr data rs1 c rs2 name start contents e b Hp Hm Hq Har Ho Hr Hf off Hz Hrs Hs Hi He Hb.
    destruct (file_entry h v q p Hq) as (f & Ef & Hmf). pose proof (chosen_as o p v q f path Hmf Hr) as Hch.
    destruct (first_in_archive path ptr data off rs1 c rs2 name start contents Hf Hz Hrs Hs Hi) as (ms & Em & Hfm).
    assert (Hbid : PropNormalize.member_build_id o (ZMember name start (nlen contents) (build_id_of x m (ptr + start) contents)) b).
    { unfold PropNormalize.member_build_id, build_id_reported in *. destruct (no_build_ids o); auto. cbn [zm_build_id]. now apply (build_id_ok _ _ e). }
    assert (Hse : PropNormalize.served (env p) o (entries_of h p vs) a).
    { intros w Hw Hc. pose proof (only p vs v a w Hp Hm Hw Hc). subst w. cbn [PropNormalize.entry_t me_path me_start me_end me_offset]. rewrite Ef. split; [|discriminate].
      intros f' q' [= <- <-] _ _. rewrite Hch. cbn [host_nenv nv_archive]. eexists. split; [exact Em|]. right. eauto. }
    destruct (run_eq p vs o cache [a] Hp) as (fuel & Hfu & Hw & ->).
    assert (Hin : In (PropNormalize.entry_t (number h p) v) (entries_of h p vs)) by (destruct Hm as (Hv & Hac & _); now apply entry_in).
    assert (Hne : entries_of h p vs <> []) by (intros E; rewrite E in Hin; destruct Hin).
    destruct (PropNormalize.arranged_run sym (env p) o m (all p vs) (Text (map Ok (entries_of h p vs))) (entries_of h p vs) cache fuel None [a] [a]) as (out & Eo); auto using archives_ok.
    - apply PropNormalize.so_text.
    - now destruct (no_sorted_addrs o).
    - repeat constructor.
    - rewrite Eo. destruct (PropNormalize.opts_inv (env p) o m (all p vs) _ (entries_of h p vs) cache fuel None [a] out Hw (archives_ok p) (PropNormalize.so_text _) Hfu (or_introl eq_refl) Eo)
        as (ts & s & Har2 & _ & Er & Emt & Hperm & _).
      assert (ts = [a]). { unfold PropNormalize.arranged in Har2. destruct (no_sorted_addrs o); [auto|]. destruct Har2 as (Har2 & _). now apply Permutation_length_1_inv in Har2. } subst ts.
      unfold PropNormalize.fold_run in Er. cbn [hd fold_checked] in Er. rewrite N.ltb_irrefl in Er. unfold step in Er.
      destruct Hm as (Hv & Hac & Hra). pose proof (process_maps x m pick rest h p vs Hp) as (_ & Hwe).
      rewrite (lookup_unique (entries_of h p vs) a _ (proj1 Hwe) Hin Hra) in Er.
      unfold handle_entry_addr in Er. cbn [PropNormalize.entry_t me_path me_start me_end me_offset] in Er. rewrite Ef in Er.
      unfold sub64 in Er. rewrite usub_small in Er by lia. cbn [bind] in Er.
      assert (Hoff : a - vma_start v + vma_offset v < two64).
      { destruct Hwe as (_ & Hfo & _). rewrite Forall_forall in Hfo. specialize (Hfo _ Hin). cbn in Hfo. lia. }
      unfold add64 in Er. rewrite uadd_small in Er by exact Hoff. cbn [bind] in Er. rewrite (proj2 (PropNormalize.ext_archive q) Har), Ho in Er.
      unfold PropNormalize.chosen in Hch. rewrite Hch in Er. cbn [host_nenv nv_archive] in Er. rewrite Em in Er. cbn [of_outcome bind] in Er.
      rewrite (PropNormalize.translate_members_first m (no_build_ids o) (a - vma_start v + vma_offset v) path ms (ZMember name start (nlen contents) (build_id_of x m (ptr + start) contents)) b) in Er; [|apply Forall_forall; intros [mb|k] Hx'; auto; eapply (archives_ok p); eauto|exact Hfm|exact Hbid].
      cbn [bind zm_path zm_data_offset] in Er. injection Er as <-. destruct out as [outs mts]. cbn in *. subst mts.
      apply Permutation_length_1_inv in Hperm. now subst outs.
  Qed.
  Theorem C73_apk_none : forall p vs o cache addrs out n a v q path ptr data rs, process h p vs -> normalize p o cache addrs = Ok out ->
    nth_error addrs n = Some a -> mapped_at vs v a -> of_file v q -> PropNormalize.is_archive q -> no_apk_to_elf o = true ->
    reported_as h o p v q path -> file_at h path ptr data -> archive data rs -> Forall (elsewhere data (a - vma_start v + vma_offset v)) rs ->
    exists i, nth_error (uo_outputs out) n = Some (a, i) /\ nth_error (uo_meta out) i = Some (UUnknown Unmapped).
  Proof.
    intros p vs o cache addrs out n a v q path ptr data rs Hp E En Hm Hq Hn Ho Hr Hf Hz Hrs.
    destruct (attribution p vs o cache addrs out n a Hp E En) as (y & i & mt & Ey & Ei & Hat). exists i. rewrite Ey, Ei. clear Ey Ei.
    destruct (file_entry h v q p Hq) as (f & Ef & Hmf). pose proof (chosen_as o p v q f path Hmf Hr) as Hch.
    destruct (none_in_archive path ptr data _ rs Hf Hz Hrs) as (ms0 & Em & Hno0).
    assert (Hu : forall w, In w (entries_of h p vs) -> PropNormalize.contains_addr w a -> w = PropNormalize.entry_t (number h p) v) by (intros w; now apply only).
    assert (Hin : In (PropNormalize.entry_t (number h p) v) (entries_of h p vs) /\ PropNormalize.contains_addr (PropNormalize.entry_t (number h p) v) a)
      by (destruct Hm as (Hv & Hac & Hr'); split; [apply entry_in; auto|exact Hr']).
    inversion Hat as [Hno|w Hiw Hcw Ew|w c Hiw Hcw Ew|w vd va sym Hiw Hcw Ew|w vd va r Hiw Hcw Ew|w vd Hiw Hcw Ew
      |w f' p' b Hiw Hcw Ew Hn' Hid|w f' p' Hiw Hcw Ew Hn' Ho'|w f' p' ms mb b Hiw Hcw Ew Hn' Ho' Em' Hfm|w f' p' ms Hiw Hcw Ew Hn'];
      subst; [exfalso; eapply Hno; apply Hin| | | | | | | | |];
      pose proof (Hu w Hiw Hcw); subst w; cbn [PropNormalize.entry_t me_path me_start me_offset] in *; rewrite Ef in Ew; try discriminate; injection Ew as <- <-; try contradiction; try congruence.
    - exfalso. cbn [host_nenv nv_archive] in Em'. rewrite Em in Em'. injection Em' as <-. destruct Hfm as (pre & post & E1 & H1 & H2). destruct Hno0 as (l & E2 & H3).
      rewrite E2 in E1. clear - E1 H1 H3. revert pre E1. induction H3 as [|mb' l Hmb Hl IH]; intros pre E1; [destruct pre; discriminate|].
      destruct pre as [|z pre]; cbn [map app] in E1; injection E1 as E1 E3; [congruence|]. eapply IH; eauto.
    - auto.
  Qed.
  (** Archives that are not looked into: the offset in the archive *)
  Theorem C73_apk_itself : forall p vs o cache addrs out n a v q path, process h p vs -> normalize p o cache addrs = Ok out ->
    nth_error addrs n = Some a -> mapped_at vs v a -> of_file v q -> PropNormalize.is_archive q -> no_apk_to_elf o = false ->
    reported_as h o p v q path ->
    exists i, nth_error (uo_outputs out) n = Some (a - vma_start v + vma_offset v, i) /\ nth_error (uo_meta out) i = Some (UApk path).
  Proof.
    intros p vs o cache addrs out n a v q path Hp E En Hm Hq Hn Ho Hr.
    destruct (attribution p vs o cache addrs out n a Hp E En) as (y & i & mt & Ey & Ei & Hat). exists i. rewrite Ey, Ei. clear Ey Ei.
    destruct (file_entry h v q p Hq) as (f & Ef & Hmf). pose proof (chosen_as o p v q f path Hmf Hr) as Hch.
    assert (Hu : forall w, In w (entries_of h p vs) -> PropNormalize.contains_addr w a -> w = PropNormalize.entry_t (number h p) v) by (intros w; now apply only).
    assert (Hin : In (PropNormalize.entry_t (number h p) v) (entries_of h p vs) /\ PropNormalize.contains_addr (PropNormalize.entry_t (number h p) v) a)
      by (destruct Hm as (Hv & Hac & Hr'); split; [apply entry_in; auto|exact Hr']).
    inversion Hat as [Hno|w Hiw Hcw Ew|w c Hiw Hcw Ew|w vd va sym Hiw Hcw Ew|w vd va r Hiw Hcw Ew|w vd Hiw Hcw Ew
      |w f' p' b Hiw Hcw Ew Hn' Hid|w f' p' Hiw Hcw Ew Hn' Ho'|w f' p' ms mb b Hiw Hcw Ew Hn' Ho' Em' Hfm|w f' p' ms Hiw Hcw Ew Hn'];
      subst; [exfalso; eapply Hno; apply Hin| | | | | | | | |];
      pose proof (Hu w Hiw Hcw); subst w; cbn [PropNormalize.entry_t me_path me_start me_offset] in *; rewrite Ef in Ew; try discriminate; injection Ew as <- <-; try contradiction; try congruence.
    auto.
  Qed.

  (** ** The vDSO: symbols right away *)
  Theorem C73_vdso : forall p vs o cache addrs out n a v start data e st dt, process h p vs -> normalize p o cache addrs = Ok out ->
    nth_error addrs n = Some a -> mapped_at vs v a -> is_vdso v -> vdso_image h p v start data -> elf_program x start data e st dt ->
    let off := a - vma_start v + vma_offset v in
    exists y i mt r, nth_error (uo_outputs out) n = Some (y, i) /\ nth_error (uo_meta out) i = Some mt /\
      elf_offset_answer vdso_config str_vdso e st dt off r /\
      match r with
      | Known s => y = off /\ mt = USym s
      | Unknown InvalidFileOffset => y = a /\ mt = UUnknown Unmapped
      | Unknown why => mt = UUnknown why
      end.
  Proof.
    intros p vs o cache addrs out n a v start data e st dt Hp E En Hm Hv Him Hpr off.
    destruct (attribution p vs o cache addrs out n a Hp E En) as (y & i & mt & Ey & Ei & Hat). exists y, i, mt.
    assert (Hu : forall w, In w (entries_of h p vs) -> PropNormalize.contains_addr w a -> w = PropNormalize.entry_t (number h p) v) by (intros w; now apply only).
    assert (Hin : In (PropNormalize.entry_t (number h p) v) (entries_of h p vs) /\ PropNormalize.contains_addr (PropNormalize.entry_t (number h p) v) a)
      by (destruct Hm as (Hv' & Hac & Hr'); split; [apply entry_in; auto|exact Hr']).
    pose proof (vdso_entry h v p Hv) as Ef. pose proof (vdso_ok p v start data Him) as Evd. cbv zeta in Evd.
    cut (exists r, elf_offset_answer vdso_config str_vdso e st dt off r /\
      match r with Known s => y = off /\ mt = USym s | Unknown InvalidFileOffset => y = a /\ mt = UUnknown Unmapped | Unknown why => mt = UUnknown why end).
    { intros (r & H1 & H2). exists r. auto. }
    clear Ey Ei.
    assert (Hlk : forall va r, (let* y := with_resolver m vdso_config va (elf_resolver_of x m (Parser (Some str_vdso) (Mem start data))) in
               Ok (match y with Known s => inl s | Unknown why => inr why end)) = Ok r ->
               elf_answer vdso_config str_vdso st dt va (match r with inl s => Known s | inr why => Unknown why end)).
    { intros va r Er. destruct (elf_lookup x m pick vdso_config Hx start data e st dt str_vdso va Hpr) as (z & Ez & Hz). rewrite Ez in Er. cbn [bind] in Er. injection Er as <-. now destruct z. }
    pose proof (PropElf.C28_to_virt m start data e off (proj1 Hpr) (proj1 (proj2 Hpr))) as Htv.
    inversion Hat as [Hno|w Hiw Hcw Ew|w c Hiw Hcw Ew|w vd va sy Hiw Hcw Ew Evd' Eva Esy|w vd va r Hiw Hcw Ew Evd' Eva Esy|w vd Hiw Hcw Ew Evd' Eva
      |w f' p' b Hiw Hcw Ew Hn' Hid|w f' p' Hiw Hcw Ew Hn' Ho'|w f' p' ms mb b Hiw Hcw Ew Hn' Ho' Em' Hfm|w f' p' ms Hiw Hcw Ew Hn'];
      subst; [exfalso; eapply Hno; apply Hin| | | | | | | | |];
      pose proof (Hu w Hiw Hcw); subst w; cbn [PropNormalize.entry_t me_path me_start me_end me_offset host_nenv nv_vdso] in *; rewrite Ef in Ew; try discriminate; try (injection Ew as <-; match goal with H : _ <> _ |- _ => exfalso; apply H; reflexivity end);
      rewrite Evd in Evd'; injection Evd' as <-; cbn [vd_virt_offset vd_symbolize elf_resolver_of r_virt p_backend] in Eva; fold off in Eva; rewrite Eva in Htv.
    - destruct Htv as [(ph & H1 & H2 & [= ->])|[_ [=]]]. exists (Known sy). split; auto. left. exists ph. split; auto. split; auto. exact (Hlk _ _ Esy).
    - destruct Htv as [(ph & H1 & H2 & [= ->])|[_ [=]]]. exists (Unknown r). pose proof (Hlk _ _ Esy) as Hans. cbn beta iota in Hans. split.
      + left. exists ph. auto.
      + destruct r; auto. exfalso. clear - Hans. destruct Hans as [(s & _ & nm & _ & [=])|[(_ & s & _ & nm & _ & [=])|(_ & _ & E)]]. destruct (t_syms st); discriminate.
    - destruct Htv as [(ph & H1 & H2 & [=])|[H1 _]]. exists (Unknown InvalidFileOffset). split; auto. right. auto.
  Qed.

  (** ** Nothing mapped there *)
  Theorem C73_unmapped : forall p vs o cache addrs out n a, process h p vs -> normalize p o cache addrs = Ok out ->
    nth_error addrs n = Some a -> (forall v, ~ mapped_at vs v a) ->
    exists i, nth_error (uo_outputs out) n = Some (a, i) /\ nth_error (uo_meta out) i = Some (UUnknown Unmapped).
  Proof.
    intros p vs o cache addrs out n a Hp E En Hno. destruct (run_eq p vs o cache addrs Hp) as (fuel & Hf & Hw & Er). rewrite Er in E.
    eapply (PropNormalize.C11_unmapped sym (env p) o m _ _ _ cache fuel None addrs out n a Hw (archives_ok p) (PropNormalize.so_text _) Hf (or_introl eq_refl) E En).
    intros w Hw' Hc. unfold entries_of in Hw'. apply filter_In in Hw'. destruct Hw' as (Hw' & Hi). apply in_map_iff in Hw'. destruct Hw' as (v & <- & Hv).
    apply (Hno v). split; auto. split; auto. unfold PropNormalize.interesting in Hi. cbn [PropNormalize.entry_t me_perm] in Hi.
    destruct (PropNormalize.perm_of_bits v) as [E2 E0]. rewrite E2, E0 in Hi. now apply orb_true_iff in Hi.
  Qed.

  (** ** Elsewhere, later

      What has been normalized here is symbolized on some other host that has
      the same file, wherever that is. *)
  Theorem C73_later : forall h' cf nb p vs o cache addrs out n a v q path ptr data e st dt path' ptr', process h p vs ->
    normalize p o cache addrs = Ok out -> nth_error addrs n = Some a -> mapped_at vs v a -> of_file v q -> ~ PropNormalize.is_archive q ->
    reported_as h o p v q path -> (no_apk_to_elf o = true -> plain path) ->
    file_at h path ptr data -> is_bytes path' -> file_at h' path' ptr' data -> elf_program x ptr' data e st dt ->
    exists y i b r, nth_error (uo_outputs out) n = Some (y, i) /\ nth_error (uo_meta out) i = Some (UElf path b) /\
      fst (symbolize_single m cf (host_world x m pick rest h') (SElf (path_of path') false) FileOffset y (s_new nb)) = Ok r /\
      elf_offset_answer cf path' e st dt (a - vma_start v + vma_offset v) r.
  Proof.
    intros h' cf nb p vs o cache addrs out n a v q path ptr data e st dt path' ptr' Hp E En Hm Hq Hn Hr Hpl Hf Hb Hf' Hpr.
    destruct (elf_meta p vs o cache addrs out n a v q path Hp E En Hm Hq Hn Hr Hpl) as (i & H1 & H2).
    destruct (C72_elf_offset x m pick rest h' cf Hx nb path' ptr' data e st dt (a - vma_start v + vma_offset v) Hb Hf' Hpr) as (r & Er & Hr').
    eexists _, i, _, r. split; [exact H1|]. split; [exact H2|]. auto.
  Qed.
End Host.
Print Assumptions C73_elf.
Print Assumptions C73_unreadable.
Print Assumptions C73_some.
Print Assumptions C73_apk.
Print Assumptions C73_apk_none.
Print Assumptions C73_apk_itself.
Print Assumptions C73_vdso.
Print Assumptions C73_unmapped.
Print Assumptions C73_later.

(** ** Example: the process of C72, with files that have build IDs *)
Definition nx_data : list N := snd PropBuildId.id_made.
Definition nx_members : list N := PropZip.sample_local 0 [97] [1; 2; 3] ++ PropZip.sample_local 0 [98; 47; 99] nx_data.
Definition nx_zip : list N := nx_members ++ flat_map ZipSpec.enc_cdrec ex_rs ++ ZipSpec.enc_eocd (ZipSpec.Eocd 0 0 2 2 0 (nlen nx_members) 0).
Definition nx_files : list (list N * (N * list N)) := [(ex_q, (4096, nx_data)); (ex_apk, (4096 - 71, nx_zip)); ([47; 101], (8, PropElf.ex_data))].
Definition nx_find (p : path) : outcome (list N * (N * list N)) :=
  match find (fun '(q, _) => path_of q =? p) nx_files with Some f => Good f | None => Bad ENotFound end.
Definition nx_host : host :=
  Host (fun p => match nx_find p with Good _ => Good (FileMeta 1 p 0 0%Z 0%Z) | Bad k => Bad k end)
       (fun p => match nx_find p with Good (_, f) => Good f | Bad k => Bad k end) (h_maps ex_host) (h_memory ex_host) 42 (fun _ => 8).
Definition nx_normalize := host_normalize ElfExample.no_ext Checked (fun _ _ => 0) ex_rest nx_host.
Definition nx_brief (mt : umeta sym) : (list N * option (list N)) + ((list N * N) + reason) :=
  match mt with
  | UElf p b => inl (p, b)
  | UApk p => inl (p, None)
  | USym s => inr (inl (sy_name s, sy_offset s))
  | UUnknown r => inr (inr r)
  end.
Example C73_example :
  (let* out := nx_normalize (Pid 7) (NOpts false false true true) false
     [7340032 + 178; 4194304 + 178; 5242880 + 178; 6291456 + 71 + 100; 6291456 + 34; 4294967290; 0; 6291456 + 10] in
   Ok (map (fun '(y, i) => (y, option_map nx_brief (nth_error (uo_meta out) i))) (uo_outputs out))) = Err EInvalidData /\
  (let* out := nx_normalize (Pid 7) (NOpts false false true true) false
     [7340032 + 178; 4194304 + 178; 5242880 + 178; 6291456 + 71 + 100; 4294967290; 0; 6291456 + 10] in
   Ok (map (fun '(y, i) => (y, option_map nx_brief (nth_error (uo_meta out) i))) (uo_outputs out))) =
  Ok [(178, Some (inr (inl ([109; 97; 105; 110], 2)))); (178, Some (inl (ex_q, Some [222; 173; 190; 239; 1]))); (178, Some (inl (ex_gone, None)));
      (100, Some (inl (ex_apk ++ [33; 47; 98; 47; 99], Some [222; 173; 190; 239; 1])));
      (4294967290, Some (inr (inr MissingComponent))); (0, Some (inr (inr Unmapped))); (6291456 + 10, Some (inr (inr Unmapped)))].
Proof. split; vm_compute; reflexivity. Qed.
(** A file in an archive that is neither a program nor a library (say, byte
    code mapped by a runtime) fails the whole call if build IDs are asked for,
    whereas a file of its own that is neither does not ([C73_unreadable]). *)
Theorem C73_member_refuted : exists h p vs o o' a b out, process h p vs /\
  o = NOpts false false true false /\ o' = NOpts false false true true /\
  host_normalize ElfExample.no_ext Checked (fun _ _ => 0) ex_rest h p o false [a; b] =
    Ok (UOutput [(1, 1%nat); (178, 0%nat)] [UElf ex_q None; UElf (ex_apk ++ [33; 47; 97]) None]) /\
  host_normalize ElfExample.no_ext Checked (fun _ _ => 0) ex_rest h p o' false [b] = Ok out /\
  host_normalize ElfExample.no_ext Checked (fun _ _ => 0) ex_rest h p o' false [a; b] = Err EInvalidData.
Proof.
  exists nx_host, (Pid 7), ex_vs, (NOpts false false true false), (NOpts false false true true), (6291456 + 34), (4194304 + 178). eexists.
  split; [exact (proj1 ex_process)|]. do 2 (split; [reflexivity|]). split; [vm_compute; reflexivity|]. split; vm_compute; reflexivity.
Qed.
Print Assumptions C73_member_refuted.

Lemma nx_wf : wf_host nx_host.
Proof.
  intros p ptr data. cbn [nx_host h_open]. unfold nx_find, nx_files. cbn [find].
  assert (H : forall d, forallb (fun b => b <? 256) d = true -> is_bytes d).
  { intros d Hd. apply Forall_forall. intros b Hb. rewrite forallb_forall in Hd. now apply N.ltb_lt, Hd. }
  destruct (path_of ex_q =? p); [|destruct (path_of ex_apk =? p); [|destruct (path_of [47; 101] =? p)]]; intros [= <- <-]; split; try reflexivity; apply H; vm_compute; reflexivity.
Qed.
Lemma nx_elf : elf_file 4096 nx_data (fst PropBuildId.id_made) /\ has_build_id (fst PropBuildId.id_made) (Some [222; 173; 190; 239; 1]).
Proof.
  split; [apply ElfExample.elf_file_check; vm_compute; reflexivity|]. exists [PropBuildId.nt_abi; PropBuildId.nt_abi; PropBuildId.nt_id].
  split; [exact (proj1 (proj2 PropBuildId.C31_example))|]. split; [|reflexivity]. intros n [<-|[<-|[<-|[]]]] E; reflexivity.
Qed.
Lemma nx_archive : archive nx_zip ex_rs.
Proof.
  assert (El : nlen nx_zip = nlen (nx_members ++ flat_map ZipSpec.enc_cdrec ex_rs) + 22) by reflexivity.
  split; [apply (nx_wf (path_of ex_apk) (4096 - 71)); vm_compute; reflexivity|].
  split; [reflexivity|]. exists (nlen (nx_members ++ flat_map ZipSpec.enc_cdrec ex_rs)), (ZipSpec.Eocd 0 0 2 2 0 (nlen nx_members) 0).
  split; [split|].
  - split; [split; repeat constructor; vm_compute; auto|]. exists []. split; [reflexivity|].
    exists (nx_members ++ flat_map ZipSpec.enc_cdrec ex_rs), []. split; [unfold nx_zip; now rewrite !app_nil_r, <- app_assoc|reflexivity].
  - intros q y Hq (_ & cm & _ & (pre & post & E & Ep)). apply (f_equal (@nlen N)) in E. rewrite El in E.
    revert Hq E. generalize (nlen (nx_members ++ flat_map ZipSpec.enc_cdrec ex_rs)). intros L Hq E. rewrite !nlen_app in E. unfold ZipSpec.enc_eocd in E. rewrite !nlen_app, !le_bytes_nlen in E. change (nlen [80; 75; 5; 6]) with 4 in E. lia.
  - split; [vm_compute; discriminate|]. split; [repeat split|]. split; [vm_compute; discriminate|]. split; [|reflexivity].
    split; [repeat constructor; vm_compute; auto|]. exists nx_members, (ZipSpec.enc_eocd (ZipSpec.Eocd 0 0 2 2 0 (nlen nx_members) 0)). split; [reflexivity|reflexivity].
Qed.
Lemma nx_stored : stored nx_zip (PropZip.sample_record 0 [97]) [97] 33 [1; 2; 3] /\
  stored nx_zip (PropZip.sample_record 36 [98; 47; 99]) [98; 47; 99] 71 nx_data.
Proof.
  split.
  - exists (ZipSpec.Local 20 0 0 0 0 0 3 3 [97] [0; 0]). split; [|split; reflexivity].
    split; [split; repeat constructor|]. split; [exists [], (skipn 36 nx_zip); split; reflexivity|]. repeat split.
  - exists (ZipSpec.Local 20 0 0 0 0 0 (nlen nx_data) (nlen nx_data) [98; 47; 99] [0; 0]). split; [|split; reflexivity].
    split; [split; repeat constructor; vm_compute; auto|]. split; [exists (PropZip.sample_local 0 [97] [1; 2; 3]), (flat_map ZipSpec.enc_cdrec ex_rs ++ ZipSpec.enc_eocd (ZipSpec.Eocd 0 0 2 2 0 (nlen nx_members) 0)); split; [vm_compute; reflexivity|reflexivity]|]. repeat split.
Qed.
Lemma nx_file : forall q p, In (q, p) nx_files -> file_at nx_host q (fst p) (snd p).
Proof. intros q p [[= <- <-]|[[= <- <-]|[[= <- <-]|[]]]]; (split; [eexists|]; vm_compute; reflexivity). Qed.
Example C73_apk_example :
  nx_normalize (Pid 7) (NOpts false false true true) false [6291456 + 71 + 100] =
  Ok (UOutput [(100, 0%nat)] [UElf (ex_apk ++ [33; 47; 98; 47; 99]) (Some [222; 173; 190; 239; 1])]).
Proof.
  refine (C73_apk ElfExample.no_ext Checked (fun _ _ => 0) ex_rest nx_host nx_wf (Pid 7) ex_vs (NOpts false false true true) false (6291456 + 71 + 100)
    (Vma 6291456 6299648 5 0 ex_apk []) ex_apk ex_apk (4096 - 71) nx_zip [PropZip.sample_record 0 [97]] (PropZip.sample_record 36 [98; 47; 99]) []
    [98; 47; 99] 71 nx_data (fst PropBuildId.id_made) (Some [222; 173; 190; 239; 1]) (proj1 ex_process) _ _ _ eq_refl eq_refl
    (nx_file ex_apk (4096 - 71, nx_zip) (or_intror (or_introl eq_refl))) nx_archive _ (proj2 nx_stored) _ (proj1 nx_elf) (proj2 nx_elf)).
  - split; [right; right; now left|]. split; [now left|]. cbn. lia.
  - split; [reflexivity|]. left. split; [reflexivity|]. intros r E. apply (f_equal (@rev N)) in E. rewrite rev_app_distr in E. discriminate E.
  - exists [47], 120, [97; 112; 107]. split; [reflexivity|]. split; [discriminate|now left].
  - constructor; [|constructor]. exists [97], 33, [1; 2; 3]. split; [exact (proj1 nx_stored)|]. vm_compute. intros [_ H]. discriminate H.
  - vm_compute. split; [discriminate|reflexivity].
Qed.
(** All of the hypotheses of [C73_elf] and of [C73_some] can be met. *)
Example C73_elf_example : exists out i,
  nx_normalize (Pid 7) (NOpts false false true true) true [0; 4194304 + 178] = Ok out /\
  nth_error (uo_outputs out) 1 = Some (178, i) /\ nth_error (uo_meta out) i = Some (UElf ex_q (Some [222; 173; 190; 239; 1])).
Proof.
  assert (Ht : forall a, a = 0 \/ a = 4194304 + 178 -> tellable ElfExample.no_ext nx_host (NOpts false false true true) (Pid 7) ex_vs a).
  { intros a Ha v (Hv & _ & Hr). cbn [ex_vs map fst In] in Hv.
    destruct Hv as [<-|[<-|[<-|[<-|[<-|[]]]]]]; cbn [vma_start vma_end] in Hr; try lia. destruct Ha as [->| ->]; [lia|]. cbv zeta. split.
    - intros q (_ & [(<- & _)|E]) (r & c & ext & E' & _).
      + exfalso. cbn [vma_name] in E'. unfold ex_q in E'. destruct r as [|? [|? r]]; try discriminate E'. destruct r; discriminate E'.
      + exfalso. cbn [vma_name] in E. apply (f_equal (@length N)) in E. rewrite app_length in E. cbn in E. lia.
    - intros E. discriminate E. }
  destruct (C73_some ElfExample.no_ext Checked (fun _ _ => 0) ex_rest nx_host ElfExample.no_ext_sorts nx_wf (Pid 7) ex_vs (NOpts false false true true) true [0; 4194304 + 178] (proj1 ex_process)) as (out & E).
  { eexists. split; [now left|now left]. }
  { constructor; [|constructor; [|constructor]]; apply Ht; auto. }
  { discriminate. }
  exists out.
  destruct (C73_elf ElfExample.no_ext Checked (fun _ _ => 0) ex_rest nx_host nx_wf (Pid 7) ex_vs (NOpts false false true true) true [0; 4194304 + 178] out 1 (4194304 + 178)
    (Vma 4194304 4198400 5 0 ex_q []) ex_q ex_q 4096 nx_data (fst PropBuildId.id_made) (Some [222; 173; 190; 239; 1]) (proj1 ex_process) E eq_refl) as (i & H1 & H2).
  - split; [now left|]. split; [now left|]. cbn. lia.
  - split; [reflexivity|]. left. split; [reflexivity|]. intros r E'. apply (f_equal (@length N)) in E'. rewrite app_length in E'. cbn in E'. lia.
  - intros (r & c & ext & E' & _). unfold ex_q in E'. destruct r as [|? [|? r]]; try discriminate E'. destruct r; discriminate E'.
  - reflexivity.
  - intros _ a b E'. unfold ex_q in E'. destruct a as [|? [|? a]]; try discriminate E'. destruct a; discriminate E'.
  - exact (nx_file ex_q (4096, nx_data) (or_introl eq_refl)).
  - apply nx_elf.
  - apply nx_elf.
  - exists i. auto.
Qed.
