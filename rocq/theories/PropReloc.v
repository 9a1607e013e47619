(** * Relocations

    Claim C51 of /verif/properties.jsonl. *)

From Coq Require Import String.
From Verif Require Import Base Util UtilProofs Bytes Amap Text Nom Elf ElfSpec ElfFormat ElfExample RelocSpec.
Local Close Scope string_scope.
Local Open Scope N_scope.

(** ** Decoding *)
Lemma signed_lt : forall bits z, signed bits z < 2 ^ bits.
Proof.
  intros bits z. unfold signed. apply N2Z.inj_lt. rewrite Z2N.id, N2Z.inj_pow.
  - apply Z.mod_pos_bound. apply Z.pow_pos_nonneg; lia.
  - apply Z.mod_pos_bound. apply Z.pow_pos_nonneg; lia.
Qed.
Lemma sign_extend_signed : forall z, (- 2 ^ 31 <= z < 2 ^ 31)%Z -> sign_extend32 (signed 32 z) = signed 64 z.
Proof.
  intros z Hz. unfold sign_extend32, signed. change (Z.of_N 32) with 32%Z. change (Z.of_N 64) with 64%Z.
  destruct (Z.neg_nonneg_cases z) as [Hn|Hn].
  - assert (E32 : (z mod 2 ^ 32 = z + 2 ^ 32)%Z) by (symmetry; apply (Z.mod_unique_pos _ _ (-1)); lia).
    assert (E64 : (z mod 2 ^ 64 = z + 2 ^ 64)%Z) by (symmetry; apply (Z.mod_unique_pos _ _ (-1)); lia).
    rewrite E32, E64. destruct (N.ltb_spec (Z.to_N (z + 2 ^ 32)) (2 ^ 31)) as [H|H].
    + exfalso. apply N2Z.inj_lt in H. rewrite Z2N.id in H by lia. cbn in H. lia.
    + unfold two64, two32. apply N2Z.inj. rewrite N2Z.inj_add, !Z2N.id by lia. cbn. lia.
  - rewrite !Z.mod_small by lia. destruct (N.ltb_spec (Z.to_N z) (2 ^ 31)) as [H|H]; auto.
    exfalso. apply N2Z.inj_le in H. rewrite Z2N.id in H by lia. cbn in H. lia.
Qed.
Lemma add_signed : forall v z,
  (v + signed 64 z) mod two64 = Z.to_N ((Z.of_N v + z) mod 2 ^ 64).
Proof.
  intros v z. apply N2Z.inj. unfold signed. change (Z.of_N 64) with 64%Z.
  assert (Hm : (0 <= z mod 2 ^ 64 < 2 ^ 64)%Z) by (apply Z.mod_pos_bound; lia).
  rewrite N2Z.inj_mod, N2Z.inj_add, !Z2N.id by (try apply Z.mod_pos_bound; lia).
  change (Z.of_N two64) with (2 ^ 64)%Z. now rewrite Zplus_mod_idemp_r.
Qed.

(** The decoded form of a relocation *)
Definition info_of (c : bool) (r : relocation) : N :=
  if c then rl_sym r * 256 + rl_type r else rl_sym r * 2 ^ 32 + rl_type r.
Definition conv (addend c : bool) (r : relocation) : rela :=
  Rela (rl_offset r) (info_of c r) (if addend then signed 64 (rl_addend r) else 0).
Definition enc_rela (addend c : bool) (r : rela) : list N :=
  word c (r_offset r) ++ word c (r_info r) ++
  (if addend then word c (if c then r_addend r mod 2 ^ 32 else r_addend r) else []).

Lemma signed_32_64 : forall z, (- 2 ^ 31 <= z < 2 ^ 31)%Z -> signed 64 z mod 2 ^ 32 = signed 32 z.
Proof.
  intros z Hz. rewrite <- sign_extend_signed by auto. unfold sign_extend32.
  pose proof (signed_lt 32 z) as H. destruct (signed 32 z <? 2 ^ 31).
  - now apply N.mod_small.
  - replace (two64 - two32) with ((2 ^ 32 - 1) * 2 ^ 32) by reflexivity. rewrite N.mod_add by discriminate.
    now apply N.mod_small.
Qed.
Lemma enc_conv : forall addend c r, wf_relocation c r ->
  enc_rela addend c (conv addend c r) = enc_relocation addend c r.
Proof.
  intros addend c r (H1 & H2 & H3). unfold enc_rela, conv, enc_relocation, enc_info, info_of. cbn [r_offset r_info r_addend].
  destruct c, addend; cbn [word]; auto. now rewrite signed_32_64.
Qed.
Lemma info_lt : forall c r, wf_relocation c r -> info_of c r < 2 ^ (if c then 32 else 64).
Proof. intros [] r (_ & [H1 H2] & _); unfold info_of; cbn in *; lia. Qed.
Lemma dec_rela_conv : forall c r, wf_relocation c r ->
  dec_rela c (enc_rela true c (conv true c r)) = conv true c r.
Proof.
  intros c r W. pose proof (info_lt c r W) as Hi. destruct W as (H1 & H2 & H3).
  unfold dec_rela, enc_rela, conv. cbn [r_offset r_info r_addend].
  rewrite <- (app_nil_r (word c (if c then _ else _))).
  unfold word, is_word in *. destruct c.
  - rewrite signed_32_64 by exact H3. f_equal.
    + apply (field_here 4). exact H1.
    + skip_field. apply (field_here 4). exact Hi.
    + rewrite <- sign_extend_signed by exact H3. f_equal. do 2 skip_field. apply (field_here 4). apply signed_lt.
  - f_equal.
    + apply (field_here 8). exact H1.
    + skip_field. apply (field_here 8). exact Hi.
    + do 2 skip_field. apply (field_here 8). apply signed_lt.
Qed.
Lemma dec_rel_conv : forall c r, wf_relocation c r ->
  dec_rel c (enc_rela false c (conv false c r)) = conv false c r.
Proof.
  intros c r W. pose proof (info_lt c r W) as Hi. destruct W as (H1 & H2 & H3).
  unfold dec_rel, enc_rela, conv. cbn [r_offset r_info r_addend].
  unfold word, is_word in *. destruct c; f_equal;
    first [apply (field_here 4); assumption|apply (field_here 8); assumption|
           skip_field; first [apply (field_here 4); assumption|apply (field_here 8); assumption]].
Qed.
Lemma enc_rela_size : forall c r, nlen (enc_rela true c r) = rela_size c.
Proof. intros [] r; unfold enc_rela, word; rewrite !nlen_app, !le_bytes_nlen; reflexivity. Qed.
Lemma enc_rel_size : forall c r, nlen (enc_rela false c r) = rel_size c.
Proof. intros [] r; unfold enc_rela, word; rewrite !nlen_app, !le_bytes_nlen; reflexivity. Qed.
Lemma flat_map_conv : forall addend c l, Forall (wf_relocation c) l ->
  flat_map (enc_relocation addend c) l = flat_map (enc_rela addend c) (map (conv addend c) l).
Proof.
  intros addend c l H. induction H as [|r l Hr H IH]; [reflexivity|]. cbn [map flat_map].
  now rewrite enc_conv, IH.
Qed.
Lemma sym_conv : forall addend r, wf_relocation false r -> r_sym (conv addend false r) = rl_sym r.
Proof.
  intros addend r (_ & [H1 H2] & _). unfold r_sym, conv, info_of. cbn [r_info].
  replace ((rl_sym r * 2 ^ 32 + rl_type r) / two32) with (rl_sym r).
  - now apply N.mod_small.
  - apply (N.div_unique _ _ _ (rl_type r)); auto. unfold two32. lia.
Qed.
Lemma sym_conv_32 : forall addend r, wf_relocation true r -> r_sym (conv addend true r) = 0.
Proof.
  intros addend r W. pose proof (info_lt true r W) as H. unfold r_sym, conv. cbn [r_info].
  rewrite N.div_small by exact H. reflexivity.
Qed.

(** ** The map of a section *)
Definition entry (c : bool) (t : rtable) (r : relocation) : N * reloc :=
  let e := conv (negb (rt_implicit t)) c r in
  (rl_offset r,
   if rt_implicit t then Reloc (sym_value_of (rt_syms t) (r_sym e)) true
   else Reloc ((sym_value_of (rt_syms t) (r_sym e) + r_addend e) mod two64) false).

Lemma fold_insert : forall (l : list (N * reloc)) m off,
  match aget N.eqb off (fold_left (fun m e => aset N.eqb (fst e) (snd e) m) l m) with
  | Some v => In (off, v) l \/ ((forall v', ~ In (off, v') l) /\ aget N.eqb off m = Some v)
  | None => (forall v', ~ In (off, v') l) /\ aget N.eqb off m = None
  end.
Proof.
  induction l as [|[k v] l IH]; intros m off; cbn [fold_left fst snd].
  - destruct (aget N.eqb off m); [right|]; split; auto.
  - specialize (IH (aset N.eqb k v m) off).
    destruct (N.eq_dec off k) as [->|Hne].
    + rewrite aget_aset_eq in IH by (exact N.eqb_spec).
      destruct (aget N.eqb k _) as [v0|]; [|destruct IH; discriminate].
      left. destruct IH as [IH|[_ IH]]; [now right|]. left. congruence.
    + rewrite aget_aset_neq in IH by (try exact N.eqb_spec; auto).
      destruct (aget N.eqb off _) as [v0|].
      * destruct IH as [IH|[IH1 IH2]]; [left; now right|]. right. split; auto.
        intros v' [E|Hi]; [congruence|now apply (IH1 v')].
      * destruct IH as [IH1 IH2]. split; auto. intros v' [E|Hi]; [congruence|now apply (IH1 v')].
Qed.

Definition entries (c : bool) (tabs : list (option rtable)) (target : N) : list (N * reloc) :=
  flat_map (fun o => match o with
    | Some t => if rt_target t =? target then map (entry c t) (rt_relocs t) else []
    | None => [] end) tabs.

Lemma fold_map : forall A B C D (f : D -> B -> D) (h : D -> C -> D) (g : A -> B) (k : A -> C) l m,
  (forall m r, f m (g r) = h m (k r)) -> fold_left f (map g l) m = fold_left h (map k l) m.
Proof.
  intros A B C D f h g k l m H. revert m. induction l as [|r l IH]; intros m; [reflexivity|]. cbn [map fold_left].
  now rewrite H, IH.
Qed.

Section File.
  Variables (ptr : N) (data : list N) (e : image).
  Hypothesis Hf : elf_file ptr data e.
  Local Notation b := (Mem ptr data).
  Local Notation c := (i_32 e).

  Lemma section_relocs_ok : forall l tabs i maps, Forall2 (reloc_section e) l tabs ->
    (forall k s, nth_error l k = Some s -> nnth (i + N.of_nat k) (i_sections e) = Some s) ->
    exists maps', section_relocs_loop b (map s_hdr l) i maps = Ok maps' /\
      forall target, relocs_of maps' target =
        fold_left (fun m e => aset N.eqb (fst e) (snd e) m) (entries c tabs target) (relocs_of maps target).
  Proof.
    intros l tabs i maps H. revert i maps. induction H as [|s o l tabs Hs H IH]; intros i maps Hn; [exists maps; auto|].
    cbn [map section_relocs_loop].
    assert (Hn' : forall k s, nth_error l k = Some s -> nnth (i + 1 + N.of_nat k) (i_sections e) = Some s).
    { intros k z Hk. replace (i + 1 + N.of_nat k) with (i + N.of_nat (S k)) by lia. now apply Hn. }
    pose proof (Hn O s eq_refl) as Hi. replace (i + N.of_nat 0) with i in Hi by lia.
    unfold reloc_section in Hs. unfold SHT_RELA, SHT_REL.
    assert (Hset : forall k v tg, relocs_of (aset N.eqb k v maps) tg = if k =? tg then v else relocs_of maps tg).
    { intros k v tg. unfold relocs_of. destruct (N.eqb_spec k tg) as [->|Hne].
      - now rewrite aget_aset_eq by (exact N.eqb_spec).
      - now rewrite aget_aset_neq by (try exact N.eqb_spec; auto). }
    destruct (N.eqb_spec (sh_type (s_hdr s)) 4) as [E4|E4]; cbn [orb] in Hs.
    - destruct Hs as (t & -> & Ht & Himp & Hd & Hw & Hal & sec & Hsec & Hsy).
      rewrite E4 in Himp. cbn in Himp.
      rewrite (parse_syms_for_idx_ok ptr data e Hf _ sec (rt_syms t) Hsec Hsy). cbn [bind].
      assert (Hwf : Forall (wf_relocation c) (rt_relocs t)) by (eapply Forall_impl; [|exact Hw]; cbv beta; tauto).
      unfold parse_relas_for_idx.
      rewrite (parse_section_data_ok ptr data e Hf _ rela_size dec_rela (enc_rela true c) i s (map (conv true c) (rt_relocs t))); auto.
      2: { destruct c; reflexivity. }
      2: { intros; apply enc_rela_size. }
      2: { intros r Hr. apply in_map_iff in Hr. destruct Hr as (r' & <- & Hr'). apply dec_rela_conv.
           rewrite Forall_forall in Hwf. auto. }
      2: { rewrite Hd. now apply flat_map_conv. }
      cbn [bind]. edestruct IH as (maps' & -> & Hm); [exact Hn'|]. exists maps'. split; [reflexivity|].
      intros target. rewrite Hm, Hset. unfold entries. cbn [flat_map]. rewrite fold_left_app. f_equal.
      rewrite <- Ht. destruct (N.eqb_spec (rt_target t) target) as [->|]; [|reflexivity].
      apply fold_map. intros m r. unfold entry. rewrite Himp. reflexivity.
    - destruct (N.eqb_spec (sh_type (s_hdr s)) 9) as [E9|E9].
      + destruct Hs as (t & -> & Ht & Himp & Hd & Hw & Hal & sec & Hsec & Hsy).
        rewrite (parse_syms_for_idx_ok ptr data e Hf _ sec (rt_syms t) Hsec Hsy). cbn [bind].
        assert (Hwf : Forall (wf_relocation c) (rt_relocs t)) by (eapply Forall_impl; [|exact Hw]; cbv beta; tauto).
        unfold parse_rels_for_idx.
        rewrite (parse_section_data_ok ptr data e Hf _ rel_size dec_rel (enc_rela false c) i s (map (conv false c) (rt_relocs t))); auto.
        2: { destruct c; reflexivity. }
        2: { intros; apply enc_rel_size. }
        2: { intros r Hr. apply in_map_iff in Hr. destruct Hr as (r' & <- & Hr'). apply dec_rel_conv.
             rewrite Forall_forall in Hwf. auto. }
        2: { rewrite Hd. now apply flat_map_conv. }
        cbn [bind]. edestruct IH as (maps' & -> & Hm); [exact Hn'|]. exists maps'. split; [reflexivity|].
        intros target. rewrite Hm, Hset. unfold entries. cbn [flat_map]. rewrite fold_left_app. f_equal.
        rewrite <- Ht. destruct (N.eqb_spec (rt_target t) target) as [->|]; [|reflexivity].
        apply fold_map. intros m r. unfold entry. rewrite Himp. reflexivity.
      + subst o. cbn [bind]. edestruct IH as (maps' & -> & Hm); [exact Hn'|]. exists maps'. split; [reflexivity|].
        intros target. rewrite Hm. reflexivity.
  Qed.
End File.

(** What a relocation makes of a value. Those of a 32 bit file are applied as
    if they referred to the first symbol. *)
Definition index_ok (e : image) (t : rtable) (r : relocation) : Prop :=
  i_32 e = false \/
  exists s0 s, nnth 0 (rt_syms t) = Some s0 /\ nnth (rl_sym r) (rt_syms t) = Some s /\ st_value s = st_value s0.

Lemma relocate_entry : forall e t r stored, wf_relocation (i_32 e) r -> rl_sym r < nlen (rt_syms t) -> index_ok e t r ->
  relocated t r stored
    (let v := snd (entry (i_32 e) t r) in if re_implicit v then (stored + re_addend v) mod two64 else re_addend v).
Proof.
  intros e t r stored W Hs Hidx. destruct (nnth_lt_some _ _ _ Hs) as [s Hn]. exists s. split; auto.
  assert (Hv : forall addend, sym_value_of (rt_syms t) (r_sym (conv addend (i_32 e) r)) = st_value s).
  { intros addend. unfold sym_value_of. destruct (i_32 e) eqn:Ec.
    - rewrite sym_conv_32 by auto. destruct Hidx as [?|(s0 & s' & H0 & H1 & H2)]; [congruence|].
      rewrite H0. congruence.
    - rewrite sym_conv by auto. now rewrite Hn. }
  unfold entry. cbn [snd]. rewrite Hv. destruct (rt_implicit t); cbn [re_implicit re_addend negb]; auto.
  apply add_signed.
Qed.

Theorem C51_relocate : forall ptr data e tabs, elf_file ptr data e -> h_type (i_hdr e) = 1 ->
  Forall2 (reloc_section e) (i_sections e) tabs ->
  (forall t r, In (Some t) tabs -> In r (rt_relocs t) -> index_ok e t r) ->
  exists maps, parse_section_relocs (Mem ptr data) = Ok maps /\
    forall target off stored,
      let v := relocate (relocs_of maps target) off stored in
      (exists t r, applies tabs target off t r /\ relocated t r stored v) \/
      ((forall t r, ~ applies tabs target off t r) /\ v = stored).
Proof.
  intros ptr data e tabs Hf Ht Htabs Hidx. unfold parse_section_relocs.
  rewrite (parse_ehdr_ok ptr data e Hf). cbn [bind x_ehdr x_shnum ehdr_of e_type]. rewrite Ht. cbn [N.eqb negb].
  assert (Hpos : (nlen (i_sections e) =? 0) = false).
  { apply N.eqb_neq. destruct Hf as (_ & _ & _ & _ & [[_ H]|(_ & s & H & _)] & _); [lia|].
    apply nnth_some_lt in H. lia. }
  change (ET_REL =? ET_REL) with true. cbn [negb]. rewrite Hpos, (parse_shdrs_ok ptr data e Hf). cbn [bind].
  destruct (section_relocs_ok ptr data e Hf (i_sections e) tabs 0 [] Htabs) as (maps & -> & Hm).
  { intros k s Hk. rewrite nnth_nth_error. now replace (N.to_nat (0 + N.of_nat k)) with k by lia. }
  exists maps. split; [reflexivity|]. intros target off stored. cbv zeta. unfold relocate. rewrite Hm.
  change (relocs_of [] target) with (@nil (N * reloc)).
  assert (Hin : forall o v, In (o, v) (entries (i_32 e) tabs target) <->
    exists t r, applies tabs target o t r /\ v = snd (entry (i_32 e) t r)).
  { intros o v. unfold entries. rewrite in_flat_map. split.
    - intros ([t|] & Ht1 & Ht2); [|destruct Ht2]. destruct (N.eqb_spec (rt_target t) target); [|destruct Ht2].
      apply in_map_iff in Ht2. destruct Ht2 as (r & E & Hr). exists t, r. unfold entry in E. injection E as E1 E2.
      split; [repeat split; auto|]. symmetry. exact E2.
    - intros (t & r & (H1 & H2 & H3 & H4) & ->). exists (Some t). split; auto. rewrite H2, N.eqb_refl.
      apply in_map_iff. exists r. split; auto. unfold entry. cbn [snd]. now rewrite H4. }
  pose proof (fold_insert (entries (i_32 e) tabs target) [] off) as H.
  destruct (aget N.eqb off _) as [v|].
  - destruct H as [H|[_ H]]; [|discriminate]. apply Hin in H. destruct H as (t & r & Ha & ->). left. exists t, r.
    split; auto. destruct Ha as (H1 & H2 & H3 & H4).
    assert (Hw : wf_relocation (i_32 e) r /\ rl_sym r < nlen (rt_syms t)).
    { apply In_nth_error in H1. destruct H1 as [k Hk].
      destruct (nth_error (i_sections e) k) as [s|] eqn:Es.
      - pose proof (Forall2_nth _ _ _ _ _ k s (Some t) Htabs Es Hk) as Hr. unfold reloc_section in Hr.
        destruct (_ || _); [|discriminate]. destruct Hr as (t' & E & _ & _ & _ & Hw & _). injection E as <-.
        rewrite Forall_forall in Hw. now apply Hw.
      - exfalso. apply nth_error_None in Es. apply nth_error_lt in Hk. apply Forall2_length in Htabs. lia. }
    apply relocate_entry; try apply Hw. apply Hidx; auto.
  - right. split; auto. intros t r Ha. destruct H as [H _]. apply (H (snd (entry (i_32 e) t r))). apply Hin. eauto.
Qed.
Print Assumptions C51_relocate.

(** Files that are not for relocation have all values as they are. *)
Theorem C51_linked : forall ptr data e target off stored, elf_file ptr data e -> h_type (i_hdr e) <> 1 ->
  exists maps, parse_section_relocs (Mem ptr data) = Ok maps /\ relocate (relocs_of maps target) off stored = stored.
Proof.
  intros ptr data e target off stored Hf Ht. unfold parse_section_relocs.
  rewrite (parse_ehdr_ok ptr data e Hf). cbn [bind x_ehdr ehdr_of e_type]. apply N.eqb_neq in Ht.
  unfold ET_REL. rewrite Ht. cbn [negb]. exists []. auto.
Qed.
Print Assumptions C51_linked.

(** An object file, with symbols at 0 and 16 *)
Definition rel_syms := [null_sym; ESym 0 18 0 1 16 8].
Definition rel_made (c : bool) := make c 1 []
  [Input (bs ".debug_info"%string) 1 0 0 0 (repeat 1 32);
   Input n_symtab 2 0 4 0 (syms_data c rel_syms);
   Input (bs ".rela.debug_info"%string) 4 0 2 1
     (flat_map (enc_relocation true c) [Relocation 8 1 1 (-4); Relocation 24 0 1 7]);
   Input n_strtab 3 0 0 0 [0]].
Definition rel_tabs : list (option rtable) :=
  [None; None; None; Some (RTable 1 false rel_syms [Relocation 8 1 1 (-4); Relocation 24 0 1 7]); None; None].
Lemma rel_tabs_ok : forall c, Forall2 (reloc_section (fst (rel_made c))) (i_sections (fst (rel_made c))) rel_tabs.
Proof.
  intros c. assert (H : forall s, reloc_section (fst (rel_made c)) s None <-> (sh_type (s_hdr s) =? 4) || (sh_type (s_hdr s) =? 9) = false).
  { intros s. unfold reloc_section. destruct (_ || _); split; auto; [|discriminate]. intros (t & E & _). discriminate. }
  destruct c; repeat (constructor; [try (apply H; vm_compute; reflexivity)|]); try constructor.
  - eexists. split; [reflexivity|]. split; [reflexivity|]. split; [reflexivity|]. split; [vm_compute; reflexivity|].
    split; [repeat constructor|]; cbn; try lia. split; [vm_compute; reflexivity|].
    eexists. split; [reflexivity|]. apply symbols_check. vm_compute. reflexivity.
  - eexists. split; [reflexivity|]. split; [reflexivity|]. split; [reflexivity|]. split; [vm_compute; reflexivity|].
    split; [repeat constructor|]; cbn; try lia. split; [vm_compute; reflexivity|].
    eexists. split; [reflexivity|]. apply symbols_check. vm_compute. reflexivity.
Qed.
Example C51_example :
  elf_file 0 (snd (rel_made false)) (fst (rel_made false)) /\
  match parse_section_relocs (Mem 0 (snd (rel_made false))) with
  | Ok maps => [relocate (relocs_of maps 1) 8 99; relocate (relocs_of maps 1) 24 99;
                relocate (relocs_of maps 1) 0 99; relocate (relocs_of maps 2) 8 99]
  | _ => []
  end = [12; 7; 99; 99].
Proof. split; [apply elf_file_check; vm_compute; reflexivity|]. vm_compute. reflexivity. Qed.

(** In a 32 bit file, the symbol referred to is not taken into account. *)
Theorem C51_32bit_refuted : exists ptr data e tabs maps target off stored t r,
  elf_file ptr data e /\ h_type (i_hdr e) = 1 /\ Forall2 (reloc_section e) (i_sections e) tabs /\
  parse_section_relocs (Mem ptr data) = Ok maps /\
  applies tabs target off t r /\ (forall t' r', applies tabs target off t' r' -> t' = t /\ r' = r) /\
  ~ relocated t r stored (relocate (relocs_of maps target) off stored).
Proof.
  exists 0, (snd (rel_made true)), (fst (rel_made true)), rel_tabs.
  destruct (parse_section_relocs (Mem 0 (snd (rel_made true)))) as [maps| | |] eqn:E; vm_compute in E; try discriminate.
  injection E as <-. eexists. exists 1, 8, 0, (RTable 1 false rel_syms [Relocation 8 1 1 (-4); Relocation 24 0 1 7]), (Relocation 8 1 1 (-4)).
  split; [apply elf_file_check; vm_compute; reflexivity|]. split; [reflexivity|]. split; [apply rel_tabs_ok|].
  split; [reflexivity|]. split; [|split].
  - split; [cbn; tauto|]. split; [reflexivity|]. split; [now left|reflexivity].
  - intros t' r' (H1 & H2 & H3 & H4). destruct H1 as [H1|[H1|[H1|[H1|[H1|[H1|[]]]]]]]; try discriminate.
    injection H1 as <-. split; auto. destruct H3 as [<-|[<-|[]]]; auto. discriminate.
  - intros (s & Hs & Hv). injection Hs as <-. vm_compute in Hv. discriminate.
Qed.
Print Assumptions C51_32bit_refuted.
