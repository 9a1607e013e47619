(** * C16-C20: Gsym lookups

    The meaning of a Gsym file is in [GsymSpec]; [gsym_lookup m ptr data addr
    opts] opens the bytes [data] (located at memory address [ptr]) and looks
    [addr] up. *)

From Verif Require Import Base Util UtilProofs Text Sym Frames Total Gsym GsymProofs GsymSpec GsymFormat.
Local Open Scope N_scope.

(** ** One lookup, all cases *)
Lemma nearest_unique : forall d addr f f', sorted_funcs d -> nearest d addr f -> nearest d addr f' -> f = f'.
Proof.
  intros d addr f f' Hsorted (Hi & Hl & Hm) (Hi' & Hl' & Hm').
  assert (E : f_start f = f_start f').
  { pose proof (Hm f' Hi' Hl'). pose proof (Hm' f Hi Hl). lia. }
  unfold sorted_funcs in Hsorted. clear Hm Hm'.
  induction Hsorted as [|x l Hs IH HF]; [easy|].
  rewrite Forall_forall in HF. destruct Hi as [<-|Hi]; destruct Hi' as [<-|Hi']; auto.
  - apply HF in Hi'. lia.
  - apply HF in Hi. lia.
Qed.

Section Lookup.
  Variables (m : mode) (ptr : N) (data : list N) (d : gfile).
  Hypothesis Hg : is_gsym data d.
  Hypothesis Hptr : ptr mod 8 = 0.
  Hypothesis Hsorted : sorted_funcs d.
  Hypothesis Hfits : no_wrap d.

  Lemma lookup_unknown : forall addr opts,
    (forall f, nearest d addr f -> ~ covers d addr f) ->
    gsym_lookup m ptr data addr opts = Ok (inr UnknownAddr).
  Proof using Hg Hptr Hsorted Hfits.
    intros addr opts H. unfold gsym_lookup. rewrite (parse_header_enc ptr data d) by auto.
    cbn [bind]. unfold find_sym.
    destruct (file_find_addr ptr data d Hg Hptr Hsorted Hfits addr)
      as [(i & f & E & Hf & Hn)|[E _]]; rewrite E; [|reflexivity].
    rewrite (file_addr_at ptr data d Hg Hptr Hfits i f Hf). cbn [ok_or bind].
    pose proof Hn as (Hin & Hle & _).
    destruct (N.ltb_spec addr (gf_base d + f_start f)); [reflexivity|].
    destruct (file_addr_info ptr data d Hg Hptr Hfits i f Hf) as (b & rest & _ & ->).
    cbn [ok_or bind ai_size].
    assert (Hnc : 0 < f_size f /\ gf_base d + f_start f + f_size f <= addr).
    { specialize (H f Hn). unfold covers in H. lia. }
    destruct (N.ltb_spec 0 (f_size f)); [|lia].
    unfold add64. rewrite uadd_small by (apply (file_funcs ptr data d Hg Hptr Hfits f Hin)). cbn [bind].
    destruct (N.leb_spec (gf_base d + f_start f + f_size f) addr); [reflexivity|lia].
  Qed.

  Lemma lookup_found : forall addr opts f name,
    nearest d addr f -> covers d addr f -> name_at d (f_name f) name ->
    exists b rest, enc_infos (f_infos f) b /\
      gsym_lookup m ptr data addr opts
      = let* sym := fill_code_info m (gsym_of ptr data d)
          (ResolvedSym name None (gf_base d + f_start f) (Some (f_size f)) LangUnknown None [])
          addr opts (gf_base d + f_start f) (AddrInfo (f_size f) (f_name f) (b ++ rest)) in
        Ok (inl sym).
  Proof using Hg Hptr Hsorted Hfits.
    intros addr opts f name Hn Hc Hname. unfold gsym_lookup. rewrite (parse_header_enc ptr data d) by auto.
    cbn [bind]. unfold find_sym.
    destruct (file_find_addr ptr data d Hg Hptr Hsorted Hfits addr)
      as [(i & f' & E & Hf & Hn')|[E Hall]]; rewrite E.
    2:{ destruct Hn as (Hin & Hle & _). specialize (Hall f Hin). lia. }
    assert (f' = f) by (eapply nearest_unique; eauto). subst f'.
    rewrite (file_addr_at ptr data d Hg Hptr Hfits i f Hf). cbn [ok_or bind].
    pose proof Hn as (Hin & Hle & _).
    destruct (N.ltb_spec addr (gf_base d + f_start f)); [lia|].
    destruct (file_addr_info ptr data d Hg Hptr Hfits i f Hf) as (b & rest & Hb & ->).
    exists b, rest. split; auto.
    cbn [ok_or bind ai_size ai_name].
    assert (Hbeyond : (if 0 <? f_size f
       then let* e := add64 m (gf_base d + f_start f) (f_size f) in Ok (e <=? addr) else Ok false) = Ok false).
    { destruct (N.ltb_spec 0 (f_size f)); [|reflexivity].
      unfold add64. rewrite uadd_small by (apply (file_funcs ptr data d Hg Hptr Hfits f Hin)). cbn [bind].
      unfold covers in Hc.
      destruct (N.leb_spec (gf_base d + f_start f + f_size f) addr); [lia|reflexivity]. }
    rewrite Hbeyond. cbn [bind]. rewrite (file_get_utf8 ptr data d _ name) by auto. reflexivity.
  Qed.

End Lookup.

Lemma lookup_scan : forall m b rest infos sa addr opts, enc_infos infos b ->
  Forall (info_ok sa) infos ->
  scan_data m opts sa addr (parse_address_data (b ++ rest)) None []
  = Ok (option_map to_row (scan_row sa addr infos None),
        map to_frame (if inlined_fns_opt opts then chain_of sa addr infos else [])).
Proof.
  intros m b rest infos sa addr opts Hb Hok. unfold parse_address_data.
  pose proof (enc_infos_length _ _ Hb) as Hlen.
  assert (H2 : Forall2 item infos (address_data (length (b ++ rest)) (b ++ rest))).
  { apply address_data_enc; auto. rewrite app_length. lia. }
  pose proof (scan_data_enc m opts sa addr infos _ H2 Hok None []) as E. cbn [option_map map] in E.
  rewrite E, scan_chain_of. reflexivity.
Qed.

(** ** C16: the right function *)

(** In a file whose function starts ascend and whose functions end within the
    address space, an address is resolved to the closest function starting at
    or before it if that one covers the address (or has no size), and is
    reported as unknown otherwise. *)
Theorem C16_found : forall m ptr data d addr f name,
  is_gsym data d -> ptr mod 8 = 0 -> sorted_funcs d -> no_wrap d ->
  nearest d addr f -> covers d addr f -> name_at d (f_name f) name ->
  gsym_lookup m ptr data addr Basic
  = Ok (inl (ResolvedSym name None (gf_base d + f_start f) (Some (f_size f)) LangUnknown None [])).
Proof.
  intros m ptr data d addr f name Hg Hptr Hs Hf Hn Hc Hname.
  destruct (lookup_found m ptr data d Hg Hptr Hs Hf addr Basic f name Hn Hc Hname) as (b & rest & _ & ->).
  reflexivity.
Qed.

Theorem C16_unknown : forall m ptr data d addr opts,
  is_gsym data d -> ptr mod 8 = 0 -> sorted_funcs d -> no_wrap d ->
  (forall f, nearest d addr f -> ~ covers d addr f) ->
  gsym_lookup m ptr data addr opts = Ok (inr UnknownAddr).
Proof. intros. eapply lookup_unknown; eauto. Qed.

(** In particular, if functions do not overlap, whichever one contains the
    address is found. *)
Definition disjoint_funcs (d : gfile) : Prop :=
  StronglySorted (fun a b => f_start a < f_start b /\ f_start a + f_size a <= f_start b) (gf_funcs d).
Theorem C16_disjoint_found : forall m ptr data d addr f name,
  is_gsym data d -> ptr mod 8 = 0 -> disjoint_funcs d -> no_wrap d ->
  In f (gf_funcs d) -> gf_base d + f_start f <= addr < gf_base d + f_start f + f_size f ->
  name_at d (f_name f) name ->
  gsym_lookup m ptr data addr Basic
  = Ok (inl (ResolvedSym name None (gf_base d + f_start f) (Some (f_size f)) LangUnknown None [])).
Proof.
  intros m ptr data d addr f name Hg Hptr Hd Hf Hin Ha Hname.
  assert (Hs : sorted_funcs d).
  { unfold sorted_funcs, disjoint_funcs in *. clear - Hd. induction Hd as [|x l Hs IH HF]; constructor; auto.
    eapply Forall_impl; [|exact HF]. cbn. tauto. }
  apply (C16_found m ptr data d addr f name); auto.
  - split; auto. split; [lia|]. intros f' Hin' Hle.
    unfold disjoint_funcs in Hd. clear Hs Hg Hf Hname.
    induction Hd as [|x l Hs IH HF]; [easy|]. rewrite Forall_forall in HF.
    destruct Hin as [<-|Hin]; destruct Hin' as [<-|Hin']; auto; try lia.
    + apply HF in Hin'. lia.
    + apply HF in Hin. lia.
  - unfold covers. lia.
Qed.

(** Arbitrary bytes: whatever is reported starts at or before the address,
    covers it (or has no size), and its start is stored in the address
    table. *)
Lemma read_le_val : forall n r v r', read_le n r = Ok (v, r') -> v = le_val (ntake n r) /\ r' = ndrop n r.
Proof.
  intros n r v r' H. unfold read_le, read_slice in H. destruct (nlen r <? n); [discriminate|].
  cbn [bind] in H. injection H as <- <-. auto.
Qed.
Lemma ndrop_ndrop : forall A (l : list A) a b, ndrop a (ndrop b l) = ndrop (b + a) l.
Proof.
  induction l as [|x l IH]; intros a b; [reflexivity|].
  cbn [ndrop]. destruct (N.eqb_spec b 0) as [->|Hb].
  - reflexivity.
  - rewrite IH. destruct (N.eqb_spec (b + a) 0); [lia|]. f_equal. lia.
Qed.
(** A little endian number of [n] bytes at offset [off]. *)
Definition num_at (data : list N) (off n : N) : N := le_val (ntake n (ndrop off data)).

Lemma parse_header_fields : forall ptr data g, parse_header ptr data = Ok g ->
  g_addr_off_size g = num_at data 6 1 /\ g_base_address g = num_at data 8 8 /\
  g_num_addrs g = num_at data 16 4 /\
  g_addr_tab g = ntake (num_at data 16 4 * num_at data 6 1) (ndrop 48 data) /\
  g_raw_data g = data.
Proof.
  intros ptr data g H. unfold parse_header in H. apply ok_or_ok_inv in H. unfold parse_header_impl in H.
  ib H [v1 r1] E1. apply read_le_val in E1. destruct E1 as [_ E1].
  destruct (negb (v1 =? GSYM_MAGIC)); [discriminate|].
  ib H [v2 r2] E2. apply read_le_val in E2. destruct E2 as [_ E2].
  destruct (negb (v2 =? GSYM_VERSION)); [discriminate|].
  ib H [v3 r3] E3. apply read_le_val in E3. destruct E3 as [V3 E3].
  ib H [v4 r4] E4. apply read_le_val in E4. destruct E4 as [_ E4].
  ib H [v5 r5] E5. apply read_le_val in E5. destruct E5 as [V5 E5].
  ib H [v6 r6] E6. apply read_le_val in E6. destruct E6 as [V6 E6].
  ib H [v7 r7] E7. apply read_le_val in E7. destruct E7 as [V7 E7].
  ib H [v8 r8] E8. apply read_le_val in E8. destruct E8 as [V8 E8].
  ib H [v9 r9] E9. unfold read_slice in E9. destruct (nlen r8 <? 20); [discriminate|]. injection E9 as _ E9.
  ib H [v10 r10] E10. unfold read_slice in E10. destruct (nlen r9 <? v6 * v3); [discriminate|].
  injection E10 as E10 _.
  ib H r11 E11. ib H [offs r12] E12. ib H [fn r13] E13. ib H r14 E14. ib H [files r15] E15.
  ib H r16 E16. ib H [st r17] E17. injection H as <-. cbn [g_addr_off_size g_base_address g_num_addrs g_addr_tab g_raw_data].
  symmetry in E9. subst r1 r2 r3 r4 r5 r6 r7 r8 r9. subst v10. rewrite !ndrop_ndrop in *.
  change (4 + 2) with 6 in *. change (6 + 1) with 7 in *. change (7 + 1) with 8 in *. change (8 + 8) with 16 in *.
  change (16 + 4) with 20 in *. change (20 + 4) with 24 in *. change (24 + 4) with 28 in *. change (28 + 20) with 48 in *.
  subst v3 v5 v6. repeat split.
Qed.
Lemma fill_keeps : forall m g sym addr opts sa info sym',
  fill_code_info m g sym addr opts sa info = Ok sym' ->
  rs_addr sym' = rs_addr sym /\ rs_size sym' = rs_size sym /\ rs_module sym' = rs_module sym /\
  rs_lang sym' = rs_lang sym.
Proof.
  intros m g sym addr opts sa info sym' H. unfold fill_code_info in H.
  destruct (negb _); [injection H as <-; auto|].
  ib H [line stack] E1. destruct line as [row|]; [|injection H as <-; auto].
  ib H li E2. destruct stack as [|first frames]; [injection H as <-; auto|].
  ib H name E3. ib H [li' inl] E4. injection H as <-. auto.
Qed.
Theorem C16_sound : forall m ptr data addr opts sym,
  is_bytes data -> addr < 2 ^ 64 ->
  gsym_lookup m ptr data addr opts = Ok (inl sym) ->
  exists i size, i < num_at data 16 4 /\
    rs_addr sym = num_at data 8 8 + num_at data (48 + i * num_at data 6 1) (num_at data 6 1) /\
    rs_size sym = Some size /\
    rs_addr sym <= addr /\ (size = 0 \/ addr < rs_addr sym + size).
Proof.
  intros m ptr data addr opts sym Hb Ha H. unfold gsym_lookup in H. ib H g Eg.
  apply parse_header_fields in Eg. destruct Eg as (Gs & Gb & Gn & Gt & Gr).
  unfold find_sym in H. destruct (find_addr g addr) as [idx|k| |] eqn:Ef; try discriminate.
  ib H sa Esa. apply ok_or_ok_inv in Esa.
  destruct (N.ltb_spec addr sa) as [|Hle]; [discriminate|].
  ib H info Ei. apply ok_or_ok_inv in Ei. ib H beyond Eb. destruct beyond; [discriminate|].
  ib H name En. ib H sym' Es. injection H as <-. apply fill_keeps in Es.
  cbn [rs_addr rs_size] in Es. destruct Es as (E1 & E2 & _).
  set (w := g_addr_off_size g) in *.
  unfold addr_at in Esa. fold w in Esa. ib Esa o Eo. apply of_option_ok_inv in Eo.
  unfold chk_mul in Eo. destruct (N.of_nat idx * w <? two64); [|discriminate]. injection Eo as <-.
  ib Esa r Er. ib Esa [v r'] Ev. apply of_option_ok_inv in Esa. unfold chk_add in Esa.
  destruct (g_base_address g + v <? two64); [|discriminate]. injection Esa as <-.
  assert (Hv : v = le_val (ntake w r) /\ w <= nlen r /\ 0 < w).
  { assert (Hr : read_le w r = Ok (v, r') /\ 0 < w).
    { destruct (N.eqb_spec w 1) as [->|]; [split; [exact Ev|lia]|].
      destruct (N.eqb_spec w 2) as [->|]; [split; [exact Ev|lia]|].
      destruct (N.eqb_spec w 4) as [->|]; [split; [exact Ev|lia]|].
      destruct (N.eqb_spec w 8) as [->|]; [split; [exact Ev|lia]|discriminate]. }
    destruct Hr as [Hr Hw]. pose proof (read_le_shorter _ _ _ _ Hr). apply read_le_val in Hr. split; [tauto|].
    split; [lia|auto]. }
  destruct Hv as (Hv & Hwr & Hw0). unfold get_from in Er.
  destruct (N.leb_spec (N.of_nat idx * w) (nlen (g_addr_tab g))) as [Hlen|]; [|discriminate]. injection Er as <-.
  rewrite nlen_ndrop in Hwr.
  assert (Htl : nlen (g_addr_tab g) <= num_at data 16 4 * w).
  { rewrite Gt, nlen_ntake. fold w in Gs. rewrite Gs. lia. }
  assert (Hidx : N.of_nat idx < num_at data 16 4).
  { assert (N.of_nat idx * w + w <= num_at data 16 4 * w) by lia.
    destruct (N.lt_ge_cases (N.of_nat idx) (num_at data 16 4)) as [|Hge]; auto.
    assert (num_at data 16 4 * w <= N.of_nat idx * w) by (apply N.mul_le_mono_r; auto). lia. }
  exists (N.of_nat idx), (ai_size info). split; [auto|]. split.
  { rewrite E1, Gb, Hv. f_equal. rewrite Gt. rewrite <- Gs. fold w. unfold num_at at 2. f_equal.
    rewrite <- (ndrop_ndrop _ data (N.of_nat idx * w) 48).
    set (t := ndrop 48 data). rewrite !ntake_firstn, !ndrop_skipn.
    rewrite skipn_firstn_comm. rewrite firstn_firstn. f_equal.
    assert (N.of_nat idx * w + w <= num_at data 16 4 * w).
    { assert ((N.of_nat idx + 1) * w <= num_at data 16 4 * w) by (apply N.mul_le_mono_r; lia). lia. }
    lia. }
  split; [auto|]. split; [lia|]. rewrite E1.
  destruct (N.ltb_spec 0 (ai_size info)) as [Hsz|]; [|left; lia]. right.
  ib Eb e Ee. injection Eb as Eb. apply N.leb_gt in Eb. unfold add64, uadd, wrap in Ee.
  destruct (N.ltb_spec (g_base_address g + v + ai_size info) two64) as [|Hov].
  - injection Ee as <-. exact Eb.
  - unfold two64 in *. lia.
Qed.

(** ** C17: no bytes make a lookup hang or crash *)

(** Release builds (wrapping arithmetic): every lookup in any bytes returns
    a symbol, "unknown", or an error. *)
Theorem C17_total : forall ptr data addr opts,
  (exists r, gsym_lookup Wrapping ptr data addr opts = Ok r) \/
  (exists k, gsym_lookup Wrapping ptr data addr opts = Err k).
Proof.
  intros. destruct (total_gsym_lookup Wrapping ptr data addr opts) as [H1 H2].
  destruct (gsym_lookup Wrapping ptr data addr opts); [eauto|eauto|now destruct H2|easy].
Qed.
(** Builds with overflow checks: every lookup terminates (perhaps with the
    panic of a failed check). *)
Theorem C17_terminates : forall m ptr data addr opts,
  gsym_lookup m ptr data addr opts <> NoFuel.
Proof. intros. apply total_gsym_lookup. Qed.

(** ** C18: source locations *)
Theorem C18_line : forall m ptr data d addr f name r ci,
  is_gsym data d -> ptr mod 8 = 0 -> sorted_funcs d -> no_wrap d ->
  nearest d addr f -> covers d addr f -> name_at d (f_name f) name ->
  Forall (info_ok (gf_base d + f_start f)) (f_infos f) ->
  row_of (gf_base d + f_start f) addr (f_infos f) r ->
  loc_at d (ls_file r) (Z.to_N (ls_line r)) ci ->
  gsym_lookup m ptr data addr WithCode
  = Ok (inl (ResolvedSym name None (gf_base d + f_start f) (Some (f_size f)) LangUnknown (Some ci) [])).
Proof.
  intros m ptr data d addr f name r ci Hg Hptr Hs Hf Hn Hc Hname Hok Hr Hci.
  destruct (lookup_found m ptr data d Hg Hptr Hs Hf addr WithCode f name Hn Hc Hname) as (b & rest & Hb & ->).
  unfold fill_code_info. cbn [code_info_opt negb ai_data].
  rewrite (lookup_scan m b rest (f_infos f)) by auto. cbn [bind inlined_fns_opt map].
  destruct (scan_row_of (gf_base d + f_start f) addr (f_infos f) Hok) as [(r' & E & Hr')|[E Hno]]; rewrite E.
  - rewrite (row_of_unique _ _ _ _ _ Hr' Hr). cbn [option_map lr_file lr_line to_row].
    rewrite (file_query ptr data d _ _ ci) by auto. reflexivity.
  - exfalso. destruct Hr as (pre & h & ops & post & Ei & Heff & _).
    apply (Hno h ops) in Heff; auto. rewrite Ei. apply in_or_app. right. now left.
Qed.
(** No line table has a row at or before the address: no location. *)
Theorem C18_no_row : forall m ptr data d addr f name opts,
  is_gsym data d -> ptr mod 8 = 0 -> sorted_funcs d -> no_wrap d ->
  nearest d addr f -> covers d addr f -> name_at d (f_name f) name ->
  Forall (info_ok (gf_base d + f_start f)) (f_infos f) ->
  no_row (gf_base d + f_start f) addr (f_infos f) ->
  gsym_lookup m ptr data addr opts
  = Ok (inl (ResolvedSym name None (gf_base d + f_start f) (Some (f_size f)) LangUnknown None [])).
Proof.
  intros m ptr data d addr f name opts Hg Hptr Hs Hf Hn Hc Hname Hok Hno.
  destruct (lookup_found m ptr data d Hg Hptr Hs Hf addr opts f name Hn Hc Hname) as (b & rest & Hb & ->).
  unfold fill_code_info. destruct (negb (code_info_opt opts)); [reflexivity|]. cbn [ai_data].
  rewrite (lookup_scan m b rest (f_infos f)) by auto. cbn [bind].
  destruct (scan_row_of (gf_base d + f_start f) addr (f_infos f) Hok) as [(r' & E & Hr')|[E _]]; rewrite E.
  - exfalso. destruct Hr' as (pre & h & ops & post & Ei & Heff & _).
    apply (Hno h ops) in Heff; auto. rewrite Ei. apply in_or_app. right. now left.
  - reflexivity.
Qed.

(** ** C19, C20: inlined functions and their locations

    [root] is the record of the function itself, [calls] are the inlined
    calls covering the address, outermost first, [names] their names and
    [sites] the locations they were called from. The frames reported are
    exactly these, and each frame shows the location executing in it: the
    call site of the next inner frame, the innermost one the location of the
    address. *)
Section Inlined.
  Variables (m : mode) (ptr : N) (data : list N) (d : gfile).
  Variables (addr : N) (f : fentry) (name : list N) (r : lstate) (ci : code_info).
  Let start := gf_base d + f_start f.

  Theorem C19_chain :
    forall root calls rname names sites,
    is_gsym data d -> ptr mod 8 = 0 -> sorted_funcs d -> no_wrap d ->
    nearest d addr f -> covers d addr f -> name_at d (f_name f) name ->
    Forall (info_ok start) (f_infos f) ->
    row_of start addr (f_infos f) r -> loc_at d (ls_file r) (Z.to_N (ls_line r)) ci ->
    chain_of start addr (f_infos f) = root :: calls ->
    name_at d (c_name root) rname ->
    Forall2 (fun c n => name_at d (c_name c) n) calls names ->
    Forall2 (fun c s => loc_at d (c_file c) (c_line c) s) calls sites ->
    exists sym, gsym_lookup m ptr data addr WithInlined = Ok (inl sym) /\
      rs_name sym = rname /\ rs_module sym = None /\ rs_addr sym = start /\ rs_size sym = Some (f_size f) /\ rs_lang sym = LangUnknown /\
      map if_name (rs_inlined sym) = names /\
      frame_locs (Some ci) (map Some sites) (rs_code_info sym :: map if_code_info (rs_inlined sym)).
  Proof using.
    intros root calls rname names sites Hg Hptr Hs Hf Hn Hc Hname Hok Hr Hci Hch Hrn Hns Hcs.
    destruct (lookup_found m ptr data d Hg Hptr Hs Hf addr WithInlined f name Hn Hc Hname) as (b & rest & Hb & ->).
    unfold fill_code_info. cbn [code_info_opt negb ai_data].
    rewrite (lookup_scan m b rest (f_infos f)) by auto. cbn [bind inlined_fns_opt].
    fold start. rewrite Hch. cbn [map].
    destruct (scan_row_of start addr (f_infos f) Hok) as [(r' & E & Hr')|[E Hno]]; rewrite E.
    2:{ exfalso. destruct Hr as (pre & h & ops & post & Ei & Heff & _).
        apply (Hno h ops) in Heff; auto. rewrite Ei. apply in_or_app. right. now left. }
    rewrite (row_of_unique _ _ _ _ _ Hr' Hr). cbn [option_map lr_file lr_line to_row].
    rewrite (file_query ptr data d _ _ ci) by auto. cbn [bind to_frame fr_name].
    rewrite (file_get_utf8 ptr data d _ rname) by auto. cbn [bind ok_or].
    assert (Hns' : Forall2 (fun fr n => get_utf8 (gsym_of ptr data d) (fr_name fr) = Ok n) (map to_frame calls) names).
    { clear - Hns. induction Hns as [|c n calls names Hcn Hns IH]; constructor; auto. now apply file_get_utf8. }
    assert (Hcs' : Forall2 (fun fr c => query_frame_code_info (gsym_of ptr data d) (fr_file fr) (fr_line fr) = Ok c)
                     (map to_frame calls) sites).
    { clear - Hcs. induction Hcs as [|c n calls names Hcn Hns IH]; constructor; auto. now apply file_query. }
    rewrite (add_frames_all _ _ _ _ Hns' Hcs' ci). cbn [bind].
    assert (Hlen : length names = length sites).
    { apply Forall2_length in Hns. apply Forall2_length in Hcs. congruence. }
    eexists. split; [reflexivity|]. cbn [rs_name rs_addr rs_size rs_inlined rs_code_info].
    repeat split; auto.
    - now apply shift_names.
    - now apply shift_locs.
    - now apply shift_locs.
    - now apply shift_locs.
  Qed.

  (** No inline record covers the address: no inlined functions. *)
  Theorem C19_no_chain :
    is_gsym data d -> ptr mod 8 = 0 -> sorted_funcs d -> no_wrap d ->
    nearest d addr f -> covers d addr f -> name_at d (f_name f) name ->
    Forall (info_ok start) (f_infos f) ->
    row_of start addr (f_infos f) r -> loc_at d (ls_file r) (Z.to_N (ls_line r)) ci ->
    chain_of start addr (f_infos f) = [] ->
    gsym_lookup m ptr data addr WithInlined
    = Ok (inl (ResolvedSym name None start (Some (f_size f)) LangUnknown (Some ci) [])).
  Proof using.
    intros Hg Hptr Hs Hf Hn Hc Hname Hok Hr Hci Hch.
    destruct (lookup_found m ptr data d Hg Hptr Hs Hf addr WithInlined f name Hn Hc Hname) as (b & rest & Hb & ->).
    unfold fill_code_info. cbn [code_info_opt negb ai_data].
    rewrite (lookup_scan m b rest (f_infos f)) by auto. cbn [bind inlined_fns_opt].
    fold start. rewrite Hch. cbn [map].
    destruct (scan_row_of start addr (f_infos f) Hok) as [(r' & E & Hr')|[E Hno]]; rewrite E.
    2:{ exfalso. destruct Hr as (pre & h & ops & post & Ei & Heff & _).
        apply (Hno h ops) in Heff; auto. rewrite Ei. apply in_or_app. right. now left. }
    rewrite (row_of_unique _ _ _ _ _ Hr' Hr). cbn [option_map lr_file lr_line to_row].
    rewrite (file_query ptr data d _ _ ci) by auto. reflexivity.
  Qed.
End Inlined.

(** ** Concrete files *)
Definition take_at (data : list N) (off : N) (bs : list N) : bool :=
  (off <=? nlen data) && beq (ntake (nlen bs) (ndrop off data)) bs.
Lemma take_at_holds : forall data off bs, take_at data off bs = true -> holds_at data off bs.
Proof.
  intros data off bs H. apply andb_prop in H. destruct H as [H1 H2]. apply N.leb_le in H1. apply beq_eq in H2.
  exists (ntake off data), (ndrop (nlen bs) (ndrop off data)). split.
  - rewrite <- H2 at 1. now rewrite ntake_ndrop, ntake_ndrop.
  - rewrite nlen_ntake. lia.
Qed.
Lemma is_uleb1 : forall v, v < 128 -> is_uleb v [v].
Proof. intros v H. exists 0%nat. repeat split; try lia. Qed.
Lemma is_sleb1 : forall v, (-64 <= v < 64)%Z -> is_sleb v [Z.to_N (v mod 128)].
Proof. intros v H. exists 0%nat. repeat split; try lia. Qed.

(** [main] at 0x1000 with a line table and the inlined calls [foo], [bar];
    [leaf] at 0x1040. *)
Definition ex_strs : list N :=
  [0] ++ [109;97;105;110;0] (* 1: main *) ++ [102;111;111;0] (* 6: foo *) ++ [98;97;114;0] (* 10: bar *)
  ++ [47;115;0] (* 14: /s *) ++ [97;46;99;0] (* 17: a.c *) ++ [98;46;104;0] (* 21: b.h *)
  ++ [108;101;97;102;0] (* 25: leaf *).
Definition ex_header := LHeader (-1) 3 10.
Definition ex_ops := [OpSpecial 1; OpLine 4; OpAddr 8; OpFile 2; OpSpecial 43].
Definition ex_line : list N := [127; 3; 10] ++ [5] ++ [3; 4] ++ [2; 8] ++ [1; 2] ++ [47] ++ [0].
Definition ex_tree : itree :=
  INode [(0, 32)] 1 0 0
    (ICons (INode [(2, 2)] 10 1 5 INil)
    (ICons (INode [(8, 8)] 6 1 11
       (ICons (INode [(2, 3); (5, 1)] 10 2 21 INil) INil)) INil)).
Definition ex_inline : list N :=
  [1; 0; 32; 1; 1; 0; 0; 0; 0; 0]
  ++ [1; 2; 2; 0; 10; 0; 0; 0; 1; 5]
  ++ ([1; 8; 8; 1; 6; 0; 0; 0; 1; 11] ++ ([2; 2; 3; 5; 1; 0; 10; 0; 0; 0; 2; 21] ++ [0])) ++ [0].
Definition ex_main := FEntry 0 32 1 144 [LineInfo ex_header ex_ops; InlineInfo ex_tree].
Definition ex_leaf := FEntry 64 16 25 236 [].
Definition ex_file : gfile :=
  GFile 2 4096 [ex_main; ex_leaf] [(0, 0); (14, 17); (14, 21)] ex_strs 112.
Definition ex_data : list N :=
  le_bytes 4 1196644685 ++ le_bytes 2 1 ++ [2] ++ [20] ++ le_bytes 8 4096 ++ le_bytes 4 2
  ++ le_bytes 4 112 ++ le_bytes 4 (nlen ex_strs) ++ repeat 7 20
  ++ le_bytes 2 0 ++ le_bytes 2 64 ++ le_bytes 4 144 ++ le_bytes 4 236
  ++ le_bytes 4 3 ++ le_bytes 4 0 ++ le_bytes 4 0 ++ le_bytes 4 14 ++ le_bytes 4 17
  ++ le_bytes 4 14 ++ le_bytes 4 21 ++ repeat 0 24 ++ ex_strs ++ repeat 0 2
  ++ le_bytes 4 32 ++ le_bytes 4 1 ++ le_bytes 4 1 ++ le_bytes 4 (nlen ex_line) ++ ex_line
  ++ le_bytes 4 2 ++ le_bytes 4 (nlen ex_inline) ++ ex_inline ++ le_bytes 4 0 ++ repeat 9 8
  ++ le_bytes 4 16 ++ le_bytes 4 25 ++ le_bytes 4 0.

Ltac small := first [lia | reflexivity | (vm_compute; reflexivity) | (vm_compute; discriminate)].
Ltac gsym_layout us p := (* uuid size, position of the tables *)
  unfold is_gsym; cbn [gf_width gf_base gf_funcs gf_files gf_strs gf_str_off];
  split; [simpl; tauto|]; do 5 (split; [vm_compute; reflexivity|]);
  split; [repeat constructor|];
  split; [repeat constructor|];
  split; [exists us, (repeat 7 20); split; [reflexivity|]; split; [reflexivity|];
          apply take_at_holds; vm_compute; reflexivity|];
  split; [exists p; split; [vm_compute; split; [discriminate|reflexivity]|];
          split; [reflexivity|apply take_at_holds; vm_compute; reflexivity]|];
  split; [apply take_at_holds; vm_compute; reflexivity|].

Lemma ex_line_enc : enc_line_table ex_header ex_ops ex_line.
Proof.
  exists [127], [3], [10], ([5] ++ [3; 4] ++ [2; 8] ++ [1; 2] ++ [47]), [0].
  split; [apply (is_sleb1 (-1)); lia|]. split; [apply (is_sleb1 3); lia|]. split; [apply is_uleb1; reflexivity|].
  split.
  { change [47] with ([47] ++ []). repeat apply EncCons.
    - apply (EncSpecial 1). reflexivity.
    - apply (EncLine 4 [4]). apply (is_sleb1 4). lia.
    - apply (EncAddr 8 [8]). apply is_uleb1. reflexivity.
    - apply (EncFile 2 [2]); [reflexivity|]. apply is_uleb1. reflexivity.
    - apply (EncSpecial 43). reflexivity.
    - constructor. }
  split; [right; now exists []|reflexivity].
Qed.
Ltac u1 := apply is_uleb1; reflexivity.
Ltac ranges := repeat first [apply EncR0 | eapply (EncR _ _ _ [_] [_]); [u1|u1|]].
Lemma ex_inline_enc : enc_tree ex_tree ex_inline.
Proof.
  apply (EncInner [(0, 32)] 1 0 0 _ [1] [0; 32] 1 [0] [0]); try easy; try u1; [ranges|].
  apply EncFCons.
  { apply (EncLeaf [(2, 2)] 10 1 5 [1] [2; 2] [1] [5]); try easy; try u1. ranges. }
  apply EncFCons; [|apply EncFNil; u1].
  apply (EncInner [(8, 8)] 6 1 11 _ [1] [8; 8] 1 [1] [11]); try easy; try u1; [ranges|].
  apply EncFCons; [|apply EncFNil; u1].
  apply (EncLeaf [(2, 3); (5, 1)] 10 2 21 [2] [2; 3; 5; 1] [2] [21]); try easy; try u1. ranges.
Qed.
Lemma ex_is_gsym : is_gsym ex_data ex_file.
Proof.
  gsym_layout 20 52. constructor; [|constructor; [|constructor]].
  - exists (((le_bytes 4 1 ++ le_bytes 4 (nlen ex_line) ++ ex_line)
     ++ (le_bytes 4 2 ++ le_bytes 4 (nlen (ex_inline ++ [])) ++ ex_inline ++ []) ++ le_bytes 4 0)). split.
    + apply EncI; [apply EncLineI; [apply ex_line_enc|reflexivity]|].
      apply EncI; [apply EncInlineI; [apply ex_inline_enc|reflexivity]|]. constructor.
    + apply take_at_holds. vm_compute. reflexivity.
  - exists (le_bytes 4 0). split; [constructor|]. apply take_at_holds. vm_compute. reflexivity.
Qed.
Lemma ex_str_at : forall d off s, take_at (gf_strs d) off (s ++ [0]) = true ->
  forallb (fun b => negb (b =? 0)) s = true -> str_at d off s.
Proof.
  intros d off s H1 H2. split; [now apply take_at_holds|]. rewrite forallb_forall in H2. apply Forall_forall.
  intros x Hx. apply H2 in Hx. now apply N.eqb_neq, negb_true_iff.
Qed.
Lemma ex_name_at : forall d off s, take_at (gf_strs d) off (s ++ [0]) = true ->
  forallb (fun b => negb (b =? 0)) s = true -> utf8_valid s = true -> name_at d off s.
Proof. intros d off s H1 H2 H3. split; [now apply ex_str_at|now apply utf8_valid_iff]. Qed.
Lemma ex_sorted : sorted_funcs ex_file.
Proof. repeat constructor. Qed.
Lemma ex_no_wrap : no_wrap ex_file.
Proof. repeat constructor. Qed.
Lemma ex_nearest : nearest ex_file 4107 ex_main.
Proof.
  split; [now left|]. split; [vm_compute; discriminate|]. intros f [<-|[<-|[]]] H; [reflexivity|].
  exfalso. vm_compute in H. now apply H.
Qed.
Lemma ex_covers : covers ex_file 4107 ex_main.
Proof. split; [vm_compute; discriminate|right; reflexivity]. Qed.
Lemma ex_rows : table_rows ex_header 4096 ex_ops
  = [LState 4096 1 10; LState 4104 1 14; LState 4112 2 16].
Proof. reflexivity. Qed.
Lemma ex_infos_ok : Forall (info_ok 4096) (f_infos ex_main).
Proof.
  constructor; [|constructor; [|constructor]].
  - split; [vm_compute; repeat split; discriminate|].
    split; [cbn; repeat split; try lia; reflexivity|].
    split; [right; exists [OpSpecial 1; OpLine 4; OpAddr 8; OpFile 2], (OpSpecial 43); split; reflexivity|].
    rewrite ex_rows. repeat constructor; discriminate.
  - cbn. repeat constructor.
Qed.
Lemma ex_row : row_of 4096 4107 (f_infos ex_main) (LState 4104 1 14).
Proof.
  exists [], ex_header, ex_ops, [InlineInfo ex_tree]. split; [reflexivity|]. split; [|intros ? ? []].
  rewrite ex_rows. exists 1%nat. split; [reflexivity|]. split; [vm_compute; discriminate|].
  intros [|[|[|j]]] r' Hj Hr; try lia; cbn in Hr; [injection Hr as <-; reflexivity|].
  destruct j; discriminate.
Qed.
Lemma ex_chain : chain_of 4096 4107 (f_infos ex_main) = [Call 1 0 0; Call 6 1 11; Call 10 2 21].
Proof. reflexivity. Qed.

(** [main] is found, with the location of the address ... *)
Example C16_example : forall m, gsym_lookup m 0 ex_data 4107 Basic
  = Ok (inl (ResolvedSym [109;97;105;110] None 4096 (Some 32) LangUnknown None [])).
Proof.
  intros m. apply (C16_found m 0 ex_data ex_file 4107 ex_main); auto using ex_is_gsym, ex_sorted, ex_no_wrap, ex_nearest, ex_covers.
  now apply ex_name_at.
Qed.
Example C16_gap_example : gsym_lookup Wrapping 0 ex_data 4128 WithInlined = Ok (inr UnknownAddr).
Proof. vm_compute. reflexivity. Qed.
Definition at_line (dir file : list N) (line : N) := CodeInfo (Some dir) file (Some line) None.
Example C18_example : forall m, gsym_lookup m 0 ex_data 4107 WithCode
  = Ok (inl (ResolvedSym [109;97;105;110] None 4096 (Some 32) LangUnknown
      (Some (at_line [47;115] [97;46;99] 14)) [])).
Proof.
  intros m. apply (C18_line m 0 ex_data ex_file 4107 ex_main _ (LState 4104 1 14));
    auto using ex_is_gsym, ex_sorted, ex_no_wrap, ex_nearest, ex_covers, ex_infos_ok, ex_row.
  - now apply ex_name_at.
  - exists 14, 17, [47;115], [97;46;99]. split; [reflexivity|]. split; [now apply ex_str_at|].
    split; [now apply ex_str_at|reflexivity].
Qed.
(** ... and the calls [foo] (from a.c:11) and [bar] (from b.h:21). *)
Example C19_example : gsym_lookup Wrapping 0 ex_data 4107 WithInlined
  = Ok (inl (ResolvedSym [109;97;105;110] None 4096 (Some 32) LangUnknown
      (Some (at_line [47;115] [97;46;99] 11))
      [InlinedFn [102;111;111] (Some (at_line [47;115] [98;46;104] 21));
       InlinedFn [98;97;114] (Some (at_line [47;115] [97;46;99] 14))])).
Proof. vm_compute. reflexivity. Qed.
Example C19_hypotheses_example : exists sym, gsym_lookup Wrapping 0 ex_data 4107 WithInlined = Ok (inl sym) /\
  map if_name (rs_inlined sym) = [[102;111;111]; [98;97;114]].
Proof.
  destruct (C19_chain Wrapping 0 ex_data ex_file 4107 ex_main [109;97;105;110] (LState 4104 1 14)
    (at_line [47;115] [97;46;99] 14) (Call 1 0 0) [Call 6 1 11; Call 10 2 21] [109;97;105;110]
    [[102;111;111]; [98;97;114]] [at_line [47;115] [97;46;99] 11; at_line [47;115] [98;46;104] 21])
    as (sym & E & _ & _ & _ & _ & _ & En & _);
    auto using ex_is_gsym, ex_sorted, ex_no_wrap, ex_nearest, ex_covers, ex_infos_ok, ex_row.
  - now apply ex_name_at.
  - exists 14, 17, [47;115], [97;46;99]. split; [reflexivity|]. split; [now apply ex_str_at|].
    split; [now apply ex_str_at|reflexivity].
  - now apply ex_name_at.
  - constructor; [now apply ex_name_at|]. constructor; [now apply ex_name_at|constructor].
  - constructor; [|constructor; [|constructor]].
    + exists 14, 17, [47;115], [97;46;99]. split; [reflexivity|]. split; [now apply ex_str_at|].
      split; [now apply ex_str_at|reflexivity].
    + exists 14, 21, [47;115], [98;46;104]. split; [reflexivity|]. split; [now apply ex_str_at|].
      split; [now apply ex_str_at|reflexivity].
  - eauto.
Qed.

(** ** What does not hold *)

(** Reading depends on where the bytes are in memory: the same file is
    readable at an aligned address and finds nothing at another one, although any byte
    slice is accepted. *)
Theorem C16_misaligned_refuted :
  exists data d addr sym, is_gsym data d /\
    gsym_lookup Wrapping 0 data addr Basic = Ok (inl sym) /\
    gsym_lookup Wrapping 1 data addr Basic = Ok (inr UnknownAddr).
Proof.
  exists ex_data, ex_file, 4107, (ResolvedSym [109;97;105;110] None 4096 (Some 32) LangUnknown None []).
  split; [apply ex_is_gsym|]. split; vm_compute; reflexivity.
Qed.

(** A small file: the functions and their records are given. *)
Definition file2 (base : N) (f1 f2 : fentry) (body : list N) : list N :=
  le_bytes 4 1196644685 ++ le_bytes 2 1 ++ [2] ++ [20] ++ le_bytes 8 base ++ le_bytes 4 2
  ++ le_bytes 4 112 ++ le_bytes 4 (nlen ex_strs) ++ repeat 7 20
  ++ le_bytes 2 (f_start f1) ++ le_bytes 2 (f_start f2) ++ le_bytes 4 (f_off f1) ++ le_bytes 4 (f_off f2)
  ++ le_bytes 4 3 ++ le_bytes 4 0 ++ le_bytes 4 0 ++ le_bytes 4 14 ++ le_bytes 4 17
  ++ le_bytes 4 14 ++ le_bytes 4 21 ++ repeat 0 24 ++ ex_strs ++ repeat 0 2 ++ body.
Definition gfile2 (base : N) (f1 f2 : fentry) : gfile :=
  GFile 2 base [f1; f2] [(0, 0); (14, 17); (14, 21)] ex_strs 112.

(** Nested functions: an address in the outer function behind the inner one
    is reported as unknown. *)
Theorem C16_nested_refuted :
  exists data d addr f, is_gsym data d /\ sorted_funcs d /\ no_wrap d /\
    In f (gf_funcs d) /\ gf_base d + f_start f <= addr < gf_base d + f_start f + f_size f /\
    forall m, gsym_lookup m 0 data addr Basic = Ok (inr UnknownAddr).
Proof.
  pose (f1 := FEntry 0 64 1 144 []). pose (f2 := FEntry 16 8 6 156 []).
  exists (file2 4096 f1 f2 (le_bytes 4 64 ++ le_bytes 4 1 ++ le_bytes 4 0 ++ le_bytes 4 8 ++ le_bytes 4 6 ++ le_bytes 4 0)),
    (gfile2 4096 f1 f2), 4136, f1.
  split.
  { gsym_layout 20 52.
    repeat (constructor; [exists (le_bytes 4 0); split; [constructor|]; apply take_at_holds; vm_compute; reflexivity|]).
    constructor. }
  split; [repeat constructor|]. split; [repeat constructor|]. split; [now left|].
  split; [split; vm_compute; [discriminate|reflexivity]|]. intros []; vm_compute; reflexivity.
Qed.

(** With overflow checks, a file can make a lookup panic. *)
Theorem C17_overflow_refuted :
  exists data d addr, is_gsym data d /\ sorted_funcs d /\
    gsym_lookup Checked 0 data addr Basic = Panic.
Proof.
  pose (f1 := FEntry 0 8 1 144 []). pose (f2 := FEntry 16 64 6 156 []).
  exists (file2 (2 ^ 64 - 32) f1 f2
    (le_bytes 4 8 ++ le_bytes 4 1 ++ le_bytes 4 0 ++ le_bytes 4 64 ++ le_bytes 4 6 ++ le_bytes 4 0)),
    (gfile2 (2 ^ 64 - 32) f1 f2), (2 ^ 64 - 10).
  split.
  { gsym_layout 20 52.
    repeat (constructor; [exists (le_bytes 4 0); split; [constructor|]; apply take_at_holds; vm_compute; reflexivity|]).
    constructor. }
  split; [repeat constructor|]. vm_compute. reflexivity.
Qed.

(** State changes after the last row leak into the answer: here the only row
    is a.c:10, reported is line 30. *)
Theorem C18_trailing_refuted :
  exists data d addr f h ops r ci, is_gsym data d /\ sorted_funcs d /\ no_wrap d /\
    nearest d addr f /\ covers d addr f /\ f_infos f = [LineInfo h ops] /\
    table_rows h (gf_base d + f_start f) ops = [r] /\ ls_addr r <= addr /\
    loc_at d (ls_file r) (Z.to_N (ls_line r)) ci /\ ci_line ci = Some 10 /\
    exists sym ci', gsym_lookup Wrapping 0 data addr WithCode = Ok (inl sym) /\
      rs_code_info sym = Some ci' /\ ci_line ci' = Some 30.
Proof.
  pose (h := LHeader 0 3 10). pose (ops := [OpAddr 0; OpLine 20]).
  pose (line := [0] ++ [3] ++ [10] ++ ([2; 0] ++ [3; 20] ++ []) ++ []).
  pose (f1 := FEntry 0 64 1 144 [LineInfo h ops]). pose (f2 := FEntry 128 8 6 172 []).
  exists (file2 4096 f1 f2 (le_bytes 4 64 ++ le_bytes 4 1 ++
     (le_bytes 4 1 ++ le_bytes 4 (nlen line) ++ line) ++ le_bytes 4 0 ++ [0] ++
     le_bytes 4 8 ++ le_bytes 4 6 ++ le_bytes 4 0)),
    (gfile2 4096 f1 f2), 4100, f1, h, ops, (LState 4096 1 10), (at_line [47;115] [97;46;99] 10).
  split.
  { gsym_layout 20 52. constructor; [|constructor; [|constructor]].
    - exists ((le_bytes 4 1 ++ le_bytes 4 (nlen line) ++ line) ++ le_bytes 4 0). split.
      + apply EncI; [|constructor]. apply EncLineI; [|reflexivity].
        exists [0], [3], [10], ([2; 0] ++ [3; 20] ++ []), [].
        split; [apply (is_sleb1 0); lia|]. split; [apply (is_sleb1 3); lia|]. split; [u1|].
        split; [|split; [now left|reflexivity]]. repeat apply EncCons.
        * apply (EncAddr 0 [0]). u1.
        * apply (EncLine 20 [20]). apply (is_sleb1 20). lia.
        * constructor.
      + apply take_at_holds. vm_compute. reflexivity.
    - exists (le_bytes 4 0). split; [constructor|]. apply take_at_holds. vm_compute. reflexivity. }
  split; [repeat constructor|]. split; [repeat constructor|].
  split.
  { split; [now left|]. split; [vm_compute; discriminate|]. intros f [<-|[<-|[]]] H; [reflexivity|].
    exfalso. vm_compute in H. now apply H. }
  split; [split; [vm_compute; discriminate|right; reflexivity]|]. split; [reflexivity|].
  split; [reflexivity|]. split; [vm_compute; discriminate|].
  split.
  { exists 14, 17, [47;115], [97;46;99]. split; [reflexivity|]. split; [now apply ex_str_at|].
    split; [now apply ex_str_at|reflexivity]. }
  split; [reflexivity|].
  exists (ResolvedSym [109;97;105;110] None 4096 (Some 64) LangUnknown (Some (at_line [47;115] [97;46;99] 30)) []).
  exists (at_line [47;115] [97;46;99] 30). split; [vm_compute; reflexivity|]. split; reflexivity.
Qed.

(** The shape shared by the next two: a function whose only record is an
    inline tree, or a line table and an inline tree. *)
Definition tree_body (t : list N) : list N :=
  le_bytes 4 2 ++ le_bytes 4 (nlen (t ++ [])) ++ t ++ [].
Definition inner_bytes (name : N) : list N :=
  [1] ++ [0; 32] ++ [1] ++ le_bytes 4 name ++ [0] ++ [0]
  ++ (([1] ++ [8; 8] ++ [0] ++ le_bytes 4 6 ++ [1] ++ [11]) ++ [0]).
Definition inner_tree (name : N) : itree :=
  INode [(0, 32)] name 0 0 (ICons (INode [(8, 8)] 6 1 11 INil) INil).
Lemma inner_enc : forall name, name < 2 ^ 32 -> enc_tree (inner_tree name) (inner_bytes name).
Proof.
  intros name H.
  apply (EncInner [(0, 32)] name 0 0 _ [1] [0; 32] 1 [0] [0]); try easy; try u1; [ranges|].
  apply EncFCons; [|apply EncFNil; u1].
  apply (EncLeaf [(8, 8)] 6 1 11 [1] [8; 8] [1] [11]); try easy; try u1. ranges.
Qed.

(** Inlined calls are dropped if the address has no line information. *)
Theorem C19_no_line_refuted :
  exists data d addr f t, is_gsym data d /\ sorted_funcs d /\ no_wrap d /\
    nearest d addr f /\ covers d addr f /\ f_infos f = [InlineInfo t] /\
    tree_chain (gf_base d + f_start f) addr t = [Call 1 0 0; Call 6 1 11] /\
    exists sym, gsym_lookup Wrapping 0 data addr WithInlined = Ok (inl sym) /\ rs_inlined sym = [].
Proof.
  pose (f1 := FEntry 0 32 1 144 [InlineInfo (inner_tree 1)]). pose (f2 := FEntry 128 8 6 185 []).
  exists (file2 4096 f1 f2 (le_bytes 4 32 ++ le_bytes 4 1 ++ tree_body (inner_bytes 1) ++ le_bytes 4 0 ++
     le_bytes 4 8 ++ le_bytes 4 6 ++ le_bytes 4 0)),
    (gfile2 4096 f1 f2), 4107, f1, (inner_tree 1).
  split.
  { gsym_layout 20 52. constructor; [|constructor; [|constructor]].
    - exists (tree_body (inner_bytes 1) ++ le_bytes 4 0). split.
      + apply EncI; [|constructor]. apply EncInlineI; [now apply inner_enc|reflexivity].
      + apply take_at_holds. vm_compute. reflexivity.
    - exists (le_bytes 4 0). split; [constructor|]. apply take_at_holds. vm_compute. reflexivity. }
  split; [repeat constructor|]. split; [repeat constructor|].
  split.
  { split; [now left|]. split; [vm_compute; discriminate|]. intros f [<-|[<-|[]]] H; [reflexivity|].
    exfalso. vm_compute in H. now apply H. }
  split; [split; [vm_compute; discriminate|right; reflexivity]|]. split; [reflexivity|].
  split; [reflexivity|].
  exists (ResolvedSym [109;97;105;110] None 4096 (Some 32) LangUnknown None []).
  split; [vm_compute; reflexivity|]. reflexivity.
Qed.

(** If the function's own inline record carries no name, the inlined callee's
    name replaces the function's. *)
Theorem C19_unnamed_root_refuted :
  exists data d addr f name t, is_gsym data d /\ sorted_funcs d /\ no_wrap d /\
    nearest d addr f /\ covers d addr f /\ name_at d (f_name f) name /\
    Forall (info_ok (gf_base d + f_start f)) (f_infos f) /\
    In (InlineInfo t) (f_infos f) /\
    tree_chain (gf_base d + f_start f) addr t = [Call 6 1 11] /\
    exists sym, gsym_lookup Wrapping 0 data addr WithInlined = Ok (inl sym) /\
      rs_name sym <> name /\ rs_inlined sym = [].
Proof.
  pose (h := LHeader 0 3 10). pose (ops := [OpAddr 0]).
  pose (line := [0] ++ [3] ++ [10] ++ ([2; 0] ++ []) ++ []).
  pose (f1 := FEntry 0 32 1 144 [LineInfo h ops; InlineInfo (inner_tree 0)]). pose (f2 := FEntry 128 8 6 198 []).
  exists (file2 4096 f1 f2 (le_bytes 4 32 ++ le_bytes 4 1 ++
     (le_bytes 4 1 ++ le_bytes 4 (nlen line) ++ line) ++ tree_body (inner_bytes 0) ++ le_bytes 4 0 ++
     le_bytes 4 8 ++ le_bytes 4 6 ++ le_bytes 4 0)),
    (gfile2 4096 f1 f2), 4107, f1, [109;97;105;110], (inner_tree 0).
  split.
  { gsym_layout 20 52. constructor; [|constructor; [|constructor]].
    - exists ((le_bytes 4 1 ++ le_bytes 4 (nlen line) ++ line) ++ tree_body (inner_bytes 0) ++ le_bytes 4 0). split.
      + apply EncI; [|apply EncI; [|constructor]].
        * apply EncLineI; [|reflexivity].
          exists [0], [3], [10], ([2; 0] ++ []), [].
          split; [apply (is_sleb1 0); lia|]. split; [apply (is_sleb1 3); lia|]. split; [u1|].
          split; [|split; [now left|reflexivity]]. apply EncCons; [|constructor].
          apply (EncAddr 0 [0]). u1.
        * apply EncInlineI; [now apply inner_enc|reflexivity].
      + apply take_at_holds. vm_compute. reflexivity.
    - exists (le_bytes 4 0). split; [constructor|]. apply take_at_holds. vm_compute. reflexivity. }
  split; [repeat constructor|]. split; [repeat constructor|].
  split.
  { split; [now left|]. split; [vm_compute; discriminate|]. intros f [<-|[<-|[]]] H; [reflexivity|].
    exfalso. vm_compute in H. now apply H. }
  split; [split; [vm_compute; discriminate|right; reflexivity]|]. split; [now apply ex_name_at|].
  split.
  { constructor; [|constructor; [|constructor]].
    - split; [vm_compute; repeat split; discriminate|].
      split; [cbn; repeat split; try lia; reflexivity|].
      split; [right; exists [], (OpAddr 0); split; reflexivity|]. repeat constructor.
    - cbn. repeat constructor. }
  split; [now right; left|]. split; [reflexivity|].
  exists (ResolvedSym [102;111;111] None 4096 (Some 32) LangUnknown (Some (at_line [47;115] [97;46;99] 10)) []).
  split; [vm_compute; reflexivity|]. split; [discriminate|reflexivity].
Qed.

Print Assumptions C16_found.
Print Assumptions C16_unknown.
Print Assumptions C16_disjoint_found.
Print Assumptions C16_sound.
Print Assumptions C16_misaligned_refuted.
Print Assumptions C16_nested_refuted.
Print Assumptions C17_total.
Print Assumptions C17_terminates.
Print Assumptions C17_overflow_refuted.
Print Assumptions C18_line.
Print Assumptions C18_no_row.
Print Assumptions C18_trailing_refuted.
Print Assumptions C19_chain.
Print Assumptions C19_no_chain.
Print Assumptions C19_no_line_refuted.
Print Assumptions C19_unnamed_root_refuted.
