(** * The offset of the kernel

    Claim C36 of /verif/properties.jsonl. *)

From Coq Require Import String.
From Verif Require Import Base Lists Util UtilProofs PropUtil Total Bytes Nom Num Maps MapsProofs Inspect Elf ElfSpec ElfFormat ElfTotal
  BuildIdSpec PropBuildId ModSpec Ksym PropKsym Kaslr KaslrSpec.
Local Close Scope string_scope.
Local Open Scope N_scope.

(** ** Lines *)
Lemma split_cons_nonnil : forall p t, split p t <> [].
Proof.
  intros p [|b t]; [discriminate|]. cbn [split]. destruct (p b); [discriminate|]. destruct (split p t); discriminate.
Qed.
Lemma split_sep : forall p x s y, p s = true -> split p (x ++ s :: y) = split p x ++ split p y.
Proof.
  intros p x s y Hs. induction x as [|b x IH]; cbn [app split]; [now rewrite Hs|].
  rewrite IH. destruct (p b); [reflexivity|]. pose proof (split_cons_nonnil p x).
  destruct (split p x); [congruence|reflexivity].
Qed.
Lemma split_parts : forall p t x0 xs, split p t = x0 :: xs ->
  (exists y, t = x0 ++ y) /\ forall l, In l xs -> exists k s y, t = k ++ s :: l ++ y /\ p s = true.
Proof.
  intros p. induction t as [|b t IH]; intros x0 xs H; cbn [split] in H.
  - injection H as <- <-. split; [exists []; reflexivity|intros l []].
  - destruct (p b) eqn:Eb.
    + injection H as <- <-. split; [exists (b :: t); reflexivity|]. intros l Hl.
      destruct (split p t) as [|z zs] eqn:E; [destruct Hl|]. specialize (IH z zs eq_refl). destruct IH as [(y & Hy) IH].
      destruct Hl as [->|Hl]; [exists [], b, y; split; [now rewrite Hy at 1|exact Eb]|].
      destruct (IH l Hl) as (k & s & y' & -> & Hs). exists (b :: k), s, y'. auto.
    + destruct (split p t) as [|z zs] eqn:E.
      * exfalso. eapply split_cons_nonnil; eauto.
      * injection H as <- <-. destruct (IH z zs eq_refl) as [(y & Hy) IH']. split; [exists y; cbn [app]; congruence|].
        intros l Hl. destruct (IH' l Hl) as (k & s & y' & -> & Hs). exists (b :: k), s, y'. auto.
Qed.
Local Notation islf := (fun b => b =? 10).
Local Notation key_of := (split_once (fun b => b =? 61)).
Local Notation is_key := (fun kv : list N * list N => beq (fst kv) (bs "KERNELOFFSET"%string)).
Lemma split_unstated : forall t l v, unstated t -> In l (split islf t) -> l <> key ++ v.
Proof.
  intros t l v Hu Hl ->. destruct (split islf t) as [|x0 xs] eqn:E; [destruct Hl|].
  apply split_parts in E. destruct E as [(y & Hy) Hxs]. destruct Hl as [->|Hl].
  - apply (Hu [] (v ++ y)); [rewrite Hy at 1; now rewrite <- app_assoc|now left].
  - destruct (Hxs _ Hl) as (k & s & y' & Hy' & Hs). apply N.eqb_eq in Hs. subst s.
    apply (Hu (k ++ [10]) (v ++ y')); [rewrite Hy' at 1; now rewrite <- !app_assoc|right; eauto].
Qed.
Lemma key_line : forall l k v, key_of l = Some (k, v) -> is_key (k, v) = true -> l = key ++ v.
Proof.
  intros l k v H Hk. apply split_once_some in H. destruct H as (s & -> & Hs & _).
  cbn [fst] in Hk. apply beq_eq in Hk. subst k. apply N.eqb_eq in Hs. now subst s.
Qed.
Lemma find_none_app : forall ls rest, (forall l v, In l ls -> l <> key ++ v) ->
  find is_key (filter_map key_of (ls ++ rest)) = find is_key (filter_map key_of rest).
Proof.
  induction ls as [|l ls IH]; intros rest H; [reflexivity|]. cbn [app filter_map].
  assert (IH' : find is_key (filter_map key_of (ls ++ rest)) = find is_key (filter_map key_of rest)).
  { apply IH. intros z v Hz. apply H. now right. }
  destruct (key_of l) as [[k v]|] eqn:E; [|exact IH']. cbn [find].
  destruct (is_key (k, v)) eqn:Ek; [|exact IH']. exfalso. apply (H l v); [now left|]. now apply key_line with k.
Qed.
Lemma desc_unstated : forall m t, unstated t -> desc_offset m t = Ok None.
Proof.
  intros m t H. unfold desc_offset, parse_vmcoreinfo_desc.
  rewrite <- (app_nil_r (split islf t)), find_none_app; [reflexivity|]. intros l v Hl. now apply split_unstated with t.
Qed.
Lemma desc_states : forall m t value, states t value ->
  desc_offset m t = let* v := ok_or EInvalidData (from_radix_16 m value) in Ok (Some v).
Proof.
  intros m t value (before & after & -> & Hb & Ha & Hu & Hv). unfold desc_offset, parse_vmcoreinfo_desc.
  assert (Hkv : Forall (fun c => islf c = false) (key ++ value)).
  { apply Forall_app. split; [repeat constructor|]. eapply Forall_impl; [|exact Hv]. intros c Hc. now apply N.eqb_neq. }
  assert (Hrest : exists more, split islf (key ++ value ++ after) = (key ++ value) :: more).
  { rewrite app_assoc. destruct Ha as [->|(k & ->)]; [rewrite app_nil_r, split_last by exact Hkv; eauto|].
    rewrite split_app by first [exact Hkv | reflexivity]. eauto. }
  destruct Hrest as (more & Hrest).
  assert (Hpre : exists ls, split islf (before ++ key ++ value ++ after) = ls ++ (key ++ value) :: more /\
    forall l v, In l ls -> l <> key ++ v).
  { destruct Hb as [->|(k & ->)]; [exists []; split; [exact Hrest|intros l v []]|].
    exists (split islf k). rewrite <- app_assoc. cbn [app]. rewrite split_sep by reflexivity. split; [now rewrite Hrest|].
    intros l v Hl. apply split_unstated with (k ++ [10]); [exact Hu|].
    rewrite (split_sep islf k 10 []) by reflexivity. apply in_app_iff. now left. }
  destruct Hpre as (ls & -> & Hls). rewrite find_none_app by exact Hls. cbn [filter_map].
  change (key ++ value) with (bs "KERNELOFFSET"%string ++ 61 :: value).
  rewrite split_once_app by first [reflexivity | now repeat constructor]. reflexivity.
Qed.

(** ** Reading from files *)
Lemma at_drop : forall data off d, at_ data off d -> exists after, ndrop off data = d ++ after.
Proof. intros data off d (before & after & -> & <-). exists after. now apply ndrop_app_exact. Qed.
Lemma fio_obj_at : forall data off d size al, nlen data < 2 ^ 63 -> at_ data off d -> nlen d = size -> 0 < size ->
  read_pod_obj (FileIo data) size al off = Ok d.
Proof.
  intros data off d size al Hd H Hs Hp. pose proof (at_le _ _ _ H). unfold read_pod_obj.
  destruct (N.leb_spec (2 ^ 63) off); [lia|]. destruct (at_drop _ _ _ H) as (after & ->).
  now rewrite read_slice_app.
Qed.
Lemma fio_bytes_at : forall data off d, nlen data < 2 ^ 63 -> at_ data off d ->
  read_bytes (FileIo data) off (nlen d) = Ok d.
Proof.
  intros data off d Hd H. pose proof (at_le _ _ _ H). unfold read_bytes.
  destruct (N.leb_spec (2 ^ 63) off); [lia|]. destruct (N.leb_spec (2 ^ 63) (nlen d)); [lia|].
  destruct (at_drop _ _ _ H) as (after & ->). now rewrite read_slice_app.
Qed.
Lemma fio_slice_at : forall A (enc : A -> list N) size al data off l,
  nlen data < 2 ^ 63 -> 0 < size -> (forall x, In x l -> nlen (enc x) = size) -> at_ data off (flat_map enc l) ->
  read_pod_slice (FileIo data) size al off (nlen l) = Ok (map enc l).
Proof.
  intros A enc size al data off l Hd Hs Hx H. pose proof (at_le _ _ _ H) as Hle.
  assert (E : nlen (flat_map enc l) = size * nlen l).
  { rewrite (GsymFormat.nlen_flat _ _ size) by auto. lia. }
  unfold read_pod_slice. destruct (N.leb_spec (2 ^ 63) off); [lia|].
  destruct (N.leb_spec (2 ^ 63) (size * nlen l)); [lia|].
  destruct (at_drop _ _ _ H) as (after & ->). rewrite read_slice_app by exact E. cbn [ok_or bind].
  now rewrite GsymFormat.chunks_flat.
Qed.
Lemma at_room : forall data off n, off + n <= nlen data -> exists d, at_ data off d /\ nlen d = n.
Proof.
  intros data off n H. exists (ntake n (ndrop off data)). split.
  - exists (ntake off data), (ndrop n (ndrop off data)). split.
    + now rewrite !ntake_ndrop.
    + rewrite nlen_ntake. lia.
  - rewrite nlen_ntake, nlen_ndrop. lia.
Qed.
Lemma core_phdrs : forall data phs, core_file data phs -> parse_phdrs (FileIo data) = Ok phs.
Proof.
  intros data phs (c & h & Hd & Hh & Hwh & Hn & Hlt & Hph & Hwf & Hsh).
  assert (He : exists n, parse_ehdr (FileIo data) = Ok (EhdrExt (ehdr_of c h) n (nlen phs))).
  { unfold parse_ehdr.
    set (id := [127; 69; 76; 70; if c then 1 else 2] ++ h_ident h).
    assert (Hid : nlen id = 16) by (unfold id; rewrite nlen_app; destruct Hwh as [-> _]; reflexivity).
    assert (Hat : at_ data 0 id) by (unfold enc_file_header in Hh; rewrite app_assoc in Hh; apply at_app in Hh; apply Hh).
    rewrite <- Hid, (fio_bytes_at _ _ _ Hd Hat). cbn [bind].
    assert (Et : ntake 4 id = [127; 69; 76; 70]) by reflexivity.
    assert (En : nnth 4 id = Some (if c then 1 else 2)) by reflexivity.
    rewrite Et, En. change (beq [127; 69; 76; 70] [127; 69; 76; 70]) with true. cbn [negb unwrap bind].
    replace (((if c then 1 else 2) =? 1) || ((if c then 1 else 2) =? 2)) with true by (destruct c; reflexivity). cbn [negb].
    replace ((if c then 1 else 2) =? 1) with c by (destruct c; reflexivity).
    rewrite (fio_obj_at data 0 _ (ehdr_size c) (word_align c) Hd Hh); [|apply enc_ehdr_size; apply Hwh|destruct c; reflexivity].
    cbn [bind]. rewrite dec_enc_ehdr by exact Hwh. cbn [e_shnum e_phnum ehdr_of].
    assert (E1 : exists n, (if h_shnum h =? 0
       then (let* sh := read_first_shdr (FileIo data) (ehdr_of c h) in Ok (sh_size sh)) else Ok (h_shnum h)) = Ok n).
    { destruct (N.eqb_spec (h_shnum h) 0) as [E0|_]; [|eauto]. specialize (Hsh E0).
      unfold read_first_shdr. cbn [ehdr_of e_32 e_shoff].
      destruct (at_room data (h_shoff h) (shdr_size c)) as (d & Hdat & Hdl); [destruct c; exact Hsh|].
      rewrite (fio_obj_at _ _ _ _ _ Hd Hdat Hdl) by (destruct c; reflexivity). cbn [bind]. eauto. }
    destruct E1 as (n & ->). cbn [bind]. rewrite Hn.
    destruct (N.eqb_spec (nlen phs) PN_XNUM) as [E|_]; [unfold PN_XNUM in E; lia|]. cbn [bind]. eauto. }
  destruct He as (n & He). unfold parse_phdrs. rewrite He. cbn [bind x_ehdr x_phnum ehdr_of e_32 e_phoff].
  rewrite (fio_slice_at _ (enc_program_header c)); auto.
  - cbn [bind]. f_equal. rewrite map_map. rewrite <- (map_id phs) at 2.
    apply map_ext_in. intros s Hs. apply dec_enc_phdr. rewrite Forall_forall in Hwf. now apply Hwf.
  - destruct c; reflexivity.
  - intros. apply enc_phdr_size.
Qed.

(** ** Notes *)
Definition vmcoreinfo_b (n : note) : bool := beq (nt_name n) n_vmcoreinfo && (0 <? nlen (nt_desc n)).
Lemma vmcoreinfo_iff : forall n, vmcoreinfo_b n = true <-> vmcoreinfo n.
Proof.
  intros n. unfold vmcoreinfo_b, vmcoreinfo. rewrite andb_true_iff, N.ltb_lt, beq_eq. fold n_vmcoreinfo.
  destruct (nt_desc n) as [|c d]; [|rewrite nlen_cons]; intuition (try discriminate; try lia).
Qed.
Lemma note_len : forall n, nlen (enc_note n) = 12 + nlen (pad4 (nt_name n)) + nlen (pad4 (nt_desc n)).
Proof. intros n. unfold enc_note. rewrite !nlen_app, !le_bytes_nlen. lia. Qed.
Lemma kcore_step : forall m fuel data n off filesz, nlen data < 2 ^ 63 -> wf_note n -> at_ data off (enc_note n) ->
  off + 12 <= filesz ->
  kcore_notes (S fuel) m (FileIo data) off filesz =
  if vmcoreinfo_b n then (let* o := desc_offset m (nt_desc n) in Ok (Some o))
  else kcore_notes fuel m (FileIo data) (off + nlen (enc_note n)) filesz.
Proof.
  intros m fuel data n off filesz Hd (W1 & W2 & W3) Hat Hfs. cbn [kcore_notes].
  pose proof (at_le _ _ _ Hat) as Hle. pose proof (note_len n) as Hnl.
  unfold add64. rewrite uadd_small by (unfold two64; lia). cbn [bind].
  destruct (N.ltb_spec filesz (off + 12)); [lia|].
  set (hd := le_bytes 4 (nlen (nt_name n)) ++ le_bytes 4 (nlen (nt_desc n)) ++ le_bytes 4 (nt_type n) ++ []).
  assert (E : enc_note n = hd ++ pad4 (nt_name n) ++ pad4 (nt_desc n)).
  { unfold enc_note, hd. rewrite <- !app_assoc. reflexivity. }
  assert (Hhd : nlen hd = 12) by (unfold hd; rewrite !nlen_app, !le_bytes_nlen; reflexivity).
  assert (F1 : field 0 4 hd = nlen (nt_name n)) by (unfold hd; apply (field_here 4); cbn; lia).
  assert (F2 : field 4 4 hd = nlen (nt_desc n)) by (unfold hd; skip_field; apply (field_here 4); cbn; lia).
  rewrite E in Hat. apply at_app in Hat. destruct Hat as [Hat1 Hat]. rewrite Hhd in Hat.
  apply at_app in Hat. destruct Hat as [Hat2 Hat3].
  rewrite (fio_obj_at _ _ _ 12 4 Hd Hat1 Hhd) by reflexivity. cbn [bind].
  rewrite F1, F2.
  assert (Hpn : nlen (nt_name n) <= nlen (pad4 (nt_name n))) by (unfold pad4; rewrite nlen_app; lia).
  assert (Hpd : nlen (nt_desc n) <= nlen (pad4 (nt_desc n))) by (unfold pad4; rewrite nlen_app; lia).
  set (nm := if 0 <? nlen (nt_name n) then _ else _).
  assert (Enm : nm = Ok (if 0 <? nlen (nt_name n) then Some (nt_name n) else None, off + 12 + nlen (pad4 (nt_name n)))).
  { unfold nm. destruct (N.ltb_spec 0 (nlen (nt_name n))) as [Hp|Hz].
    - assert (Hat2' : at_ data (off + 12) (nt_name n)) by (unfold pad4 in Hat2; apply at_app in Hat2; apply Hat2).
      rewrite (fio_bytes_at _ _ _ Hd Hat2'). cbn [bind]. rewrite pad4_len by exact W1. cbn [bind].
      rewrite uadd_small by (unfold two64; lia). reflexivity.
    - assert (E0 : nt_name n = []) by (destruct (nt_name n); [reflexivity|rewrite nlen_cons in Hz; lia]).
      rewrite E0. change (nlen (pad4 [])) with 0. now rewrite N.add_0_r. }
  rewrite Enm. cbn [bind]. clear nm Enm.
  set (isv := match (if 0 <? nlen (nt_name n) then Some (nt_name n) else None) with Some name => beq name n_vmcoreinfo | None => false end).
  assert (Eisv : isv = beq (nt_name n) n_vmcoreinfo).
  { unfold isv. destruct (N.ltb_spec 0 (nlen (nt_name n))) as [Hp|Hz]; [reflexivity|].
    assert (E0 : nt_name n = []) by (destruct (nt_name n); [reflexivity|rewrite nlen_cons in Hz; lia]). now rewrite E0. }
  rewrite Eisv. fold (vmcoreinfo_b n). destruct (vmcoreinfo_b n).
  - assert (Hat3' : at_ data (off + 12 + nlen (pad4 (nt_name n))) (nt_desc n))
      by (unfold pad4 at 2 in Hat3; apply at_app in Hat3; apply Hat3).
    rewrite (fio_bytes_at _ _ _ Hd Hat3'). reflexivity.
  - rewrite pad4_len by exact W2. cbn [bind]. rewrite uadd_small by (unfold two64; lia). cbn [bind].
    f_equal. lia.
Qed.
Lemma kcore_end : forall m fuel b off filesz, off + 12 < two64 -> filesz < off + 12 -> kcore_notes (S fuel) m b off filesz = Ok None.
Proof.
  intros m fuel b off filesz H1 H2. cbn [kcore_notes]. unfold add64. rewrite uadd_small by exact H1. cbn [bind].
  destruct (N.ltb_spec filesz (off + 12)); [reflexivity|lia].
Qed.
(** The header of every note of [l] is inside of the bound. *)
Lemma kcore_skip : forall m data l fuel off filesz more, nlen data < 2 ^ 63 -> Forall wf_note l ->
  at_ data off (flat_map enc_note l ++ more) -> Forall (fun n => ~ vmcoreinfo n) l -> (List.length l <= fuel)%nat ->
  off + nlen (flat_map enc_note l) + 12 <= filesz ->
  kcore_notes fuel m (FileIo data) off filesz =
  kcore_notes (fuel - List.length l) m (FileIo data) (off + nlen (flat_map enc_note l)) filesz.
Proof.
  intros m data. induction l as [|n l IH]; intros fuel off filesz more Hd Hw Hat Hv Hf Hfs.
  - cbn [flat_map List.length]. rewrite Nat.sub_0_r. f_equal. now rewrite N.add_0_r.
  - inversion Hw as [|? ? Hw1 Hw2]; subst. inversion Hv as [|? ? Hv1 Hv2]; subst.
    cbn [flat_map List.length] in *. destruct fuel as [|fuel]; [lia|]. rewrite <- app_assoc in Hat.
    apply at_app in Hat. destruct Hat as [Hat1 Hat2]. rewrite nlen_app in Hfs.
    rewrite (kcore_step m fuel data n off filesz Hd Hw1 Hat1) by lia.
    destruct (vmcoreinfo_b n) eqn:E; [apply vmcoreinfo_iff in E; contradiction|].
    rewrite (IH fuel (off + nlen (enc_note n)) filesz more) by (auto; lia).
    cbn [Nat.sub]. f_equal. rewrite nlen_app. lia.
Qed.
Lemma kcore_none : forall m data l fuel off filesz, nlen data < 2 ^ 63 -> Forall wf_note l ->
  at_ data off (flat_map enc_note l) -> Forall (fun n => ~ vmcoreinfo n) l -> (List.length l < fuel)%nat ->
  filesz < off + nlen (flat_map enc_note l) + 12 ->
  kcore_notes fuel m (FileIo data) off filesz = Ok None.
Proof.
  intros m data. induction l as [|n l IH]; intros fuel off filesz Hd Hw Hat Hv Hf Hfs;
    (destruct fuel as [|fuel]; [cbn [List.length] in Hf; lia|]); pose proof (at_le _ _ _ Hat) as Hle.
  - apply kcore_end; cbn [flat_map] in *; change (nlen []) with 0 in *; unfold two64; lia.
  - inversion Hw as [|? ? Hw1 Hw2]; subst. inversion Hv as [|? ? Hv1 Hv2]; subst.
    cbn [flat_map List.length] in *. apply at_app in Hat. destruct Hat as [Hat1 Hat2]. rewrite nlen_app in *.
    destruct (N.lt_ge_cases filesz (off + 12)) as [Hlt|Hge]; [apply kcore_end; unfold two64; lia|].
    rewrite (kcore_step m fuel data n off filesz Hd Hw1 Hat1 Hge).
    destruct (vmcoreinfo_b n) eqn:E; [apply vmcoreinfo_iff in E; contradiction|].
    apply IH; auto; lia.
Qed.
Lemma notes_count : forall l, N.of_nat (List.length l) * 12 <= nlen (flat_map enc_note l).
Proof.
  induction l as [|n l IH]; [cbn; lia|]. cbn [flat_map List.length]. rewrite nlen_app, note_len. lia.
Qed.
Lemma segments_skip : forall m data a la rest, nlen data < 2 ^ 63 -> Forall2 (segment_notes data) a la ->
  Forall (Forall (fun n => ~ vmcoreinfo n)) la ->
  kcore_segments (S (List.length data)) m (FileIo data) (a ++ rest) =
  kcore_segments (S (List.length data)) m (FileIo data) rest.
Proof.
  intros m data a la rest Hd H. induction H as [|p l a la Hp H IH]; intros Hv; [reflexivity|].
  inversion Hv as [|? ? Hv1 Hv2]; subst. cbn [app kcore_segments]. unfold PT_NOTE.
  destruct Hp as [(Ht & Hat & Hl & Hw)|(Ht & ->)].
  - rewrite Ht. change (negb (4 =? 4)) with false. cbv iota.
    rewrite (kcore_none m data l); auto.
    + pose proof (at_le _ _ _ Hat). pose proof (notes_count l). unfold nlen in *. lia.
    + lia.
  - destruct (N.eqb_spec (p_type p) 4); [contradiction|]. cbn [negb]. auto.
Qed.

(** ** The claims *)
Lemma read_kcore_found : forall m data a la p l1 n l2 b, core_file data (a ++ p :: b) ->
  Forall2 (segment_notes data) a la -> Forall (Forall (fun n => ~ vmcoreinfo n)) la ->
  p_type p = 4 -> segment_notes data p (l1 ++ n :: l2) -> Forall (fun n => ~ vmcoreinfo n) l1 -> vmcoreinfo n ->
  p_offset p + nlen (flat_map enc_note l1) + 12 <= p_filesz p ->
  read_kcore_kaslr_offset m data = desc_offset m (nt_desc n).
Proof.
  intros m data a la p l1 n l2 b Hc Ha Hla Ht Hp Hl1 Hn Hfs. unfold read_kcore_kaslr_offset.
  rewrite (core_phdrs _ _ Hc). cbn [bind]. destruct Hc as (c & h & Hd & _).
  rewrite (segments_skip m data a la) by auto. cbn [kcore_segments]. unfold PT_NOTE. rewrite Ht.
  change (negb (4 =? 4)) with false. cbv iota.
  destruct Hp as [(_ & Hat & Hl & Hw)|(Hne & _)]; [|contradiction].
  rewrite flat_map_app in Hat. cbn [flat_map] in Hat. apply Forall_app in Hw. destruct Hw as [Hw1 Hw2].
  inversion Hw2 as [|? ? Hw3 _]; subst.
  pose proof (at_le _ _ _ Hat) as Hle. pose proof (notes_count l1) as Hcnt. rewrite !nlen_app, note_len in Hle.
  rewrite (kcore_skip m data l1 _ (p_offset p) (p_filesz p) (enc_note n ++ flat_map enc_note l2)); auto; [|unfold nlen in *; lia].
  set (k := (S (List.length data) - List.length l1)%nat).
  assert (Hk : k = S (k - 1)) by (unfold k, nlen in *; lia). rewrite Hk.
  apply at_app in Hat. destruct Hat as [_ Hat]. apply at_app in Hat. destruct Hat as [Hat _].
  rewrite (kcore_step m _ data n) by auto.
  apply vmcoreinfo_iff in Hn. rewrite Hn. destruct (desc_offset m (nt_desc n)); reflexivity.
Qed.

(** The offset stated in the first VMCOREINFO note is reported, if the position
    of the note in the file is inside of what is the size of the segment; what
    the symbol sources say does not matter. *)
Theorem C36_kcore_partial : forall m data a la p l1 n l2 b ksym vmlinux value v, core_file data (a ++ p :: b) ->
  Forall2 (segment_notes data) a la -> Forall (Forall (fun n => ~ vmcoreinfo n)) la ->
  p_type p = 4 -> segment_notes data p (l1 ++ n :: l2) -> Forall (fun n => ~ vmcoreinfo n) l1 -> vmcoreinfo n ->
  p_offset p + nlen (flat_map enc_note l1) + 12 <= p_filesz p ->
  states (nt_desc n) value -> hex value v ->
  find_kaslr_offset m (Ok data) ksym vmlinux = Ok (Some v).
Proof.
  intros m data a la p l1 n l2 b ksym vmlinux value v Hc Ha Hla Ht Hp Hl1 Hn Hfs Hst (ds & Hds & Hlen & ->).
  unfold find_kaslr_offset, find_kcore_kaslr_offset.
  rewrite (read_kcore_found m data a la p l1 n l2 b) by auto. rewrite (desc_states m _ _ Hst).
  rewrite (C05_hex_value m value ds Hds Hlen). reflexivity.
Qed.
Print Assumptions C36_kcore_partial.

(** Nothing is reported if no note states an offset. *)
Theorem C36_unstated : forall m data phs ls ksym vmlinux, core_file data phs -> Forall2 (segment_notes data) phs ls ->
  Forall (Forall (fun n => ~ vmcoreinfo n)) ls ->
  find_kaslr_offset m (Ok data) ksym vmlinux = Ok None.
Proof.
  intros m data phs ls ksym vmlinux Hc H Hv. unfold find_kaslr_offset, find_kcore_kaslr_offset, read_kcore_kaslr_offset.
  rewrite (core_phdrs _ _ Hc). cbn [bind]. destruct Hc as (c & h & Hd & _).
  rewrite <- (app_nil_r phs). rewrite (segments_skip m data phs ls) by auto. reflexivity.
Qed.
Print Assumptions C36_unstated.
Theorem C36_other_lines_partial : forall m data a la p l1 n l2 b ksym vmlinux, core_file data (a ++ p :: b) ->
  Forall2 (segment_notes data) a la -> Forall (Forall (fun n => ~ vmcoreinfo n)) la ->
  p_type p = 4 -> segment_notes data p (l1 ++ n :: l2) -> Forall (fun n => ~ vmcoreinfo n) l1 -> vmcoreinfo n ->
  p_offset p + nlen (flat_map enc_note l1) + 12 <= p_filesz p ->
  unstated (nt_desc n) ->
  find_kaslr_offset m (Ok data) ksym vmlinux = Ok None.
Proof.
  intros m data a la p l1 n l2 b ksym vmlinux Hc Ha Hla Ht Hp Hl1 Hn Hfs Hst.
  unfold find_kaslr_offset, find_kcore_kaslr_offset.
  rewrite (read_kcore_found m data a la p l1 n l2 b) by auto. now rewrite (desc_unstated m _ Hst).
Qed.
Print Assumptions C36_other_lines_partial.

(** Without permission to read the core file, the offset is the difference
    between the addresses of [_stext]. *)
Lemma inspect_first : forall r name l a, r name = Ok l -> first_named l name a -> inspect_sym_addr r name = Ok (Some a).
Proof.
  intros r name l a Hr (x & s & y & -> & Hn & <- & Hx). unfold inspect_sym_addr. rewrite Hr. cbn [bind]. f_equal.
  clear Hr. induction Hx as [|z x Hz Hx IH]; cbn [app find].
  - rewrite (proj2 (beq_eq _ _) Hn). reflexivity.
  - destruct (beq (si_name z) name) eqn:E; [apply beq_eq in E; contradiction|]. exact IH.
Qed.
Lemma inspect_none : forall r name l, r name = Ok l -> none_named l name -> inspect_sym_addr r name = Ok None.
Proof.
  intros r name l Hr Hx. unfold inspect_sym_addr. rewrite Hr. cbn [bind]. f_equal.
  clear Hr. induction Hx as [|z x Hz Hx IH]; cbn [find]; [reflexivity|].
  destruct (beq (si_name z) name) eqn:E; [apply beq_eq in E; contradiction|]. exact IH.
Qed.
Theorem C36_stext : forall m ksym vmlinux lk lv a b, ksym n_stext = Ok lk -> vmlinux n_stext = Ok lv ->
  first_named lk (bs "_stext"%string) a -> first_named lv (bs "_stext"%string) b ->
  (b <= a -> find_kaslr_offset m (Err EPermissionDenied) (Some ksym) (Some vmlinux) = Ok (Some (a - b))) /\
  (a < b -> find_kaslr_offset m (Err EPermissionDenied) (Some ksym) (Some vmlinux) = Ok None).
Proof.
  intros m ksym vmlinux lk lv a b Hk Hv Ha Hb.
  unfold find_kaslr_offset, find_kcore_kaslr_offset, find_stext_kaslr_offset.
  rewrite (inspect_first ksym n_stext lk a Hk Ha), (inspect_first vmlinux n_stext lv b Hv Hb). cbn [bind].
  split; intros H; destruct (N.leb_spec b a); try lia; reflexivity.
Qed.
Print Assumptions C36_stext.
Theorem C36_no_stext : forall m ksym vmlinux lk lv, ksym n_stext = Ok lk -> vmlinux n_stext = Ok lv ->
  none_named lk (bs "_stext"%string) \/ none_named lv (bs "_stext"%string) ->
  find_kaslr_offset m (Err EPermissionDenied) (Some ksym) (Some vmlinux) = Ok None.
Proof.
  intros m ksym vmlinux lk lv Hk Hv H.
  unfold find_kaslr_offset, find_kcore_kaslr_offset, find_stext_kaslr_offset.
  destruct H as [H|H].
  - rewrite (inspect_none ksym n_stext lk Hk H). cbn [bind]. unfold inspect_sym_addr. rewrite Hv. reflexivity.
  - rewrite (inspect_none vmlinux n_stext lv Hv H). unfold inspect_sym_addr. rewrite Hk. cbn [bind].
    destruct (option_map si_addr _); reflexivity.
Qed.
Print Assumptions C36_no_stext.

(** In a list of kernel symbols, it is the lowest address of the name. *)
Lemma filter_first : forall l name s rest, filter (fun i => beq (si_name i) name) l = s :: rest ->
  first_named l name (si_addr s).
Proof.
  induction l as [|z l IH]; intros name s rest H; [discriminate|]. cbn [filter] in H.
  destruct (beq (si_name z) name) eqn:E.
  - injection H as -> _. exists [], s, l. apply beq_eq in E. auto.
  - destruct (IH name s rest H) as (a & s' & b & -> & H1 & H2 & H3). exists (z :: a), s', b.
    split; [reflexivity|]. split; [exact H1|]. split; [exact H2|]. constructor; auto. intros En. rewrite En in E.
    now rewrite (proj2 (beq_eq name name) eq_refl) in E.
Qed.
Theorem C36_kallsyms : forall m es t ks vmlinux lv a b opts, kallsyms_text es t ->
  Forall (fun e => plain (ke_name e)) (visible es) -> ksym_load t = Ok ks -> fa_sym_type opts <> TVariable ->
  In (KEntry a (bs "_stext"%string)) (visible es) ->
  (forall a', In (KEntry a' (bs "_stext"%string)) (visible es) -> a <= a') ->
  vmlinux n_stext = Ok lv -> first_named lv (bs "_stext"%string) b -> b <= a ->
  find_kaslr_offset m (Err EPermissionDenied) (Some (fun name => Ok (ksym_find_addr ks name opts))) (Some vmlinux) = Ok (Some (a - b)).
Proof.
  intros m es t ks vmlinux lv a b opts Ht Hpl Hl Ho Hin Hlow Hv Hb Hab.
  refine (proj1 (C36_stext m _ vmlinux (ksym_find_addr ks n_stext opts) lv a b eq_refl Hv _ Hb) Hab).
  destruct (C33_by_name es t ks (bs "_stext"%string) opts Ht Hpl Hl Ho) as (Hperm & Hsort & _).
  fold n_stext in *. set (exact := filter _ _) in *.
  assert (Hm : forall e, In e (filter (fun e => beq (ke_name e) n_stext) (visible es)) <-> In e (map (fun i => KEntry (si_addr i) (si_name i)) exact)).
  { intros e. split; apply Permutation_in; [now apply Permutation_sym|exact Hperm]. }
  assert (Ha : In (KEntry a n_stext) (map (fun i => KEntry (si_addr i) (si_name i)) exact)).
  { apply Hm, filter_In. split; [exact Hin|]. now apply beq_eq. }
  destruct exact as [|s rest] eqn:E; [destruct Ha|].
  assert (Hsn : si_name s = n_stext).
  { assert (In s exact) by (rewrite E; now left). unfold exact in H. apply filter_In in H. destruct H as [_ H]. now apply beq_eq in H. }
  assert (Es : si_addr s = a).
  { apply N.le_antisymm.
    - apply in_map_iff in Ha. destruct Ha as (i & Ei & Hi). injection Ei as <- _.
      destruct Hi as [->|Hi]; [lia|]. apply StronglySorted_inv in Hsort. destruct Hsort as [_ Hs].
      rewrite Forall_forall in Hs. now apply Hs.
    - apply Hlow. assert (H : In (KEntry (si_addr s) (si_name s)) (filter (fun e => beq (ke_name e) n_stext) (visible es))).
      { apply Hm. now left. }
      apply filter_In in H. rewrite Hsn in H. apply H. }
  rewrite <- Es. now apply filter_first with rest.
Qed.
Print Assumptions C36_kallsyms.

(** Arbitrary core files are safe to read where arithmetic wraps around, and
    reading them ends. *)
Lemma total_fio_obj : forall m data size al off, total m (read_pod_obj (FileIo data) size al off).
Proof.
  intros m data size al off. unfold read_pod_obj. destruct (_ <=? _); [auto|].
  apply total_bind; [apply total_ok_or, total_read_slice|]. intros [d r] _. auto.
Qed.
Lemma total_fio_bytes : forall m data off count, count < 2 ^ 63 -> total m (read_bytes (FileIo data) off count).
Proof.
  intros m data off count H. unfold read_bytes. destruct (_ <=? _); [auto|].
  destruct (N.leb_spec (2 ^ 63) count); [lia|].
  apply total_bind; [apply total_ok_or, total_read_slice|]. intros [d r] _. auto.
Qed.
Lemma fio_obj_len : forall data size al off d, read_pod_obj (FileIo data) size al off = Ok d -> 0 < size ->
  off + size <= nlen data /\ nlen d = size.
Proof.
  intros data size al off d H Hs. unfold read_pod_obj in H. destruct (_ <=? _); [discriminate|].
  ib H x E. destruct x as [d' r]. injection H as ->. apply ok_or_ok_inv in E. apply read_slice_ok in E.
  destruct E as [E El]. assert (Hn : nlen (ndrop off data) = nlen d + nlen r) by (rewrite E; apply nlen_app).
  rewrite nlen_ndrop in Hn. lia.
Qed.
Lemma total_desc : forall m t, total m (desc_offset m t).
Proof.
  intros m t. unfold desc_offset. destruct (find _ _) as [[k v]|]; [|auto].
  apply total_bind; [apply total_ok_or|auto].
  assert (H : forall n, total m (from_radix_16_loop m n v)).
  { induction v as [|c v IH]; intros n; cbn [from_radix_16_loop]; [auto|].
    apply total_bind; [apply total_of_option|]. intros d _. apply total_bind; [apply total_umul|]. intros n1 _.
    apply total_bind; [apply total_uadd|]. intros n2 _. auto. }
  apply H.
Qed.
Lemma total_align_up : forall m w v a, total m (align_up m w v a).
Proof.
  intros. unfold align_up. apply total_bind; [apply total_usub|]. intros a1 _.
  apply total_bind; [apply total_uadd|]. auto.
Qed.
Lemma land_le : forall a b, N.land a b <= a.
Proof.
  intros a b. rewrite <- (N.lor_ldiff_and a b) at 2.
  assert (E : N.land (N.ldiff a b) (N.land a b) = 0).
  { apply N.bits_inj_0. intros i. rewrite !N.land_spec, N.ldiff_spec. destruct (N.testbit a i), (N.testbit b i); reflexivity. }
  rewrite <- (N.lxor_lor _ _ E), <- (N.add_nocarry_lxor _ _ E). lia.
Qed.
Lemma uadd_ok_lt : forall m w a b r, 0 < w -> uadd m w a b = Ok r -> r < w.
Proof.
  intros m w a b r Hw H. unfold uadd, wrap in H. destruct (N.ltb_spec (a + b) w); [now injection H as <-|].
  destruct m; [discriminate|]. injection H as <-. apply N.mod_lt. lia.
Qed.
Lemma align_up_lt : forall m v a r, align_up m two32 v a = Ok r -> r < two32.
Proof.
  intros m v a r H. unfold align_up in H. ib H a1 E1. ib H u E2. injection H as <-.
  apply uadd_ok_lt in E2; [|reflexivity]. pose proof (land_le u (two32 - 1 - a1)). lia.
Qed.
Lemma total_kcore_notes : forall m data filesz, is_bytes data -> forall fuel off,
  nlen data - off < N.of_nat fuel -> total m (kcore_notes fuel m (FileIo data) off filesz).
Proof.
  intros m data filesz Hb. induction fuel as [|fuel IH]; intros off Hf; [lia|]. cbn [kcore_notes].
  apply total_bind; [apply total_uadd|]. intros e _. destruct (filesz <? e); [auto|].
  apply total_bind; [apply total_fio_obj|]. intros d Hd.
  assert (Hoff : off < 2 ^ 63) by (unfold read_pod_obj in Hd; destruct (N.leb_spec (2 ^ 63) off); [discriminate|auto]).
  assert (Hdb : is_bytes d).
  { unfold read_pod_obj in Hd. destruct (_ <=? _); [discriminate|]. ib Hd x E. destruct x as [d' r]. injection Hd as ->.
    apply ok_or_ok_inv, read_slice_ok in E. destruct E as [E _]. pose proof (is_bytes_ndrop off data Hb) as H.
    rewrite E in H. apply Forall_app in H. apply H. }
  apply fio_obj_len in Hd; [|reflexivity]. destruct Hd as [Hd _].
  unfold add64. rewrite uadd_small by (unfold two64; lia). cbn [bind].
  pose proof (field_lt 0 4 d Hdb) as Hn. pose proof (field_lt 4 4 d Hdb) as Hs.
  set (namesz := field 0 4 d) in *. set (descsz := field 4 4 d) in *. change (256 ^ 4) with two32 in *.
  set (nm := if 0 <? namesz then _ else _).
  assert (Hnm : total m nm /\ forall name off', nm = Ok (name, off') -> off + 12 <= off' < off + 12 + two32).
  { unfold nm. destruct (0 <? namesz); [|split; [auto|intros name off' H; injection H as _ <-; unfold two32; lia]].
    split.
    - apply total_bind; [apply total_fio_bytes; unfold two32 in *; lia|]. intros name _.
      apply total_bind; [apply total_align_up|]. intros n _. apply total_bind; [apply total_uadd|]. auto.
    - intros name off' H. ib H nmx E1. ib H n E2. apply align_up_lt in E2.
      rewrite uadd_small in H by (unfold two64, two32 in *; lia). cbn [bind] in H. injection H as _ <-. lia. }
  destruct Hnm as [Hnt Hno]. apply total_bind; [exact Hnt|]. intros [name off'] Hnm'. specialize (Hno _ _ Hnm').
  destruct (_ && _).
  - apply total_bind; [apply total_fio_bytes; unfold two32 in *; lia|]. intros desc _.
    apply total_bind; [apply total_desc|]. auto.
  - apply total_bind; [apply total_align_up|]. intros n Hn'. apply align_up_lt in Hn'.
    rewrite uadd_small by (unfold two64, two32 in *; lia). cbn [bind]. apply IH. lia.
Qed.
Lemma total_fio_phdrs : forall m data, is_bytes data -> total m (parse_phdrs (FileIo data)).
Proof.
  intros m data Hb.
  assert (Hobj : forall size al off d, read_pod_obj (FileIo data) size al off = Ok d -> is_bytes d).
  { intros size al off d Hd. unfold read_pod_obj in Hd. destruct (_ <=? _); [discriminate|]. ib Hd x E. destruct x as [d' r]. injection Hd as ->.
    apply ok_or_ok_inv, read_slice_ok in E. destruct E as [E _]. pose proof (is_bytes_ndrop off data Hb) as H.
    rewrite E in H. apply Forall_app in H. apply H. }
  assert (Hsh : forall eh, total m (read_first_shdr (FileIo data) eh)).
  { intros eh. unfold read_first_shdr. apply total_bind; [apply total_fio_obj|]. auto. }
  assert (Heh : total m (parse_ehdr (FileIo data)) /\ forall x, parse_ehdr (FileIo data) = Ok x -> x_phnum x < 2 ^ 32).
  { unfold parse_ehdr. split.
    - apply total_bind; [apply total_fio_bytes; reflexivity|]. intros ident E.
      destruct (negb _); [auto|].
      assert (Hl : exists v, nnth 4 ident = Some v).
      { apply nnth_lt_some. unfold read_bytes in E. destruct (_ <=? _); [discriminate|].
        ib E x Ex. destruct x as [d z]. injection E as ->. apply ok_or_ok_inv, read_slice_ok in Ex. destruct Ex as (_ & -> & _). reflexivity. }
      destruct Hl as [v ->]. cbn [unwrap bind]. destruct (negb _); [auto|].
      apply total_bind; [apply total_fio_obj|]. intros d _.
      apply total_bind; [destruct (_ =? _); [apply total_bind; auto|auto]|]. intros shnum _.
      apply total_bind; [destruct (_ =? _); [apply total_bind; auto|auto]|]. auto.
    - intros x H. ib H ident E. destruct (negb _) in H; [discriminate|]. ib H class Ec. destruct (negb _) in H; [discriminate|].
      ib H d Ed. apply Hobj in Ed. ib H shnum Es. ib H phnum Ep. injection H as <-. cbn [x_phnum].
      destruct (_ =? _) in Ep.
      + ib Ep sh Esh. injection Ep as <-. unfold read_first_shdr in Esh. ib Esh ds Eds. injection Esh as <-. apply Hobj in Eds.
        unfold dec_shdr. destruct (e_32 _); cbn [sh_info]; [pose proof (field_lt 28 4 ds Eds)|pose proof (field_lt 44 4 ds Eds)]; exact H.
      + injection Ep as <-. unfold dec_ehdr. destruct (class =? 1); cbn [e_phnum];
          [pose proof (field_lt 44 2 d Ed)|pose proof (field_lt 56 2 d Ed)]; change (256 ^ 2) with (2 ^ 16) in H; lia. }
  destruct Heh as [Ht Hn]. unfold parse_phdrs. apply total_bind; [exact Ht|]. intros x Hx. specialize (Hn x Hx).
  apply total_bind; [|auto]. unfold read_pod_slice. destruct (_ <=? _); [auto|].
  destruct (N.leb_spec (2 ^ 63) (phdr_size (e_32 (x_ehdr x)) * x_phnum x)) as [Hbad|_].
  - exfalso. assert (phdr_size (e_32 (x_ehdr x)) <= 56) by (destruct (e_32 _); vm_compute; discriminate). nia.
  - apply total_bind; [apply total_ok_or, total_read_slice|]. intros [d r] _. auto.
Qed.
Theorem C36_total : forall m data, is_bytes data -> total m (read_kcore_kaslr_offset m data).
Proof.
  intros m data Hb. unfold read_kcore_kaslr_offset. apply total_bind; [now apply total_fio_phdrs|]. intros phs _.
  induction phs as [|p phs IH]; cbn [kcore_segments]; [auto|]. destruct (negb _); [exact IH|].
  apply total_bind; [apply total_kcore_notes; [exact Hb|unfold nlen; lia]|]. intros [o|] _; auto.
Qed.
Print Assumptions C36_total.

(** A core file with two notes, which has the offset in the second one *)
Definition ex_kh : file_header := FileHeader (repeat 0 11) 4 62 1 0 64 0 0 64 56 1 0 0 0.
Definition ex_seg (notes : list note) : phdr := Phdr 4 0 120 0 0 (nlen (flat_map enc_note notes)) 0 0.
Definition ex_core (notes : list note) : list N :=
  enc_file_header false ex_kh ++ enc_program_header false (ex_seg notes) ++ flat_map enc_note notes.
Definition ex_text : list N := bs "OSRELEASE=6.1"%string ++ 10 :: bs "XKERNELOFFSET=1"%string ++ 10 ::
  bs "KERNELOFFSET=2e000000"%string ++ 10 :: bs "NUMBER(phys_base)=1"%string ++ [10].
Definition ex_other : note := Note (bs "CORE"%string ++ [0]) 1 (repeat 7 50).
Definition ex_info : note := Note (bs "VMCOREINFO"%string ++ [0]) 0 (ex_text ++ repeat 0 60).
Definition ex_small : note := Note (bs "VMCOREINFO"%string ++ [0]) 0 ex_text.
Lemma ex_core_file : forall notes, nlen (flat_map enc_note notes) < 2 ^ 32 -> core_file (ex_core notes) [ex_seg notes].
Proof.
  intros notes H. exists false, ex_kh.
  assert (L1 : nlen (enc_file_header false ex_kh) = 64) by reflexivity.
  assert (L2 : nlen (enc_program_header false (ex_seg notes)) = 56) by apply enc_phdr_size.
  split; [|split; [|split; [|split; [|split; [|split; [|split]]]]]].
  - unfold ex_core. rewrite !nlen_app, L1, L2. lia.
  - exists [], (enc_program_header false (ex_seg notes) ++ flat_map enc_note notes). auto.
  - split; [reflexivity|]. split; [repeat constructor|]. split; repeat constructor.
  - reflexivity.
  - reflexivity.
  - exists (enc_file_header false ex_kh), (flat_map enc_note notes). unfold ex_core. cbn [flat_map].
    rewrite app_nil_r. auto.
  - constructor; [|constructor]. split; [repeat constructor|]. unfold ex_seg.
    cbn [p_offset p_vaddr p_paddr p_filesz p_memsz p_align]. do 3 (constructor; [reflexivity|]).
    constructor; [unfold is_word; lia|]. do 2 (constructor; [reflexivity|]). constructor.
  - intros _. unfold ex_core. rewrite !nlen_app, L1, L2. cbn [h_shoff ex_kh]. lia.
Qed.
Lemma ex_segment : forall notes, Forall wf_note notes -> segment_notes (ex_core notes) (ex_seg notes) notes.
Proof.
  intros notes H. left. split; [reflexivity|]. split; [|split; [reflexivity|exact H]].
  exists (enc_file_header false ex_kh ++ enc_program_header false (ex_seg notes)), []. unfold ex_core.
  rewrite app_nil_r, <- app_assoc. split; [reflexivity|]. rewrite nlen_app, enc_phdr_size. reflexivity.
Qed.
Lemma no_key : forall t, Forall (fun n => beq (ntake 13 (skipn n t)) key = false \/
    match n with O => False | S k => nth_error t k <> Some 10 end) (seq 0 (S (List.length t))) -> unstated t.
Proof.
  intros t H x y E Hx. rewrite Forall_forall in H.
  assert (Hin : In (List.length x) (seq 0 (S (List.length t)))) by (apply in_seq; rewrite E, app_length; lia).
  specialize (H _ Hin). rewrite E in H.
  replace (skipn (List.length x) (x ++ key ++ y)) with (key ++ y) in H.
  2:{ rewrite skipn_app, skipn_all, Nat.sub_diag. reflexivity. }
  rewrite ntake_app_exact, beq_refl in H by reflexivity. destruct H as [H|H]; [discriminate|].
  destruct Hx as [->|(k & ->)]; [exact H|]. rewrite app_length in H. cbn [List.length] in H.
  rewrite Nat.add_1_r in H. apply H. rewrite <- app_assoc, nth_error_app2 by lia. rewrite Nat.sub_diag. reflexivity.
Qed.
Lemma ex_states : forall pad, Forall (fun c => c = 0) pad -> states (ex_text ++ pad) (bs "2e000000"%string).
Proof.
  intros pad Hp. exists (bs "OSRELEASE=6.1"%string ++ 10 :: bs "XKERNELOFFSET=1"%string ++ [10]),
    (10 :: bs "NUMBER(phys_base)=1"%string ++ [10] ++ pad).
  split; [reflexivity|]. split; [right; eexists (bs "OSRELEASE=6.1"%string ++ 10 :: bs "XKERNELOFFSET=1"%string); reflexivity|].
  split; [right; eauto|]. split; [|repeat constructor; discriminate].
  apply no_key. cbn [seq List.length app bs].
  repeat (constructor; [first [left; reflexivity | right; discriminate]|]). constructor.
Qed.
Lemma ex_hex : hex (bs "2e000000"%string) 0x2e000000.
Proof.
  exists [2; 14; 0; 0; 0; 0; 0; 0]. split; [|split; [vm_compute; repeat constructor|reflexivity]].
  apply digits_of_iff. repeat constructor.
Qed.
Example C36_example :
  core_file (ex_core [ex_other; ex_info]) [ex_seg [ex_other; ex_info]] /\
  segment_notes (ex_core [ex_other; ex_info]) (ex_seg [ex_other; ex_info]) ([ex_other] ++ ex_info :: []) /\
  ~ vmcoreinfo ex_other /\ vmcoreinfo ex_info /\
  states (nt_desc ex_info) (bs "2e000000"%string) /\ hex (bs "2e000000"%string) 0x2e000000 /\
  find_kaslr_offset Checked (Ok (ex_core [ex_other; ex_info])) None None = Ok (Some 0x2e000000).
Proof.
  split; [apply ex_core_file; reflexivity|]. split.
  { apply ex_segment. repeat constructor. }
  split; [intros [H _]; discriminate|]. split; [split; [reflexivity|discriminate]|].
  split; [apply ex_states; repeat constructor|]. split; [exact ex_hex|]. vm_compute. reflexivity.
Qed.

(** A note at a position in the file beyond the size of the segment is not
    looked at. *)
Theorem C36_position_refuted : exists data p n v, core_file data [p] /\ p_type p = 4 /\ segment_notes data p [n] /\
  vmcoreinfo n /\ states (nt_desc n) (bs "2e000000"%string) /\ hex (bs "2e000000"%string) v /\
  find_kaslr_offset Checked (Ok data) None None = Ok None /\ find_kaslr_offset Wrapping (Ok data) None None = Ok None.
Proof.
  exists (ex_core [ex_small]), (ex_seg [ex_small]), ex_small, 0x2e000000.
  split; [apply ex_core_file; reflexivity|]. split; [reflexivity|]. split; [apply ex_segment; repeat constructor|].
  split; [split; [reflexivity|discriminate]|]. split; [rewrite <- (app_nil_r (nt_desc ex_small)); apply ex_states; constructor|].
  split; [exact ex_hex|]. split; vm_compute; reflexivity.
Qed.

(** The symbols are not compared if there is no core file, or one that does not
    state an offset. *)
Definition ex_sym (a : N) : sym_info := SymInfo n_stext a None TFunction None None.
Theorem C36_fallback_refuted : exists ksym vmlinux a b data, ksym n_stext = Ok [ex_sym a] /\ vmlinux n_stext = Ok [ex_sym b] /\
  b < a /\ core_file data [ex_seg [ex_other]] /\
  forall m, find_kaslr_offset m (Err ENotFound) (Some ksym) (Some vmlinux) = Ok None /\
    find_kaslr_offset m (Ok data) (Some ksym) (Some vmlinux) = Ok None.
Proof.
  exists (fun _ => Ok [ex_sym 5000]), (fun _ => Ok [ex_sym 4096]), 5000, 4096, (ex_core [ex_other]).
  split; [reflexivity|]. split; [reflexivity|]. split; [reflexivity|]. split; [apply ex_core_file; reflexivity|].
  intros [|]; split; vm_compute; reflexivity.
Qed.
