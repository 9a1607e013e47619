(** * Lemmas about archive reading *)

From Verif Require Import Base Util UtilProofs Bytes Mmap Zip ZipSpec.
Local Open Scope N_scope.

(** ** The three structures *)
Definition local_hdr (l : local) : list N :=
  le_bytes 4 local_file_header_magic ++
  le_bytes 2 (l_version l) ++ le_bytes 2 (l_flags l) ++ le_bytes 2 (l_method l) ++
  le_bytes 2 (l_time l) ++ le_bytes 2 (l_date l) ++ le_bytes 4 (l_crc l) ++
  le_bytes 4 (l_csize l) ++ le_bytes 4 (l_usize l) ++
  le_bytes 2 (nlen (l_name l)) ++ le_bytes 2 (nlen (l_extra l)) ++ [].
Definition cd_hdr (r : cdrec) : list N :=
  le_bytes 4 cd_file_header_magic ++
  le_bytes 2 (r_version r) ++ le_bytes 2 (r_min_version r) ++ le_bytes 2 (r_flags r) ++
  le_bytes 2 (r_method r) ++ le_bytes 2 (r_time r) ++ le_bytes 2 (r_date r) ++
  le_bytes 4 (r_crc r) ++ le_bytes 4 (r_csize r) ++ le_bytes 4 (r_usize r) ++
  le_bytes 2 (nlen (r_name r)) ++ le_bytes 2 (nlen (r_extra r)) ++ le_bytes 2 (nlen (r_comment r)) ++
  le_bytes 2 (r_disk r) ++ le_bytes 2 (r_iattr r) ++ le_bytes 4 (r_eattr r) ++ le_bytes 4 (r_offset r) ++ [].
Definition eocd_hdr (z : eocd) : list N :=
  le_bytes 4 end_of_cd_record_magic ++
  le_bytes 2 (z_disk z) ++ le_bytes 2 (z_cd_disk z) ++ le_bytes 2 (z_records z) ++
  le_bytes 2 (z_total z) ++ le_bytes 4 (z_size z) ++ le_bytes 4 (z_offset z) ++
  le_bytes 2 (z_comment_len z) ++ [].

Lemma enc_local_hdr : forall l, enc_local l = local_hdr l ++ l_name l ++ l_extra l.
Proof.
  intros l. unfold enc_local, local_hdr.
  change (le_bytes 4 local_file_header_magic) with [80; 75; 3; 4].
  repeat rewrite <- app_assoc. reflexivity.
Qed.
Lemma enc_cdrec_hdr : forall r, enc_cdrec r = cd_hdr r ++ r_name r ++ r_extra r ++ r_comment r.
Proof.
  intros l. unfold enc_cdrec, cd_hdr.
  change (le_bytes 4 cd_file_header_magic) with [80; 75; 1; 2].
  repeat rewrite <- app_assoc. reflexivity.
Qed.
Lemma enc_eocd_hdr : forall z, enc_eocd z = eocd_hdr z.
Proof.
  intros l. unfold enc_eocd, eocd_hdr.
  change (le_bytes 4 end_of_cd_record_magic) with [80; 75; 5; 6].
  now rewrite app_nil_r.
Qed.
Lemma nlen_local_hdr : forall l, nlen (local_hdr l) = 30.
Proof. intros. unfold local_hdr. repeat rewrite nlen_app. repeat rewrite le_bytes_nlen. reflexivity. Qed.
Lemma nlen_cd_hdr : forall l, nlen (cd_hdr l) = 46.
Proof. intros. unfold cd_hdr. repeat rewrite nlen_app. repeat rewrite le_bytes_nlen. reflexivity. Qed.
Lemma nlen_eocd_hdr : forall l, nlen (eocd_hdr l) = 22.
Proof. intros. unfold eocd_hdr. repeat rewrite nlen_app. repeat rewrite le_bytes_nlen. reflexivity. Qed.

Lemma local_fields : forall l, wf_local l ->
  field 0 4 (local_hdr l) = local_file_header_magic /\
  field 6 2 (local_hdr l) = l_flags l /\ field 8 2 (local_hdr l) = l_method l /\
  field 18 4 (local_hdr l) = l_csize l /\
  field 26 2 (local_hdr l) = nlen (l_name l) /\ field 28 2 (local_hdr l) = nlen (l_extra l).
Proof.
  intros l [H16 H32].
  repeat split; eval_field; first [reflexivity | in_u].
Qed.
Lemma cd_fields : forall r, wf_cdrec r ->
  field 0 4 (cd_hdr r) = cd_file_header_magic /\
  field 28 2 (cd_hdr r) = nlen (r_name r) /\ field 30 2 (cd_hdr r) = nlen (r_extra r) /\
  field 32 2 (cd_hdr r) = nlen (r_comment r) /\ field 42 4 (cd_hdr r) = r_offset r.
Proof.
  intros r [H16 H32].
  repeat split; eval_field; first [reflexivity | in_u].
Qed.
Lemma eocd_fields : forall z, wf_eocd z ->
  field 0 4 (eocd_hdr z) = end_of_cd_record_magic /\
  field 4 2 (eocd_hdr z) = z_disk z /\ field 6 2 (eocd_hdr z) = z_cd_disk z /\
  field 8 2 (eocd_hdr z) = z_records z /\ field 10 2 (eocd_hdr z) = z_total z /\
  field 16 4 (eocd_hdr z) = z_offset z /\ field 20 2 (eocd_hdr z) = z_comment_len z.
Proof.
  intros z [H16 H32].
  repeat split; eval_field; first [reflexivity | in_u].
Qed.

Definition read_local (d name extra : list N) : local :=
  Local (field 4 2 d) (field 6 2 d) (field 8 2 d) (field 10 2 d) (field 12 2 d) (field 14 4 d)
    (field 18 4 d) (field 22 4 d) name extra.
Lemma read_local_enc : forall d name extra, is_bytes d -> nlen d = 30 ->
  field 0 4 d = local_file_header_magic -> field 26 2 d = nlen name -> field 28 2 d = nlen extra ->
  wf_local (read_local d name extra) /\ d = local_hdr (read_local d name extra).
Proof.
  intros d name extra Hb Hl Hm Hn He. split.
  - split; unfold u16s, u32s, read_local; simpl; rewrite <- ?Hn, <- ?He;
      repeat constructor; apply field_lt; auto.
  - unfold local_hdr, read_local. simpl l_version. simpl l_flags. simpl l_method. simpl l_time.
    simpl l_date. simpl l_crc. simpl l_csize. simpl l_usize. simpl l_name. simpl l_extra.
    rewrite <- Hm, <- Hn, <- He. rewrite <- (ndrop_0 _ d) at 1.
    repeat next_field Hb Hl.
Qed.

Definition read_cd (d name extra comment : list N) : cdrec :=
  Cdrec (field 4 2 d) (field 6 2 d) (field 8 2 d) (field 10 2 d) (field 12 2 d) (field 14 2 d)
    (field 16 4 d) (field 20 4 d) (field 24 4 d) (field 34 2 d) (field 36 2 d) (field 38 4 d)
    (field 42 4 d) name extra comment.
Lemma read_cd_enc : forall d name extra comment, is_bytes d -> nlen d = 46 ->
  field 0 4 d = cd_file_header_magic -> field 28 2 d = nlen name -> field 30 2 d = nlen extra ->
  field 32 2 d = nlen comment ->
  wf_cdrec (read_cd d name extra comment) /\ d = cd_hdr (read_cd d name extra comment).
Proof.
  intros d name extra comment Hb Hl Hm Hn He Hc. split.
  - split; unfold u16s, u32s, read_cd; simpl; rewrite <- ?Hn, <- ?He, <- ?Hc;
      repeat constructor; apply field_lt; auto.
  - unfold cd_hdr, read_cd. cbn [r_version r_min_version r_flags r_method r_time r_date r_crc r_csize
      r_usize r_disk r_iattr r_eattr r_offset r_name r_extra r_comment].
    rewrite <- Hm, <- Hn, <- He, <- Hc. rewrite <- (ndrop_0 _ d) at 1.
    repeat next_field Hb Hl.
Qed.
Definition read_eocd (d : list N) : eocd :=
  Eocd (field 4 2 d) (field 6 2 d) (field 8 2 d) (field 10 2 d) (field 12 4 d) (field 16 4 d) (field 20 2 d).
Lemma read_eocd_enc : forall d, is_bytes d -> nlen d = 22 -> field 0 4 d = end_of_cd_record_magic ->
  wf_eocd (read_eocd d) /\ d = eocd_hdr (read_eocd d).
Proof.
  intros d Hb Hl Hm. split.
  - split; unfold u16s, u32s, read_eocd; simpl; repeat constructor; apply field_lt; auto.
  - unfold eocd_hdr, read_eocd. cbn [z_disk z_cd_disk z_records z_total z_size z_offset z_comment_len].
    rewrite <- Hm. rewrite <- (ndrop_0 _ d) at 1.
    repeat next_field Hb Hl.
Qed.

(** ** Members *)
Lemma entry_complete : forall data off l contents, member_at data off l contents ->
  parse_entry_at_offset data off = Ok (Entry (l_method l) (l_name l) (data_start off l) contents).
Proof.
  intros data off l contents (Hwf & Hat & Hlen & He & Hs).
  destruct (get_from_at _ _ _ Hat) as [after Hg].
  destruct (local_fields l Hwf) as (F0 & F1 & F2 & F3 & F4 & F5).
  unfold parse_entry_at_offset, local_entry. rewrite Hg. cbn [of_option bind].
  set (d := (enc_local l ++ contents) ++ after).
  assert (Ed : d = local_hdr l ++ l_name l ++ l_extra l ++ contents ++ after).
  { unfold d. rewrite enc_local_hdr. repeat rewrite <- app_assoc. auto. }
  assert (El : nlen d = 30 + nlen (l_name l) + nlen (l_extra l) + nlen (contents ++ after)).
  { rewrite Ed, (nlen_app _ (local_hdr l)), nlen_local_hdr, (nlen_app _ (l_name l)), (nlen_app _ (l_extra l)). lia. }
  rewrite El, Ed, (read_slice_app 30) by apply nlen_local_hdr. cbn [bind].
  rewrite F0, F1, F2, F3, F4, F5. rewrite N.eqb_refl. simpl negb. cbv iota.
  unfold encrypted in He. unfold streamed in Hs. rewrite He, Hs. simpl orb. cbv iota.
  rewrite read_slice_app by auto. cbn [bind]. rewrite read_slice_app by auto. cbn [bind].
  rewrite read_slice_app by auto. cbn [bind ok_or]. do 2 f_equal. unfold data_start. lia.
Qed.
Lemma entry_sound : forall data off e, is_bytes data -> parse_entry_at_offset data off = Ok e ->
  exists l contents, member_at data off l contents /\
    e = Entry (l_method l) (l_name l) (data_start off l) contents.
Proof.
  intros data off e Hb H. unfold parse_entry_at_offset in H. apply ok_or_ok_inv in H.
  unfold local_entry in H. ib H d Ed. apply of_option_ok_inv in Ed. ib H p E1. destruct p as [lfh d1].
  apply read_slice_ok in E1. destruct E1 as (-> & Hl & _).
  destruct (N.eqb_spec (field 0 4 lfh) local_file_header_magic) as [Hm|]; [|discriminate]. simpl negb in H. cbv iota in H.
  destruct (N.testbit (field 6 2 lfh) 0) eqn:Hf0; [discriminate|].
  destruct (N.testbit (field 6 2 lfh) 3) eqn:Hf3; [discriminate|]. simpl orb in H. cbv iota in H.
  ib H p E2. destruct p as [path d2]. apply read_slice_ok in E2. destruct E2 as (-> & Hn & _).
  ib H p E3. destruct p as [extra d3]. apply read_slice_ok in E3. destruct E3 as (-> & Hx & _).
  ib H p E4. destruct p as [contents d4]. apply read_slice_ok in E4. destruct E4 as (-> & Hc & _).
  injection H as <-.
  pose proof (get_from_bytes _ _ _ Hb Ed) as Hbd. repeat rewrite is_bytes_app in Hbd.
  destruct (read_local_enc lfh path extra) as [Hwf Heq]; try tauto; auto.
  exists (read_local lfh path extra), contents. split.
  - split; [auto|]. split; [|simpl; auto].
    apply (at_get_from _ _ _ d4). rewrite Ed, enc_local_hdr, <- Heq. simpl.
    repeat rewrite <- app_assoc. auto.
  - simpl. f_equal. unfold data_start. simpl. repeat rewrite nlen_app. rewrite Hl. lia.
Qed.
Lemma entry_result : forall data off,
  (exists e, parse_entry_at_offset data off = Ok e) \/ parse_entry_at_offset data off = Err EInvalidData.
Proof.
  intros data off. unfold parse_entry_at_offset, local_entry.
  destruct (get_from off data); simpl; auto. unfold read_slice.
  repeat (match goal with |- context [if ?c then _ else _] => destruct c end; simpl; auto); eauto.
Qed.

(** ** Directory records *)
Lemma next_complete : forall data c r', wf_cdrec c ->
  next_entry data (enc_cdrec c ++ r') = (parse_entry_at_offset data (r_offset c), r').
Proof.
  intros data c r' Hwf. destruct (cd_fields c Hwf) as (F0 & F1 & F2 & F3 & F4).
  rewrite enc_cdrec_hdr. repeat rewrite <- app_assoc. unfold next_entry.
  rewrite read_slice_app by apply nlen_cd_hdr. rewrite F0, N.eqb_refl. simpl negb. cbv iota.
  rewrite F1, F2, F3, F4.
  rewrite read_slice_app by auto. rewrite read_slice_app by auto. rewrite read_slice_app by auto. auto.
Qed.
(** What is left is always a suffix. *)
Definition suffix (r' r : list N) : Prop := exists a, r = a ++ r'.
Lemma suffix_refl : forall r, suffix r r.
Proof. exists []. auto. Qed.
Lemma suffix_trans : forall a b c, suffix a b -> suffix b c -> suffix a c.
Proof. intros a b c [x ->] [y ->]. exists (y ++ x). now rewrite app_assoc. Qed.
Lemma suffix_app : forall a b, suffix b (a ++ b).
Proof. intros. exists a. auto. Qed.
Lemma next_sound : forall data r, is_bytes r ->
  (exists c r', wf_cdrec c /\ r = enc_cdrec c ++ r' /\
     next_entry data r = (parse_entry_at_offset data (r_offset c), r')) \/
  (exists r', suffix r' r /\ next_entry data r = (Err EInvalidData, r')).
Proof.
  intros data r Hb. unfold next_entry.
  assert (Hsl : forall n x, (exists d y, read_slice n x = Ok (d, y) /\ x = d ++ y /\ nlen d = n) \/
                            read_slice n x = Err ENone).
  { intros n x. destruct (read_slice n x) as [[d y]|k| |] eqn:E.
    - left. exists d, y. apply read_slice_ok in E. tauto.
    - right. unfold read_slice in E. destruct (nlen x <? n); congruence.
    - unfold read_slice in E. destruct (nlen x <? n); discriminate.
    - unfold read_slice in E. destruct (nlen x <? n); discriminate. }
  destruct (Hsl 46 r) as [(d & r1 & -> & -> & Hl)| ->]; [|right; exists r; split; [apply suffix_refl|auto]].
  destruct (N.eqb_spec (field 0 4 d) cd_file_header_magic) as [Hm|]; simpl negb; cbv iota;
    [|right; exists r1; split; [apply suffix_app|auto]].
  destruct (Hsl (field 28 2 d) r1) as [(nm & r2 & -> & -> & Hn)| ->];
    [|right; exists r1; split; [apply suffix_app|auto]].
  destruct (Hsl (field 30 2 d) r2) as [(ex & r3 & -> & -> & He)| ->];
    [|right; exists r2; split; [rewrite app_assoc; apply suffix_app|auto]].
  destruct (Hsl (field 32 2 d) r3) as [(co & r4 & -> & -> & Hc)| ->];
    [|right; exists r3; split; [rewrite 2 app_assoc; apply suffix_app|auto]].
  left. repeat rewrite is_bytes_app in Hb.
  destruct (read_cd_enc d nm ex co) as [Hwf Heq]; try tauto; auto.
  exists (read_cd d nm ex co), r4. split; auto. split; auto.
  rewrite enc_cdrec_hdr, <- Heq. simpl. repeat rewrite <- app_assoc. auto.
Qed.

Lemma iter_length : forall n data r, length (iter_entries n data r) = n.
Proof.
  induction n as [|n IH]; intros; simpl; auto.
  destruct (next_entry data r). simpl. now rewrite IH.
Qed.
Lemma iter_results : forall n data r, is_bytes r ->
  Forall (fun x => (exists e, x = Ok e) \/ x = Err EInvalidData) (iter_entries n data r).
Proof.
  induction n as [|n IH]; intros data r Hb; simpl; auto.
  destruct (next_sound data r Hb) as [(c & r' & _ & -> & ->)|(r' & [a ->] & ->)]; constructor;
    rewrite ?is_bytes_app in Hb; try (apply IH; tauto); auto.
  apply entry_result.
Qed.
Lemma iter_complete : forall rs data after k, Forall wf_cdrec rs ->
  iter_entries (length rs + k) data (flat_map enc_cdrec rs ++ after) =
  map (fun c => parse_entry_at_offset data (r_offset c)) rs ++ iter_entries k data after.
Proof.
  induction rs as [|c rs IH]; intros data after k Hwf; auto.
  inversion Hwf; subst. cbn [flat_map length plus iter_entries map].
  rewrite <- app_assoc, next_complete by auto. now rewrite IH.
Qed.
Lemma iter_sound : forall n data r k e, is_bytes r -> nth_error (iter_entries n data r) k = Some (Ok e) ->
  exists c r', wf_cdrec c /\ suffix (enc_cdrec c ++ r') r /\ parse_entry_at_offset data (r_offset c) = Ok e.
Proof.
  induction n as [|n IH]; intros data r k e Hb Hn; simpl in Hn; [destruct k; discriminate|].
  destruct (next_sound data r Hb) as [(c & r' & Hwf & -> & E)|(r' & [a ->] & E)]; rewrite E in Hn;
    destruct k as [|k]; simpl in Hn; try discriminate.
  - injection Hn as Hn. exists c, r'. split; auto. split; auto. apply suffix_refl.
  - rewrite is_bytes_app in Hb. destruct (IH data r' k e) as (c' & r'' & Hw & Hs & He); try tauto; auto.
    exists c', r''. split; auto. split; auto. eapply suffix_trans; [eauto|]. apply suffix_app.
  - rewrite is_bytes_app in Hb. destruct (IH data r' k e) as (c' & r'' & Hw & Hs & He); try tauto; auto.
    exists c', r''. split; auto. split; auto. eapply suffix_trans; [eauto|]. apply suffix_app.
Qed.

(** ** The end record *)
Lemma eocd_complete : forall z comment after, wf_eocd z -> nlen comment = z_comment_len z ->
  try_parse_end_of_cd (enc_eocd z ++ comment ++ after) =
  if (z_disk z =? 0) && (z_cd_disk z =? 0) && (z_total z =? z_records z) then Ok (z_offset z, z_records z)
  else Err EInvalidData.
Proof.
  intros z comment after Hwf Hc. destruct (eocd_fields z Hwf) as (F0 & F1 & F2 & F3 & F4 & F5 & F6).
  rewrite enc_eocd_hdr. unfold try_parse_end_of_cd.
  rewrite read_slice_app by apply nlen_eocd_hdr. cbn [bind].
  rewrite F0, F1, F2, F3, F4, F5, F6, N.eqb_refl. simpl negb. cbv iota.
  destruct (N.ltb_spec (nlen (comment ++ after)) (z_comment_len z)) as [L|]; [rewrite nlen_app in L; lia|].
  destruct (z_disk z =? 0), (z_cd_disk z =? 0), (z_total z =? z_records z); auto.
Qed.
Lemma eocd_sound : forall data, is_bytes data ->
  (exists z comment after, wf_eocd z /\ nlen comment = z_comment_len z /\
     data = enc_eocd z ++ comment ++ after) \/
  try_parse_end_of_cd data = Err ENone.
Proof.
  intros data Hb. unfold try_parse_end_of_cd.
  destruct (read_slice 22 data) as [[d r]|k| |] eqn:E;
    try (unfold read_slice in E; destruct (nlen data <? 22); [|discriminate]).
  - apply read_slice_ok in E. destruct E as (-> & Hl & _). cbn [bind].
    destruct (N.eqb_spec (field 0 4 d) end_of_cd_record_magic) as [Hm|]; [|right; auto]. simpl negb. cbv iota.
    destruct (N.ltb_spec (nlen r) (field 20 2 d)) as [|Hge]; [right; auto|].
    rewrite is_bytes_app in Hb. destruct (read_eocd_enc d) as [Hwf Heq]; try tauto; auto.
    left. exists (read_eocd d), (ntake (field 20 2 d) r), (ndrop (field 20 2 d) r). split; auto.
    split; [rewrite nlen_ntake; simpl; lia|]. rewrite ntake_ndrop, enc_eocd_hdr, <- Heq. auto.
  - injection E as <-. right. auto.
  - discriminate.
  - discriminate.
Qed.
Lemma nlen_enc_eocd : forall z, nlen (enc_eocd z) = 22.
Proof. intros. rewrite enc_eocd_hdr. apply nlen_eocd_hdr. Qed.

(** What is found is decided by the last record. *)
Definition cd_of (data : list N) (z : eocd) : res (N * N) :=
  if (z_disk z =? 0) && (z_cd_disk z =? 0) && (z_total z =? z_records z) then
    if z_offset z + z_records z * 46 <=? nlen data then Ok (z_offset z, z_records z) else Err EUnexpectedEof
  else Err EInvalidData.
Lemma find_cd_loop_spec : forall data, is_bytes data -> forall n start,
  start + N.of_nat n <= nlen data + 1 ->
  (exists p z, start <= p < start + N.of_nat n /\ end_record_at data p z /\
     (forall q y, p < q < start + N.of_nat n -> ~ end_record_at data q y) /\
     find_cd_loop n start data = cd_of data z) \/
  ((forall q y, start <= q < start + N.of_nat n -> ~ end_record_at data q y) /\
   find_cd_loop n start data = Err EInvalidData).
Proof.
  intros data Hb. induction n as [|n IH]; intros start Hs.
  - right. split; auto. intros q y Hq. lia.
  - cbn [find_cd_loop].
    assert (Hg : exists tail, get_from (start + N.of_nat n) data = Some tail).
    { unfold get_from. destruct (N.leb_spec (start + N.of_nat n) (nlen data)); [eauto|lia]. }
    destruct Hg as [tail Hg]. rewrite Hg. cbn [unwrap bind].
    destruct (eocd_sound tail (get_from_bytes _ _ _ Hb Hg)) as [(z & comment & after & Hwf & Hc & ->)|E].
    + left. exists (start + N.of_nat n), z. split; [lia|]. split.
      { split; auto. exists comment. split; auto. apply (at_get_from _ _ _ after).
        now rewrite <- app_assoc. }
      split; [intros q y Hq; lia|].
      rewrite eocd_complete by auto. unfold cd_of, get_range.
      destruct ((z_disk z =? 0) && (z_cd_disk z =? 0) && (z_total z =? z_records z)); auto.
      destruct (N.leb_spec (z_offset z) (z_offset z + z_records z * 46)); [|lia]. simpl andb.
      destruct (N.leb_spec (z_offset z + z_records z * 46) (nlen data)); auto.
    + rewrite E.
      assert (Hno : forall y, ~ end_record_at data (start + N.of_nat n) y).
      { intros y (Hwf & comment & Hc & Hat). destruct (get_from_at _ _ _ Hat) as [after Hg'].
        rewrite Hg in Hg'. apply some_inj in Hg'. subst tail. rewrite <- app_assoc, eocd_complete in E by auto.
        destruct ((z_disk y =? 0) && (z_cd_disk y =? 0) && (z_total y =? z_records y)); discriminate. }
      destruct (IH start) as [(p & z & Hp & Hz & Hl & Ef)|[Hl Ef]]; [lia| |].
      * left. exists p, z. split; [lia|]. split; auto. split; auto.
        intros q y Hq. destruct (N.eq_dec q (start + N.of_nat n)) as [->|]; auto. apply Hl. lia.
      * right. split; auto. intros q y Hq.
        destruct (N.eq_dec q (start + N.of_nat n)) as [->|]; auto. apply Hl. lia.
Qed.
Lemma end_record_le : forall data p z, end_record_at data p z -> p + 22 + z_comment_len z <= nlen data.
Proof.
  intros data p z (_ & c & Hc & Hat). apply at_le in Hat. rewrite nlen_app, nlen_enc_eocd in Hat. lia.
Qed.
Lemma find_cd_spec : forall data, is_bytes data ->
  (exists p z, end_record_at data p z /\ nlen data <= p + 22 + 2 ^ 16 /\
     (forall q y, p < q -> ~ end_record_at data q y) /\ find_cd data = cd_of data z) \/
  ((forall q y, nlen data <= q + 22 + 2 ^ 16 -> ~ end_record_at data q y) /\ find_cd data = Err EInvalidData).
Proof.
  intros data Hb. unfold find_cd, chk_sub. destruct (N.leb_spec 22 (nlen data)) as [Hl|Hl].
  2:{ right. split; auto. intros q y _ H. apply end_record_le in H. lia. }
  cbn [of_option bind]. unfold sat_sub. set (start := nlen data - 22 - 2 ^ 16).
  destruct (find_cd_loop_spec data Hb (S (N.to_nat (nlen data - 22 - start))) start)
    as [(p & z & Hp & Hz & Hno & ->)|[Hno ->]]; [unfold start; lia| |].
  - left. exists p, z. split; auto. split; [unfold start in *; lia|]. split; auto.
    intros q y Hq H. pose proof (end_record_le _ _ _ H). apply (Hno q y); auto. unfold start in *; lia.
  - right. split; auto. intros q y Hq H. pose proof (end_record_le _ _ _ H). apply (Hno q y); auto.
    unfold start in *; lia.
Qed.
