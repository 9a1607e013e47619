(** * Archives and mapped files

    Claims C24, C25 and C49 of /verif/properties.jsonl, and what C15 needs of
    archives. *)

From Verif Require Import Base Util UtilProofs Bytes Mmap Zip ZipSpec ZipProofs Sym Normalize PropNormalize.
Local Open Scope N_scope.

(** ** C49: views of mapped files *)

(** The bytes a view exposes, as a part of the file it is a view of. *)
Definition view_ok (v : mmap) : Prop :=
  exists file, mm_mapping v = Some file /\ mm_start v <= mm_end v <= nlen file /\ nlen file < two64.

Lemma deref_view : forall v file, mm_mapping v = Some file -> mm_start v <= mm_end v <= nlen file ->
  deref v = ntake (mm_end v - mm_start v) (ndrop (mm_start v) file).
Proof.
  intros v file Hm Hr. unfold deref, get_range. rewrite Hm.
  destruct (N.leb_spec (mm_start v) (mm_end v)); [|lia].
  destruct (N.leb_spec (mm_end v) (nlen file)); [|lia]. auto.
Qed.
Lemma nlen_deref : forall v, view_ok v -> nlen (deref v) = mm_end v - mm_start v.
Proof.
  intros v (file & Hm & Hr & Hl). rewrite (deref_view v file) by auto.
  rewrite nlen_ntake, nlen_ndrop. lia.
Qed.
Lemma view_at : forall v, view_ok v -> forall s e, s <= e -> e <= nlen (deref v) ->
  at_ (deref v) s (ntake (e - s) (ndrop s (deref v))).
Proof.
  intros v _ s e Hse He. exists (ntake s (deref v)), (ndrop e (deref v)). split.
  - replace (ndrop e (deref v)) with (ndrop (e - s) (ndrop s (deref v)))
      by (rewrite ndrop_ndrop; f_equal; lia).
    now rewrite !ntake_ndrop.
  - rewrite nlen_ntake. lia.
Qed.

(** A mapped file shows its contents. *)
Theorem C49_map : forall file, deref (map_file file) = file.
Proof.
  intros file. unfold map_file. destruct (N.eqb_spec (nlen file) 0) as [E|].
  - destruct file; auto. rewrite nlen_cons in E. lia.
  - unfold deref, get_range. simpl. rewrite N.leb_refl. destruct (N.leb_spec 0 (nlen file)); [|lia]. simpl.
    rewrite ndrop_0, N.sub_0_r. rewrite <- (app_nil_r file) at 2. now apply ntake_app_exact.
Qed.
Theorem C49_map_ok : forall file, file <> [] -> nlen file < two64 -> view_ok (map_file file).
Proof.
  intros file Hne Hl. unfold map_file. destruct (N.eqb_spec (nlen file) 0) as [E|].
  - destruct file; [congruence|]. rewrite nlen_cons in E. lia.
  - exists file. simpl. repeat split; auto. lia. lia.
Qed.

(** Restricting works exactly for the ranges inside the view, and then shows
    exactly the range's bytes. *)
Theorem C49_constrain : forall m v s e, view_ok v -> s <= e -> mm_start v + e < two64 ->
  (e <= nlen (deref v) -> exists v', constrain m v s e = Ok (Some v') /\ view_ok v' /\
     at_ (deref v) s (deref v') /\ nlen (deref v') = e - s) /\
  (nlen (deref v) < e -> constrain m v s e = Ok None).
Proof.
  intros m v s e Hv Hse Ho. pose proof (nlen_deref v Hv) as Hlen.
  unfold constrain, add64. rewrite uadd_small by auto. cbn [bind].
  rewrite uadd_small by lia. destruct Hv as (file & Hm & Hr & Hl). split; intros He.
  - destruct (N.ltb_spec (mm_end v) (mm_start v + e)); [lia|]. cbn [bind].
    eexists. split; [reflexivity|].
    assert (Hv' : view_ok (Mmap (mm_mapping v) (mm_start v + s) (mm_start v + e))).
    { exists file. simpl. repeat split; auto; lia. }
    split; auto. split; [|rewrite nlen_deref by auto; simpl; lia].
    rewrite (deref_view (Mmap _ _ _) file) by (simpl; auto; lia). simpl.
    replace (mm_start v + e - (mm_start v + s)) with (e - s) by lia.
    rewrite <- (slice_slice _ file (mm_start v) (mm_end v - mm_start v) s) by lia.
    rewrite <- (deref_view v file) by auto. apply view_at; auto. exists file; auto.
  - destruct (N.ltb_spec (mm_end v) (mm_start v + e)); [auto|lia].
Qed.
(** Restricting twice is restricting once, relative to the outer range. *)
Theorem C49_nested : forall m v s e v' s' e', view_ok v -> s <= e -> s' <= e' ->
  mm_start v + s + e' < two64 -> mm_start v + e < two64 ->
  constrain m v s e = Ok (Some v') ->
  constrain m v' s' e' = if e' <=? e - s then constrain m v (s + s') (s + e') else Ok None.
Proof.
  intros m v s e v' s' e' Hv Hse Hse' Ho Ho2 H. unfold constrain, add64 in *.
  rewrite uadd_small in H by auto. cbn [bind] in H.
  destruct (N.ltb_spec (mm_end v) (mm_start v + e)); [discriminate|].
  rewrite uadd_small in H by lia. injection H as <-. simpl.
  rewrite uadd_small by lia. cbn [bind].
  destruct (N.leb_spec e' (e - s)).
  - rewrite (uadd_small m two64 (mm_start v + s) s') by lia.
    rewrite (uadd_small m two64 (mm_start v) (s + e')) by lia.
    rewrite (uadd_small m two64 (mm_start v) (s + s')) by lia. cbn [bind].
    destruct (N.ltb_spec (mm_start v + e) (mm_start v + s + e')); [lia|].
    destruct (N.ltb_spec (mm_end v) (mm_start v + (s + e'))); [lia|]. do 3 f_equal; lia.
  - destruct (N.ltb_spec (mm_start v + e) (mm_start v + s + e')); [auto|lia].
Qed.
(** What is wrong with [constrain]: an empty file can be restricted to a byte
    it does not have; ranges ending before they start are accepted; an end
    far beyond the view may be accepted or panic. *)
Theorem C49_empty_refuted : forall m, exists v, constrain m (map_file []) 0 1 = Ok (Some v) /\ deref v = [].
Proof. intros []; eexists; split; reflexivity. Qed.
Theorem C49_reversed_refuted : forall m, exists v,
  constrain m (map_file [1; 2; 3]) 2 1 = Ok (Some v) /\ deref v = [].
Proof. intros []; eexists; split; reflexivity. Qed.
Theorem C49_overflow_refuted : exists v v', view_ok v /\
  constrain Wrapping v 0 (two64 - 1) = Ok (Some v') /\ deref v' = [] /\
  constrain Checked v 0 (two64 - 1) = Panic.
Proof.
  exists (Mmap (Some [1; 2; 3]) 1 2). eexists. split.
  - exists [1; 2; 3]. repeat split; vm_compute; congruence.
  - repeat split.
Qed.
Example C49_example : match constrain Checked (map_file [10; 11; 12; 13; 14; 15]) 1 5 with
  | Ok (Some v) => deref v = [11; 12; 13; 14] /\ constrain Checked v 1 5 = Ok None /\
      match constrain Checked v 1 3 with Ok (Some v') => deref v' = [12; 13] | _ => False end
  | _ => False end.
Proof. vm_compute. auto. Qed.

(** ** C24: members *)

(** Opening an archive never panics, and neither does iterating over it: it
    gives as many results as the directory has records, and all of them are
    members or errors. *)
Theorem C24_total : forall v, safe (with_mmap v) /\
  forall a, with_mmap v = Ok a -> exists es, entries a = Ok es /\ nlen es = a_cd_records a /\
    (is_bytes (deref v) -> Forall (fun x => (exists e, x = Ok e) \/ x = Err EInvalidData) es).
Proof.
  intros v. assert (Hloop : forall n start data, start + N.of_nat n <= nlen data + 1 ->
    safe (find_cd_loop n start data) /\
    forall o k, find_cd_loop n start data = Ok (o, k) -> o + k * 46 <= nlen data).
  { induction n as [|n IH]; intros start data Hs; cbn [find_cd_loop]; [split; [auto|discriminate]|].
    unfold get_from. destruct (N.leb_spec (start + N.of_nat n) (nlen data)); [|lia]. cbn [unwrap bind].
    destruct (try_parse_end_of_cd (ndrop (start + N.of_nat n) data)) as [[o k]|[]| |] eqn:E;
      try (split; [auto|discriminate]); try (apply IH; lia).
    - unfold get_range. destruct ((o <=? o + k * 46) && (o + k * 46 <=? nlen data)) eqn:Er; cbn [of_option bind].
      + apply andb_true_iff in Er. destruct Er as [_ Er]. apply N.leb_le in Er. split; auto.
        intros o' k' H'. now injection H' as <- <-.
      + split; [auto|discriminate].
    - exfalso. unfold try_parse_end_of_cd, read_slice in E.
      repeat (match type of E with context [if ?c then _ else _] => destruct c end; simpl in E; try discriminate).
    - exfalso. unfold try_parse_end_of_cd, read_slice in E.
      repeat (match type of E with context [if ?c then _ else _] => destruct c end; simpl in E; try discriminate). }
  assert (Hf : safe (find_cd (deref v)) /\ forall o k, find_cd (deref v) = Ok (o, k) -> o + k * 46 <= nlen (deref v)).
  { unfold find_cd, chk_sub. destruct (N.leb_spec 22 (nlen (deref v))); [|simpl; split; [auto|discriminate]].
    cbn [of_option bind]. apply Hloop. unfold sat_sub. lia. }
  destruct Hf as [Hsafe Hok]. unfold with_mmap. split.
  { apply safe_bind; auto. intros [o k] _. auto. }
  intros a Ha. ib Ha p Ep. destruct p as [o k]. injection Ha as <-. specialize (Hok _ _ Ep).
  unfold entries. simpl. unfold get_from. destruct (N.leb_spec o (nlen (deref v))); [|lia]. cbn [unwrap bind].
  eexists. split; [reflexivity|]. split; [unfold nlen; rewrite iter_length; lia|].
  intros Hb. apply iter_results. now apply is_bytes_ndrop.
Qed.

(** Anything reported is a member that a record of the directory points to,
    with its own name, method and data, at the place its data is. *)
Theorem C24_sound : forall v a es k e, is_bytes (deref v) -> with_mmap v = Ok a -> entries a = Ok es ->
  nth_error es k = Some (Ok e) ->
  exists p c l, a_cd_offset a <= p /\ wf_cdrec c /\ at_ (deref v) p (enc_cdrec c) /\
    member_at (deref v) (r_offset c) l (e_data e) /\
    e_path e = l_name l /\ e_compression e = l_method l /\ e_data_offset e = data_start (r_offset c) l.
Proof.
  intros v a es k e Hb Ha He Hn. unfold with_mmap in Ha. ib Ha q Eq. destruct q as [o n].
  injection Ha as <-. unfold entries in He. simpl in He. ib He r Er. injection He as <-.
  apply unwrap_ok_inv in Er.
  destruct (iter_sound _ _ _ _ _ (get_from_bytes _ _ _ Hb Er) Hn) as (c & r' & Hwf & [x ->] & Hp).
  destruct (entry_sound _ _ _ Hb Hp) as (l & contents & Hm & ->).
  apply get_from_at2 in Er. exists (o + nlen x), c, l. split; [simpl; lia|].
  split; [exact Hwf|]. split; [exact Er|]. split; [exact Hm|]. auto.
Qed.
(** In particular its data is in the archive, where it is said to be. *)
Lemma member_data : forall data off l contents, member_at data off l contents ->
  at_ data (data_start off l) contents.
Proof.
  intros data off l contents (_ & Hat & _). apply at_app in Hat. destruct Hat as [_ Hat].
  unfold data_start. rewrite enc_local_hdr, !nlen_app, nlen_local_hdr in Hat.
  now rewrite <- !N.add_assoc in *.
Qed.
Theorem C24_in_bounds : forall v a es k e, is_bytes (deref v) -> with_mmap v = Ok a -> entries a = Ok es ->
  nth_error es k = Some (Ok e) ->
  at_ (deref v) (e_data_offset e) (e_data e) /\ e_data_offset e + nlen (e_data e) <= nlen (deref v).
Proof.
  intros v a es k e Hb Ha He Hn.
  destruct (C24_sound v a es k e Hb Ha He Hn) as (p & c & l & _ & _ & _ & Hm & _ & _ & ->).
  apply member_data in Hm. split; auto. now apply at_le.
Qed.
(** A directory is read record by record, in order: for each, the result is
    the member it points to, or an error if there is none (that is
    supported). *)
Theorem C24_directory : forall v a rs, is_bytes (deref v) -> with_mmap v = Ok a ->
  directory_at (deref v) (a_cd_offset a) rs -> nlen rs = a_cd_records a ->
  exists es, entries a = Ok es /\
    Forall2 (fun c x =>
      (exists l contents, member_at (deref v) (r_offset c) l contents /\
         x = Ok (Entry (l_method l) (l_name l) (data_start (r_offset c) l) contents)) \/
      ((forall l contents, ~ member_at (deref v) (r_offset c) l contents) /\ x = Err EInvalidData)) rs es.
Proof.
  intros v a rs Hb Ha [Hwf Hat] Hlen. unfold with_mmap in Ha. ib Ha q Eq. destruct q as [o n].
  injection Ha as <-. simpl in *. unfold entries. simpl.
  destruct (get_from_at _ _ _ Hat) as [after ->]. cbn [unwrap bind].
  eexists. split; [reflexivity|]. replace (N.to_nat n) with (length rs + 0)%nat by (unfold nlen in Hlen; lia).
  rewrite iter_complete by auto. simpl. rewrite app_nil_r. clear - Hb.
  induction rs as [|c rs IH]; simpl; constructor; auto.
  destruct (entry_result (deref v) (r_offset c)) as [[e He]|He].
  - left. destruct (entry_sound _ _ _ Hb He) as (l & contents & Hm & ->). eauto.
  - right. split; auto. intros l contents Hm. rewrite (entry_complete _ _ _ _ Hm) in He. discriminate.
Qed.
(** If the directory breaks off after the records [rs], there is an error
    after their results. *)
Theorem C24_malformed : forall v a rs, is_bytes (deref v) -> with_mmap v = Ok a ->
  directory_at (deref v) (a_cd_offset a) rs -> nlen rs < a_cd_records a ->
  (forall c, wf_cdrec c -> ~ at_ (deref v) (a_cd_offset a + nlen (flat_map enc_cdrec rs)) (enc_cdrec c)) ->
  exists es, entries a = Ok es /\ nth_error es (length rs) = Some (Err EInvalidData).
Proof.
  intros v a rs Hb Ha [Hwf Hat] Hlen Hno. unfold with_mmap in Ha. ib Ha q Eq. destruct q as [o n].
  injection Ha as <-. simpl in *. unfold entries. simpl.
  destruct (get_from_at _ _ _ Hat) as [after Hg]. rewrite Hg. cbn [unwrap bind].
  eexists. split; [reflexivity|].
  replace (N.to_nat n) with (length rs + S (N.to_nat n - length rs - 1))%nat by (unfold nlen in Hlen; lia).
  rewrite iter_complete by auto. rewrite nth_error_app2 by (rewrite map_length; lia).
  rewrite map_length, Nat.sub_diag. simpl.
  assert (Hba : is_bytes after) by (apply (get_from_bytes _ _ _ Hb) in Hg; rewrite is_bytes_app in Hg; tauto).
  destruct (next_sound (deref v) after Hba) as [(c & r' & Hc & -> & E)|(r' & _ & E)]; rewrite E; auto.
  exfalso. apply (Hno c Hc). now apply get_from_at2 in Hg.
Qed.
(** The mapping of a member shows the member's data (C15: what build IDs and
    symbols of members are read from). *)
Theorem C24_member_mapping : forall m v a es k e, view_ok v -> mm_end v < two64 ->
  is_bytes (deref v) -> with_mmap v = Ok a -> entries a = Ok es -> nth_error es k = Some (Ok e) ->
  exists v', constrain m (a_mmap a) (e_data_offset e) (e_data_offset e + nlen (e_data e)) = Ok (Some v') /\
    deref v' = e_data e.
Proof.
  intros m v a es k e Hv Hend Hb Ha He Hn.
  destruct (C24_in_bounds v a es k e Hb Ha He Hn) as [Hat Hle].
  assert (Hav : a_mmap a = v).
  { unfold with_mmap in Ha. ib Ha q Eq. destruct q. now injection Ha as <-. }
  rewrite Hav. pose proof (nlen_deref v Hv) as Hl.
  assert (Hse : mm_start v <= mm_end v) by (destruct Hv as (? & _ & ? & _); lia).
  destruct (C49_constrain m v (e_data_offset e) (e_data_offset e + nlen (e_data e)) Hv) as [H _]; [lia|lia|].
  destruct (H Hle) as (v' & E & _ & Hat' & Hl'). exists v'. split; auto.
  apply at_range in Hat. apply at_range in Hat'. rewrite Hl' in Hat'.
  replace (e_data_offset e + (e_data_offset e + nlen (e_data e) - e_data_offset e))
    with (e_data_offset e + nlen (e_data e)) in Hat' by lia. congruence.
Qed.

(** ** C25: the end of the directory *)

(** A record that no other one comes after. *)
Definition last_record (data : list N) (p : N) (z : eocd) : Prop :=
  end_record_at data p z /\ forall q y, p < q -> ~ end_record_at data q y.

Lemma cd_of_spec : forall data z, single_file z ->
  cd_of data z = if z_offset z + z_records z * 46 <=? nlen data then Ok (z_offset z, z_records z) else Err EUnexpectedEof.
Proof. intros data z (H1 & H2 & H3). unfold cd_of. rewrite H1, H2, H3, !N.eqb_refl. auto. Qed.

Lemma end_record_fun : forall data p z z', end_record_at data p z -> end_record_at data p z' ->
  z_offset z = z_offset z' /\ z_records z = z_records z' /\ (single_file z <-> single_file z').
Proof.
  intros data p z z' (Hw & c & Hc & Hat) (Hw' & c' & Hc' & Hat').
  destruct (get_from_at _ _ _ Hat) as [x Hx]. destruct (get_from_at _ _ _ Hat') as [x' Hx'].
  rewrite Hx in Hx'. apply some_inj in Hx'. rewrite <- !app_assoc in Hx'.
  assert (E : enc_eocd z = enc_eocd z').
  { apply (f_equal (ntake 22)) in Hx'. rewrite !ntake_app_exact in Hx' by (now rewrite nlen_enc_eocd). auto. }
  rewrite !enc_eocd_hdr in E.
  destruct (eocd_fields z Hw) as (_ & F1 & F2 & F3 & F4 & F5 & _).
  destruct (eocd_fields z' Hw') as (_ & G1 & G2 & G3 & G4 & G5 & _).
  rewrite E in F1, F2, F3, F4, F5. unfold single_file.
  rewrite <- F1, <- F2, <- F3, <- F4, <- F5, <- G1, <- G2, <- G3, <- G4, <- G5. tauto.
Qed.
Lemma open_found : forall v p z, is_bytes (deref v) -> last_record (deref v) p z ->
  nlen (deref v) <= p + 22 + 2 ^ 16 ->
  exists z', end_record_at (deref v) p z' /\ find_cd (deref v) = cd_of (deref v) z'.
Proof.
  intros v p z Hb [Hz Hlast] Hl.
  destruct (find_cd_spec (deref v) Hb) as [(p' & z' & Hz' & Hl' & Hlast' & E)|[Hno _]].
  - assert (p' = p).
    { destruct (N.lt_trichotomy p p') as [L|[->|L]]; auto; exfalso.
      - exact (Hlast p' z' L Hz').
      - exact (Hlast' p z L Hz). }
    subst p'. eauto.
  - exfalso. exact (Hno p z Hl Hz).
Qed.
(** An archive in one file opens, with the directory its last end record
    gives, whatever the comment after the record (of at most 65535 bytes). *)
Theorem C25_found : forall v p z, is_bytes (deref v) -> last_record (deref v) p z ->
  nlen (deref v) <= p + 22 + 2 ^ 16 -> single_file z ->
  z_offset z + 46 * z_records z <= nlen (deref v) ->
  with_mmap v = Ok (Archive v (z_offset z) (z_records z)).
Proof.
  intros v p z Hb Hz Hl Hs Hr. destruct (open_found v p z Hb Hz Hl) as (z' & Hz' & E).
  destruct (end_record_fun _ _ _ _ (proj1 Hz) Hz') as (E1 & E2 & E3).
  unfold with_mmap. rewrite E, cd_of_spec by tauto. rewrite <- E1, <- E2.
  destruct (N.leb_spec (z_offset z + z_records z * 46) (nlen (deref v))); [auto|lia].
Qed.
(** The same, for a record followed by nothing but its comment. *)
Theorem C25_comment : forall v pre z comment, is_bytes (deref v) -> wf_eocd z ->
  deref v = pre ++ enc_eocd z ++ comment -> nlen comment = z_comment_len z ->
  (forall q, nlen pre < q -> ~ at_ (deref v) q [80; 75; 5; 6]) -> single_file z ->
  z_offset z + 46 * z_records z <= nlen (deref v) ->
  with_mmap v = Ok (Archive v (z_offset z) (z_records z)).
Proof.
  intros v pre z comment Hb Hw Hd Hc Hno Hs Hr. apply (C25_found v (nlen pre)); auto.
  - split.
    + split; auto. exists comment. split; auto. exists pre, []. now rewrite app_nil_r.
    + intros q y Hq (_ & c & _ & Hat). apply (Hno q Hq).
      unfold enc_eocd in Hat. rewrite <- !app_assoc in Hat. now apply at_app in Hat.
  - rewrite Hd, !nlen_app, nlen_enc_eocd, Hc. destruct Hw as [H16 _].
    assert (z_comment_len z < 2 ^ 16) by in_u. lia.
Qed.
(** What is not supported or does not fit is an error. *)
Theorem C25_rejected : forall v p z, is_bytes (deref v) -> last_record (deref v) p z ->
  nlen (deref v) <= p + 22 + 2 ^ 16 ->
  (~ single_file z -> with_mmap v = Err EInvalidData) /\
  (single_file z -> nlen (deref v) < z_offset z + 46 * z_records z -> with_mmap v = Err EUnexpectedEof).
Proof.
  intros v p z Hb Hz Hl. destruct (open_found v p z Hb Hz Hl) as (z' & Hz' & E).
  destruct (end_record_fun _ _ _ _ (proj1 Hz) Hz') as (E1 & E2 & E3).
  unfold with_mmap. rewrite E. split.
  - intros Hs. unfold cd_of. destruct ((z_disk z' =? 0) && (z_cd_disk z' =? 0) && (z_total z' =? z_records z')) eqn:Ec; auto.
    exfalso. apply Hs, E3. rewrite !andb_true_iff, !N.eqb_eq in Ec. red. tauto.
  - intros Hs Hr. rewrite cd_of_spec by tauto. rewrite <- E1, <- E2.
    destruct (N.leb_spec (z_offset z + z_records z * 46) (nlen (deref v))); [lia|auto].
Qed.
Theorem C25_missing : forall v, is_bytes (deref v) ->
  (forall p z, nlen (deref v) <= p + 22 + 2 ^ 16 -> ~ end_record_at (deref v) p z) ->
  with_mmap v = Err EInvalidData.
Proof.
  intros v Hb Hno. unfold with_mmap.
  destruct (find_cd_spec (deref v) Hb) as [(p' & z' & Hz' & Hl' & _)|[_ ->]]; auto.
  exfalso. exact (Hno _ _ Hl' Hz').
Qed.
(** Conversely, what an archive is opened with is from its last record. *)
Theorem C25_consistent : forall v a, is_bytes (deref v) -> with_mmap v = Ok a ->
  exists p z, last_record (deref v) p z /\ single_file z /\ nlen (deref v) <= p + 22 + 2 ^ 16 /\
    a = Archive v (z_offset z) (z_records z) /\ z_offset z + 46 * z_records z <= nlen (deref v).
Proof.
  intros v a Hb Ha. unfold with_mmap in Ha. ib Ha q Eq. destruct q as [o n]. injection Ha as <-.
  destruct (find_cd_spec (deref v) Hb) as [(p & z & Hz & Hl & Hlast & E)|[_ E]]; [|congruence].
  rewrite Eq in E. unfold cd_of in E.
  destruct ((z_disk z =? 0) && (z_cd_disk z =? 0) && (z_total z =? z_records z)) eqn:Ec; [|discriminate].
  destruct (N.leb_spec (z_offset z + z_records z * 46) (nlen (deref v))); [|discriminate].
  injection E as -> ->. rewrite !andb_true_iff, !N.eqb_eq in Ec.
  exists p, z. split; [split; auto|]. split; [red; tauto|]. repeat split; auto. lia.
Qed.

(** An archive to try things on: two members "a" and "b/c" (the latter
    encrypted), and a comment. *)
Definition sample_local (flags : N) (name contents : list N) : list N :=
  enc_local (Local 20 flags 0 0 0 0 (nlen contents) (nlen contents) name [0; 0]) ++ contents.
Definition sample_record (off : N) (name : list N) : cdrec :=
  Cdrec 20 20 0 0 0 0 0 0 0 0 0 0 off name [7] [8; 9].
Definition sample_members : list N :=
  sample_local 0 [97] [1; 2; 3] ++ sample_local 1 [98; 47; 99] [4; 5].
Definition sample_zip (comment : list N) : list N :=
  sample_members ++ flat_map enc_cdrec [sample_record 0 [97]; sample_record 36 [98; 47; 99]] ++
  enc_eocd (Eocd 0 0 2 2 0 (nlen sample_members) (nlen comment)) ++ comment.
Example C24_example :
  match with_mmap (map_file (sample_zip [1; 2])) with
  | Ok a => entries a = Ok [Ok (Entry 0 [97] 33 [1; 2; 3]); Err EInvalidData]
  | _ => False
  end.
Proof. vm_compute. reflexivity. Qed.
Example C25_example : match with_mmap (map_file (sample_zip (repeat 80 300))) with
  | Ok a => (a_cd_offset a, a_cd_records a) = (73, 2) | _ => False end.
Proof. vm_compute. reflexivity. Qed.

(** The comment may contain something that looks like an end record, which is
    then taken for the archive's. *)
Theorem C25_comment_refuted : exists v z pre comment, wf_eocd z /\ is_bytes (deref v) /\
  deref v = pre ++ enc_eocd z ++ comment /\ nlen comment = z_comment_len z /\ single_file z /\
  z_offset z + 46 * z_records z <= nlen (deref v) /\
  with_mmap v <> Ok (Archive v (z_offset z) (z_records z)) /\
  exists a, with_mmap v = Ok a /\ entries a = Ok [].
Proof.
  pose (fake := enc_eocd (Eocd 0 0 0 0 0 0 0)).
  exists (map_file (sample_zip fake)), (Eocd 0 0 2 2 0 (nlen sample_members) (nlen fake)),
    (sample_members ++ flat_map enc_cdrec [sample_record 0 [97]; sample_record 36 [98; 47; 99]]), fake.
  rewrite C49_map. split; [split; repeat constructor; vm_compute; auto|].
  split; [unfold is_bytes; vm_compute; repeat (constructor; [reflexivity|]); constructor|].
  split; [unfold sample_zip; now rewrite <- !app_assoc|].
  split; [reflexivity|]. split; [repeat split|]. split; [vm_compute; discriminate|].
  split; [vm_compute; discriminate|].
  eexists. split; vm_compute; reflexivity.
Qed.

(** ** C15: the archives of normalization *)

(** What normalization makes of an archive: the members with the build IDs
    read from their data. *)
Definition zip_members (build_id : list N -> outcome (option (list N))) (file : list N)
    : outcome (list (outcome zmember)) :=
  match with_mmap (map_file file) with
  | Ok a => match entries a with
      | Ok es => Good (map (fun x => match x with
          | Ok e => Good (ZMember (e_path e) (e_data_offset e) (nlen (e_data e)) (build_id (e_data e)))
          | Err k => Bad k
          | _ => Bad EOther
          end) es)
      | _ => Bad EOther
      end
  | Err k => Bad k
  | _ => Bad EOther
  end.
Theorem C15_archives : forall Sym (env : nenv Sym) (files : list N -> list N) build_id,
  (forall p, nv_archive env p = zip_members build_id (files p)) ->
  (forall p, is_bytes (files p) /\ nlen (files p) < two64) -> wf_archives env.
Proof.
  intros Sym env files build_id He Hf p ms mb Ha Hin. rewrite He in Ha.
  destruct (Hf p) as [Hb Hl]. unfold zip_members in Ha.
  destruct (with_mmap (map_file (files p))) as [a|k| |] eqn:Ea; try discriminate.
  destruct (entries a) as [es|k| |] eqn:Ee; try discriminate. injection Ha as <-.
  apply in_map_iff in Hin. destruct Hin as (x & Ex & Hin). destruct x as [e|k| |]; try discriminate.
  injection Ex as <-. simpl. apply In_nth_error in Hin. destruct Hin as [n Hn].
  rewrite <- (C49_map (files p)) in Hb, Hl.
  destruct (C24_in_bounds _ _ _ _ _ Hb Ea Ee Hn) as [_ H]. lia.
Qed.

Print Assumptions C49_map.
Print Assumptions C49_map_ok.
Print Assumptions C49_constrain.
Print Assumptions C49_nested.
Print Assumptions C49_empty_refuted.
Print Assumptions C49_reversed_refuted.
Print Assumptions C49_overflow_refuted.
Print Assumptions C24_total.
Print Assumptions C24_sound.
Print Assumptions C24_in_bounds.
Print Assumptions C24_directory.
Print Assumptions C24_malformed.
Print Assumptions C24_member_mapping.
Print Assumptions C25_found.
Print Assumptions C25_comment.
Print Assumptions C25_rejected.
Print Assumptions C25_missing.
Print Assumptions C25_consistent.
Print Assumptions C25_comment_refuted.
Print Assumptions C15_archives.
