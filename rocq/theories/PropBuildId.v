(** * Build IDs

    Claim C31 of /verif/properties.jsonl. *)

From Coq Require Import String.
From Verif Require Import Base Util UtilProofs Total Bytes Text Nom Elf ElfSpec ElfFormat ElfTotal ElfExample BuildId BuildIdSpec.
Local Close Scope string_scope.
Local Open Scope N_scope.

Lemma nlen_repeat : forall A (a : A) n, nlen (repeat a n) = N.of_nat n.
Proof. intros A a n. unfold nlen. now rewrite repeat_length. Qed.
Lemma pad4_len : forall m l, nlen l + 3 < 2 ^ 32 -> align_up m two32 (nlen l) 4 = Ok (nlen (pad4 l)).
Proof.
  intros m l H. destruct (align_up_spec m two32 (nlen l) 2) as (r & Hr & Hd & Hle & Hmin); auto.
  { reflexivity. }
  change (2 ^ 2) with 4 in *. rewrite Hr. f_equal. unfold pad4. rewrite nlen_app, nlen_repeat, N2Nat.id.
  set (p := nlen l + (4 - nlen l mod 4) mod 4).
  assert (Hp : (4 | p)).
  { unfold p. clear. pose proof (N.div_mod (nlen l) 4 ltac:(lia)) as E.
    pose proof (N.mod_lt (nlen l) 4 ltac:(lia)) as Hm. revert E Hm.
    generalize (nlen l / 4), (nlen l mod 4). intros q z E Hm. rewrite E.
    assert (Hz : z = 0 \/ z = 1 \/ z = 2 \/ z = 3) by lia.
    destruct Hz as [->|[->|[->| ->]]]; [exists q|exists (q + 1)..]; change ((4 - 0) mod 4) with 0;
      change ((4 - 1) mod 4) with 3; change ((4 - 2) mod 4) with 2; change ((4 - 3) mod 4) with 1; lia. }
  assert (Hlp : nlen l <= p) by (unfold p; lia).
  specialize (Hmin p Hp Hlp). destruct Hd as [a Ha]. destruct Hp as [b Hb].
  assert (p < nlen l + 4).
  { unfold p. pose proof (N.mod_lt (4 - nlen l mod 4) 4 ltac:(lia)). lia. }
  lia.
Qed.
Lemma pad4_mult : forall l, nlen (pad4 l) mod 4 = 0.
Proof.
  intros l. unfold pad4. rewrite nlen_app, nlen_repeat, N2Nat.id.
  pose proof (N.mod_lt (nlen l) 4 ltac:(lia)) as Hm.
  rewrite <- N.add_mod_idemp_l by lia. revert Hm. generalize (nlen l mod 4). intros z Hm.
  assert (Hz : z = 0 \/ z = 1 \/ z = 2 \/ z = 3) by lia.
  destruct Hz as [->|[->|[->| ->]]]; reflexivity.
Qed.

Definition id_note (n : note) : bool := nt_type n =? 3.
Lemma notes_loop_ok : forall m l fuel pos, Forall wf_note l -> pos mod 4 = 0 ->
  (List.length (flat_map enc_note l) < fuel)%nat ->
  notes_loop fuel m pos (flat_map enc_note l) = Ok (option_map nt_desc (find id_note l)).
Proof.
  intros m. induction l as [|n l IH]; intros [|fuel] pos Hw Hp Hf; try lia; [reflexivity|].
  inversion Hw as [|? ? (W1 & W2 & W3) Hw']; subst. cbn [flat_map notes_loop] in *.
  set (rest := flat_map enc_note l) in *.
  set (hd := le_bytes 4 (nlen (nt_name n)) ++ le_bytes 4 (nlen (nt_desc n)) ++ le_bytes 4 (nt_type n) ++ []).
  assert (E : enc_note n ++ rest = hd ++ pad4 (nt_name n) ++ pad4 (nt_desc n) ++ rest).
  { unfold enc_note, hd. rewrite <- !app_assoc. reflexivity. }
  assert (Hhd : nlen hd = 12) by (unfold hd; rewrite !nlen_app, !le_bytes_nlen; reflexivity).
  rewrite E in *. replace (nlen (hd ++ _) <? 12) with false.
  2: { symmetry. apply N.ltb_ge. rewrite nlen_app, Hhd. lia. }
  rewrite (read_slice_app 12) by exact Hhd. cbn [ok_or bind]. rewrite Hp. cbn [N.eqb negb].
  assert (F1 : field 0 4 hd = nlen (nt_name n)) by (unfold hd; apply (field_here 4); cbn; lia).
  assert (F2 : field 4 4 hd = nlen (nt_desc n)) by (unfold hd; skip_field; apply (field_here 4); cbn; lia).
  assert (F3 : field 8 4 hd = nt_type n) by (unfold hd; do 2 skip_field; apply (field_here 4); cbn; lia).
  rewrite F1, F2, F3, (pad4_len m _ W1). cbn [bind]. unfold advance at 1. rewrite read_slice_app by reflexivity. cbn [bind ok_or].
  unfold NT_GNU_BUILD_ID. cbn [find]. unfold id_note at 1. destruct (nt_type n =? 3).
  - unfold pad4 at 1. rewrite <- app_assoc, read_slice_app by reflexivity. reflexivity.
  - rewrite (pad4_len m _ W2). cbn [bind]. unfold advance. rewrite read_slice_app by reflexivity. cbn [bind ok_or].
    apply IH; auto.
    + pose proof (pad4_mult (nt_name n)). pose proof (pad4_mult (nt_desc n)).
      rewrite <- N.add_mod_idemp_r, H0 by lia. rewrite N.add_0_r.
      rewrite <- N.add_mod_idemp_r, H by lia. rewrite N.add_0_r.
      rewrite <- N.add_mod_idemp_l, Hp by lia. reflexivity.
    + rewrite !app_length in Hf. unfold nlen in Hhd. lia.
Qed.

Section File.
  Variables (x : ext) (m : mode) (ptr : N) (data : list N) (e : image).
  Hypothesis Hf : elf_file ptr data e.
  Local Notation b := (Mem ptr data).

  Lemma section_data_ok : forall i s, nnth i (i_sections e) = Some s -> sh_type (s_hdr s) <> SHT_NOBITS ->
    N.land (sh_flags (s_hdr s)) 2048 = 0 ->
    section_data x m b i = Ok (ptr + sh_offset (s_hdr s), s_data s).
  Proof.
    intros i s Hi Hn Hc. unfold section_data. rewrite (section_hdr_ok ptr data e Hf i s Hi). cbn [bind].
    destruct (section_contents ptr data e Hf i s Hi) as [[E _]|(_ & Hat & Hl)]; [contradiction|].
    apply N.eqb_neq in Hn. rewrite Hn. cbn [negb]. rewrite (parse_ehdr_ok ptr data e Hf). cbn [bind].
    rewrite <- Hl, (read_bytes_at _ _ _ _ Hat). cbn [bind]. unfold SHF_COMPRESSED. now rewrite Hc.
  Qed.
  Lemma ptr_aligned : ptr mod 4 = 0.
  Proof.
    destruct Hf as (_ & H & _). unfold word_align in H. destruct (i_32 e); auto.
    apply N.mod_divide in H; [|lia]. apply N.mod_divide; [lia|]. destruct H as [q ->]. exists (q * 2). lia.
  Qed.
  Lemma build_id_loop_ok : forall l ll i, Forall2 notes_of l ll ->
    (forall k s, nth_error l k = Some s -> nnth (i + N.of_nat k) (i_sections e) = Some s) ->
    build_id_loop x m b (map s_hdr l) i = Ok (option_map nt_desc (find id_note (concat ll))).
  Proof.
    intros l ll i H. revert i. induction H as [|s ns l ll Hs H IH]; intros i Hn; [reflexivity|].
    cbn [map build_id_loop concat].
    assert (Hn' : forall k s, nth_error l k = Some s -> nnth (i + 1 + N.of_nat k) (i_sections e) = Some s).
    { intros k z Hk. replace (i + 1 + N.of_nat k) with (i + N.of_nat (S k)) by lia. now apply Hn. }
    unfold notes_of in Hs. unfold SHT_NOTE. destruct (N.eqb_spec (sh_type (s_hdr s)) 7) as [Ht|Ht].
    - destruct Hs as (Hd & Hw & Ho & Hc).
      pose proof (Hn O s eq_refl) as Hi. replace (i + N.of_nat 0) with i in Hi by lia.
      rewrite (section_data_ok i s Hi); [|rewrite Ht; discriminate|exact Hc]. cbn [unwrap_res bind].
      rewrite Hd, notes_loop_ok; auto; [|rewrite <- N.add_mod_idemp_l, ptr_aligned by lia; exact Ho]. cbn [bind].
      assert (Hfa : find id_note (ns ++ concat ll) = match find id_note ns with Some n => Some n | None => find id_note (concat ll) end).
      { clear. induction ns as [|n ns IH]; [reflexivity|]. cbn [app find]. destruct (id_note n); auto. }
      rewrite Hfa. destruct (find id_note ns) as [n|]; cbn [option_map]; auto.
    - subst ns. cbn [app]. auto.
  Qed.
End File.

(** The build ID is the descriptor of the first GNU build ID note, if notes of
    other vendors do not use its type. *)
Theorem C31_first : forall x m ptr data e l, elf_file ptr data e -> notes e l ->
  (forall n, In n l -> nt_type n = 3 -> nt_name n = GNU) ->
  read_build_id x m (Mem ptr data) = Ok (option_map nt_desc (find is_build_id l)).
Proof.
  intros x m ptr data e l Hf (ll & Hll & ->) Hg. unfold read_build_id.
  rewrite (parse_shdrs_ok ptr data e Hf). cbn [bind].
  rewrite (build_id_loop_ok x m ptr data e Hf (i_sections e) ll 0 Hll).
  - do 2 f_equal. clear Hll. revert Hg. generalize (concat ll). intros l. induction l as [|n l IH]; intros Hg; [reflexivity|].
    cbn [find]. unfold id_note at 1, is_build_id at 1. destruct (N.eqb_spec (nt_type n) 3) as [E|E]; cbn [andb].
    + rewrite (Hg n (or_introl eq_refl) E). reflexivity.
    + apply IH. intros z Hz. apply Hg. now right.
  - intros k s Hk. rewrite nnth_nth_error. now replace (N.to_nat (0 + N.of_nat k)) with k by lia.
Qed.
Print Assumptions C31_first.

(** ** Whatever the file has in it *)
Lemma notes_loop_bounds : forall m fuel pos bytes id,
  notes_loop fuel m pos bytes = Ok (Some id) -> exists off, at_ bytes off id.
Proof.
  intros m. induction fuel as [|fuel IH]; intros pos bytes id H; [discriminate|]. cbn [notes_loop] in H.
  destruct (_ <? _); [discriminate|]. ib H [d r] E. apply ok_or_ok_inv, read_slice_ok in E. destruct E as (-> & _).
  destruct (negb _); [discriminate|]. ib H n En. ib H r1 E1. apply ok_or_ok_inv in E1. unfold advance in E1.
  ib E1 [d1 r1'] E1'. apply read_slice_ok in E1'. destruct E1' as (-> & _). injection E1 as ->.
  destruct (_ =? _).
  - ib H [d2 r2] E2. apply ok_or_ok_inv, read_slice_ok in E2. destruct E2 as (-> & _). injection H as <-.
    exists (nlen (d ++ d1)), (d ++ d1), r2. split; auto. now rewrite <- app_assoc.
  - ib H k Ek. ib H r2 E2. apply ok_or_ok_inv in E2. unfold advance in E2.
    ib E2 [d2 r2'] E2'. apply read_slice_ok in E2'. destruct E2' as (-> & _). injection E2 as ->.
    apply IH in H. destruct H as (off & u & v & -> & Hu). exists (nlen (d ++ d1 ++ d2 ++ u)), (d ++ d1 ++ d2 ++ u), v.
    split; auto. now rewrite <- !app_assoc.
Qed.
(** Bytes reported are from a section of notes. *)
Theorem C31_bounds : forall x m b shdrs id,
  read_build_id x m b = Ok (Some id) -> parse_shdrs b = Ok shdrs ->
  exists i sh pos bytes off, nnth i shdrs = Some sh /\ sh_type sh = 7 /\
    section_data x m b i = Ok (pos, bytes) /\ at_ bytes off id.
Proof.
  intros x m b shdrs id H Hs. unfold read_build_id in H. rewrite Hs in H. cbn [bind] in H.
  assert (G : forall l i, build_id_loop x m b l i = Ok (Some id) ->
    exists k sh pos bytes off, nth_error l k = Some sh /\ sh_type sh = 7 /\
      section_data x m b (i + N.of_nat k) = Ok (pos, bytes) /\ at_ bytes off id).
  { induction l as [|sh l IH]; intros i Hl; [discriminate|]. cbn [build_id_loop] in Hl.
    assert (Hnext : build_id_loop x m b l (i + 1) = Ok (Some id) ->
       exists k sh' pos bytes off, nth_error (sh :: l) k = Some sh' /\ sh_type sh' = 7 /\
      section_data x m b (i + N.of_nat k) = Ok (pos, bytes) /\ at_ bytes off id).
    { intros Hn. apply IH in Hn. destruct Hn as (k & sh' & pos & bytes & off & H1 & H2 & H3 & H4).
      exists (S k), sh', pos, bytes, off. replace (i + N.of_nat (S k)) with (i + 1 + N.of_nat k) by lia. auto. }
    unfold SHT_NOTE in Hl. destruct (N.eqb_spec (sh_type sh) 7) as [Et|]; [|auto].
    ib Hl [pos bytes] E. ib Hl o Eo. destruct o as [id'|]; [|auto]. injection Hl as ->.
    apply notes_loop_bounds in Eo. destruct Eo as [off Hoff].
    exists O, sh, pos, bytes, off. split; auto. split; auto. split; auto.
    replace (i + N.of_nat 0) with i by lia. destruct (section_data x m b i); try discriminate. exact E. }
  apply G in H. destruct H as (k & sh & pos & bytes & off & H1 & H2 & H3 & H4).
  exists (N.of_nat k), sh, pos, bytes, off. rewrite nnth_nth_error, Nat2N.id. auto.
Qed.
Print Assumptions C31_bounds.

(** Notes, however malformed, are no reason to panic (in a release build),
    provided sections are part of the file. *)
Lemma total_notes_loop : forall m fuel pos bytes, (List.length bytes < fuel)%nat ->
  total m (notes_loop fuel m pos bytes).
Proof.
  intros m. induction fuel as [|fuel IH]; intros pos bytes Hl; [lia|]. cbn [notes_loop].
  destruct (_ <? _); [apply total_ok|].
  apply total_bind; [apply total_ok_or, total_read_slice|]. intros [d r] E.
  apply ok_or_ok_inv, read_slice_ok in E. destruct E as (-> & Hd & _).
  destruct (negb _); [apply total_err|].
  assert (Hal : forall v, total m (align_up m two32 v 4)).
  { intros v. unfold align_up. apply total_bind; [apply total_usub|]. intros. apply total_bind; [apply total_uadd|].
    intros; apply total_ok. }
  apply total_bind; [apply Hal|]. intros n _.
  apply total_bind; [apply total_ok_or; unfold advance; apply total_bind; [apply total_read_slice|intros [? ?] _; apply total_ok]|].
  intros r1 E1. apply ok_or_ok_inv in E1. unfold advance in E1.
  ib E1 [d1 r1'] E1'. apply read_slice_ok in E1'. destruct E1' as (-> & _). injection E1 as ->.
  destruct (_ =? _).
  - apply total_bind; [apply total_ok_or, total_read_slice|]. intros [? ?] _. apply total_ok.
  - apply total_bind; [apply Hal|]. intros k _.
    apply total_bind; [apply total_ok_or; unfold advance; apply total_bind; [apply total_read_slice|intros [? ?] _; apply total_ok]|].
    intros r2 E2. apply ok_or_ok_inv in E2. unfold advance in E2.
    ib E2 [d2 r2'] E2'. apply read_slice_ok in E2'. destruct E2' as (-> & _). injection E2 as ->.
    apply IH. rewrite !app_length in Hl. unfold nlen in Hd. lia.
Qed.
Theorem C31_total : forall x m ptr data, ext_total x ->
  (forall shdrs i sh, parse_shdrs (Mem ptr data) = Ok shdrs -> nnth i shdrs = Some sh -> sh_type sh = 7 ->
     exists r, section_data x m (Mem ptr data) i = Ok r) ->
  total m (read_build_id x m (Mem ptr data)).
Proof.
  intros x m ptr data Hx Hs. unfold read_build_id. apply total_bind; [apply total_parse_shdrs|]. intros shdrs E.
  specialize (Hs shdrs).
  assert (G : forall l i, (forall k sh, nth_error l k = Some sh -> nnth (i + N.of_nat k) shdrs = Some sh) ->
    total m (build_id_loop x m (Mem ptr data) l i)).
  { induction l as [|sh l IH]; intros i Hn; [apply total_ok|]. cbn [build_id_loop].
    assert (Hn' : total m (build_id_loop x m (Mem ptr data) l (i + 1))).
    { apply IH. intros k z Hk. replace (i + 1 + N.of_nat k) with (i + N.of_nat (S k)) by lia. now apply Hn. }
    unfold SHT_NOTE. destruct (N.eqb_spec (sh_type sh) 7) as [Et|]; [|exact Hn'].
    pose proof (Hn O sh eq_refl) as Hi. replace (i + N.of_nat 0) with i in Hi by lia.
    destruct (Hs i sh E Hi Et) as [[pos bytes] ->]. cbn [unwrap_res bind].
    apply total_bind; [apply total_notes_loop; lia|]. intros [id|] _; [apply total_ok|exact Hn']. }
  apply G. intros k sh Hk. rewrite nnth_nth_error. now replace (N.to_nat (0 + N.of_nat k)) with k by lia.
Qed.
Print Assumptions C31_total.

(** Examples: a note of the ABI, then the build ID *)
Definition nt_abi := Note GNU 1 [0; 0; 0; 0; 3; 0; 0; 0].
Definition nt_id := Note GNU 3 [222; 173; 190; 239; 1].
Definition id_made := make false 3 []
  [Input (bs ".note.ABI-tag"%string) 7 0 0 0 (enc_note nt_abi);
   Input (bs ".note.gnu.build-id"%string) 7 0 0 0 (enc_note nt_abi ++ enc_note nt_id)].
Example C31_example :
  elf_file 0 (snd id_made) (fst id_made) /\ notes (fst id_made) [nt_abi; nt_abi; nt_id] /\
  read_build_id no_ext Checked (Mem 0 (snd id_made)) = Ok (Some [222; 173; 190; 239; 1]).
Proof.
  split; [apply elf_file_check; vm_compute; reflexivity|]. split; [|vm_compute; reflexivity].
  exists [[]; [nt_abi]; [nt_abi; nt_id]; []]. split; [|reflexivity].
  constructor; [reflexivity|]. constructor; [|constructor; [|constructor; [reflexivity|constructor]]];
    (split; [reflexivity|split; [repeat constructor|split; reflexivity]]).
Qed.

(** Notes of other vendors may use the same number for something else; they
    are taken for a build ID. *)
Definition nt_probe := Note (bs "stapsdt"%string ++ [0]) 3 (repeat 7 24).
Definition stap_made := make false 3 []
  [Input (bs ".note.stapsdt"%string) 7 0 0 0 (enc_note nt_probe);
   Input (bs ".note.gnu.build-id"%string) 7 0 0 0 (enc_note nt_id)].
Theorem C31_vendor_refuted : exists ptr data e l n,
  elf_file ptr data e /\ notes e l /\ find is_build_id l = Some n /\
  exists id, read_build_id no_ext Checked (Mem ptr data) = Ok (Some id) /\ id <> nt_desc n.
Proof.
  exists 0, (snd stap_made), (fst stap_made), [nt_probe; nt_id], nt_id.
  split; [apply elf_file_check; vm_compute; reflexivity|]. split; [|split; [reflexivity|]].
  - exists [[]; [nt_probe]; [nt_id]; []]. split; [|reflexivity].
    constructor; [reflexivity|]. constructor; [|constructor; [|constructor; [reflexivity|constructor]]];
      (split; [reflexivity|split; [repeat constructor|split; reflexivity]]).
  - exists (repeat 7 24). split; [vm_compute; reflexivity|discriminate].
Qed.
Print Assumptions C31_vendor_refuted.

(** A section of notes outside of the file is a panic. *)
Definition cut_data : list N :=
  let h := FileHeader ([1; 1] ++ repeat 0 9) 3 62 1 0 0 64 0 64 56 0 64 1 0 in
  enc_file_header false h ++ enc_section_header false (Shdr 0 7 0 0 4096 16 0 0 4 0).
Theorem C31_crash_refuted : exists data, is_bytes data /\
  read_build_id no_ext Wrapping (Mem 0 data) = Panic.
Proof.
  exists cut_data. split; [|vm_compute; reflexivity].
  apply Forall_forall. intros v Hv. apply N.ltb_lt. revert v Hv. rewrite <- forallb_forall. vm_compute. reflexivity.
Qed.
Print Assumptions C31_crash_refuted.
