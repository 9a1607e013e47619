(** * ELF files without section headers *)

From Coq Require Import String Permutation.
From Verif Require Import Base Util UtilProofs Bytes Text Nom Sym Inspect Elf ElfSpec ElfFormat ElfProofs ElfExample BuildId ElfBareSpec.
From Verif Require Gsym.
Local Close Scope string_scope.
Local Open Scope N_scope.

Lemma field_ntake : forall off k l n, off + k <= n -> field off k (ntake n l) = field off k l.
Proof.
  intros off k l n Hn. unfold field. f_equal. rewrite !ntake_firstn, !ndrop_skipn, skipn_firstn_comm, firstn_firstn.
  f_equal. lia.
Qed.
Lemma field_low : forall a v r k, 0 < k -> v < 256 -> field (nlen a) k (a ++ v :: r) mod 256 = v.
Proof.
  intros a v r k Hk Hv. unfold field. rewrite ndrop_app_exact by reflexivity. cbn [ntake].
  destruct (N.eqb_spec k 0); [lia|]. cbn [le_val].
  rewrite N.mul_comm, N.mod_add by discriminate. now apply N.mod_small.
Qed.
(** What the file header looks like when taken for a section header *)
Lemma first_size : forall c h, wf_file_header c h ->
  sh_size (dec_shdr c (ntake (shdr_size c) (enc_file_header c h))) = if c then h_version h else h_phoff h.
Proof.
  intros c h (H1 & H2 & H3 & H4).
  assert (Hl : nlen (enc_file_header c h) = ehdr_size c) by now apply enc_ehdr_size.
  unfold dec_shdr. destruct c; cbn [sh_size shdr_size]; rewrite field_ntake by (vm_compute; discriminate).
  all: unfold enc_file_header, word; rewrite (app_assoc _ (h_ident h)).
  all: assert (H16 : forall k, nlen ([127; 69; 76; 70; k] ++ h_ident h) = 16)
    by (intros k; rewrite nlen_app, H1; reflexivity).
  all: rewrite !(field_skip_list _ _ (_ ++ h_ident h)) by (rewrite H16; vm_compute; discriminate).
  all: rewrite H16.
  all: repeat match goal with |- context [field (?o - 16)] =>
    let o' := eval vm_compute in (o - 16) in change (o - 16) with o' end.
  all: get_field; in_bounds.
Qed.
Lemma at_take : forall data off d n, at_ data off d -> n <= nlen d -> at_ data off (ntake n d).
Proof.
  intros data off d n H Hn. rewrite <- (ntake_ndrop _ d n) in H. apply at_app in H. apply H.
Qed.

Section File.
  Variables (ptr : N) (data : list N) (e : image).
  Hypothesis Hf : bare_file ptr data e.
  Local Notation b := (Mem ptr data).
  Local Notation c := (i_32 e).
  Local Notation h := (i_hdr e).

  Lemma bare_first : read_first_shdr b (ehdr_of c h) = Ok (dec_shdr c (ntake (shdr_size c) (enc_file_header c h))).
  Proof.
    destruct Hf as (_ & Hp & Hh & Hw & _ & Ho & _). unfold read_first_shdr. cbn [e_32 ehdr_of e_shoff]. rewrite Ho.
    assert (Hs : shdr_size c <= nlen (enc_file_header c h)).
    { rewrite enc_ehdr_size by apply Hw. destruct c; vm_compute; discriminate. }
    pose proof (at_take _ _ _ _ Hh Hs) as Ht.
    rewrite (read_obj_at ptr data 0 _ (shdr_size c) (word_align c) Ht); [reflexivity| |rewrite N.add_0_r; exact Hp].
    rewrite nlen_ntake. lia.
  Qed.
  Lemma bare_ehdr : parse_ehdr b =
    Ok (EhdrExt (ehdr_of c h) (if c then h_version h else h_phoff h) (nlen (i_segments e))).
  Proof.
    pose proof bare_first as Hfirst.
    destruct Hf as (_ & Hp & Hh & Hwh & _ & _ & Hns & _ & Hnp & Hlt & _).
    unfold parse_ehdr.
    set (id := [127; 69; 76; 70; if i_32 e then 1 else 2] ++ h_ident (i_hdr e)).
    assert (Hid : nlen id = 16).
    { unfold id. rewrite nlen_app. destruct Hwh as [-> _]. reflexivity. }
    assert (Hat : at_ data 0 id).
    { unfold enc_file_header in Hh. rewrite app_assoc in Hh. apply at_app in Hh. apply Hh. }
    rewrite <- Hid. rewrite (read_bytes_at _ _ _ _ Hat). cbn [bind].
    assert (Et : ntake 4 id = [127; 69; 76; 70]) by reflexivity.
    assert (En : nnth 4 id = Some (if i_32 e then 1 else 2)) by reflexivity.
    rewrite Et, En. change (beq [127; 69; 76; 70] [127; 69; 76; 70]) with true. cbn [negb unwrap bind].
    replace (((if i_32 e then 1 else 2) =? 1) || ((if i_32 e then 1 else 2) =? 2)) with true
      by (destruct (i_32 e); reflexivity). cbn [negb].
    replace ((if i_32 e then 1 else 2) =? 1) with c by (destruct (i_32 e); reflexivity).
    rewrite (read_obj_at ptr data 0 _ (ehdr_size c) (word_align c) Hh);
      [|apply enc_ehdr_size; apply Hwh|rewrite N.add_0_r; exact Hp].
    cbn [bind]. rewrite dec_enc_ehdr by exact Hwh. cbn [e_shnum e_phnum ehdr_of].
    rewrite Hns. change (0 =? 0) with true. cbv iota. rewrite Hfirst. cbn [bind]. rewrite first_size by exact Hwh.
    rewrite Hnp. destruct (N.eqb_spec (nlen (i_segments e)) PN_XNUM) as [E|]; [unfold PN_XNUM in E; lia|]. reflexivity.
  Qed.
  Lemma bare_phdrs : parse_phdrs b = Ok (i_segments e).
  Proof.
    unfold parse_phdrs. rewrite bare_ehdr. cbn [bind x_ehdr x_phnum ehdr_of e_32 e_phoff].
    destruct Hf as (Hd & Hp & _ & _ & _ & _ & _ & _ & _ & _ & Hph & Hwf & Hal).
    rewrite (read_slice_at _ (enc_program_header c)); auto.
    - cbn [bind]. f_equal. rewrite map_map. rewrite <- (map_id (i_segments e)) at 2.
      apply map_ext_in. intros s Hs. apply dec_enc_phdr. rewrite Forall_forall in Hwf. now apply Hwf.
    - destruct (i_32 e); reflexivity.
    - intros. apply enc_phdr_size.
    - now apply aligned.
  Qed.
End File.

(** ** C85: offsets are translated all the same *)

Theorem C85_to_virt : forall m ptr data e off, bare_file ptr data e -> segments_ok e ->
  (exists p, loads e p /\ in_file p off /\
     file_offset_to_virt_offset m (Mem ptr data) off = Ok (Some (off - p_offset p + p_vaddr p))) \/
  ((forall p, loads e p -> ~ in_file p off) /\ file_offset_to_virt_offset m (Mem ptr data) off = Ok None).
Proof.
  intros m ptr data e off Hf Hok. unfold file_offset_to_virt_offset.
  rewrite (bare_phdrs ptr data e Hf). cbn [bind].
  destruct (to_virt_loop_ok m e Hok (i_segments e) off (incl_refl _)) as [(p & ? & _ & ? & ?)|[H1 H2]].
  - left. eauto.
  - right. split; auto. intros p Hp. apply H2; auto. apply Hp.
Qed.
Print Assumptions C85_to_virt.

Theorem C85_to_file : forall m ptr data e addr size, bare_file ptr data e -> segments_ok e ->
  let P p := in_memory p addr \/ (size = 0 /\ addr = p_vaddr p + p_filesz p) in
  (exists p, loads e p /\ P p /\
     find_file_offset m (Mem ptr data) addr size = Ok (Some (addr - p_vaddr p + p_offset p))) \/
  ((forall p, loads e p -> ~ P p) /\ find_file_offset m (Mem ptr data) addr size = Ok None).
Proof.
  intros m ptr data e addr size Hf Hok P. unfold find_file_offset.
  rewrite (bare_phdrs ptr data e Hf). cbn [bind].
  destruct (find_file_offset_loop_ok m e Hok (i_segments e) addr size (incl_refl _)) as [(p & ? & _ & ? & ?)|[H1 H2]].
  - left. eauto.
  - right. split; auto. intros p Hp. apply H2; auto. apply Hp.
Qed.
Print Assumptions C85_to_file.

(** ** No symbols

    In a 32 bit file the place of the size of the first section is that of the
    version, so that one section, the one not looked at, is thought to exist. In
    a 64 bit file it is the place of the offset of the program headers. *)

Definition taken_for_number (e : image) : N := if i_32 e then h_version (i_hdr e) else h_phoff (i_hdr e).

Section None_.
  Variables (x : ext) (ptr : N) (data : list N) (e : image).
  Hypothesis Hx : sorts x.
  Hypothesis Hf : bare_file ptr data e.
  Hypothesis Hn : taken_for_number e <= 1.
  Local Notation b := (Mem ptr data).

  Lemma bare_section : forall name, find_section b name = Ok None.
  Proof.
    intros name. unfold find_section. rewrite (bare_ehdr _ _ _ Hf). cbn [bind x_shnum].
    unfold taken_for_number in Hn. destruct (N.leb_spec (if i_32 e then h_version (i_hdr e) else h_phoff (i_hdr e)) 1); [reflexivity|lia].
  Qed.
  Lemma bare_syms : forall name, parse_syms b name = Ok [].
  Proof. intros name. unfold parse_syms. rewrite (bare_ehdr _ _ _ Hf), bare_section. reflexivity. Qed.
  Lemma bare_strs : forall name, parse_strs b name = Ok [].
  Proof. intros name. unfold parse_strs. now rewrite bare_section. Qed.
  Lemma bare_symtab : ensure_symtab x b = Ok (SymTab [] []).
  Proof. unfold ensure_symtab, parse_debugdata. now rewrite bare_syms, bare_strs, bare_section. Qed.
  Lemma bare_dynsym : ensure_dynsym b = Ok (SymTab [] []).
  Proof. unfold ensure_dynsym. now rewrite bare_syms, bare_strs. Qed.
  Lemma none_by_addr : by_addr x (SymTab [] []) = [].
  Proof. apply Permutation_nil. apply (by_addr_perm x (SymTab [] []) Hx). Qed.
  Lemma none_str2sym : forall keep, str2sym x (SymTab [] []) keep = Ok [].
  Proof.
    intros keep. unfold str2sym. rewrite none_by_addr. cbn [name_syms bind]. f_equal. apply Permutation_nil.
    apply Hx; [exact name_leb_total|exact name_leb_trans].
  Qed.
  (** the headers there are thought to be *)
  Lemma bare_shdrs : exists l, parse_shdrs b = Ok l /\ Forall (fun s => sh_type s <> SHT_NOTE) l.
  Proof.
    unfold parse_shdrs. rewrite (bare_ehdr _ _ _ Hf). cbn [bind x_ehdr x_shnum ehdr_of e_32 e_shoff].
    fold (taken_for_number e). pose proof Hf as (Hd & Hp & Hh & Hw & _ & Ho & _). rewrite Ho.
    assert (Hs : shdr_size (i_32 e) <= nlen (enc_file_header (i_32 e) (i_hdr e))).
    { rewrite enc_ehdr_size by apply Hw. destruct (i_32 e); vm_compute; discriminate. }
    set (raw := ntake (shdr_size (i_32 e)) (enc_file_header (i_32 e) (i_hdr e))).
    pose proof (at_take _ _ _ _ Hh Hs) as Ht. fold raw in Ht.
    assert (Hr : nlen raw = shdr_size (i_32 e)) by (unfold raw; rewrite nlen_ntake; lia).
    assert (Hpos : 0 < shdr_size (i_32 e)) by (destruct (i_32 e); reflexivity).
    assert (Hal : (ptr + 0) mod word_align (i_32 e) = 0) by (rewrite N.add_0_r; exact Hp).
    assert (Hc : taken_for_number e = 0 \/ taken_for_number e = 1) by lia. destruct Hc as [->| ->].
    - pose proof (read_slice_at _ (fun r : list N => r) (shdr_size (i_32 e)) (word_align (i_32 e)) ptr data 0 [] Hd Hpos) as R.
      change (nlen (@nil (list N))) with 0 in R. rewrite R; auto.
      + cbn [bind map]. exists []. auto.
      + intros r [].
      + exists [], data. auto.
    - pose proof (read_slice_at _ (fun r : list N => r) (shdr_size (i_32 e)) (word_align (i_32 e)) ptr data 0 [raw] Hd Hpos) as R.
      change (nlen [raw]) with 1 in R. rewrite R; auto.
      + cbn [bind map]. exists [dec_shdr (i_32 e) raw]. split; [reflexivity|]. constructor; [|constructor].
        assert (Et : sh_type (dec_shdr (i_32 e) raw) mod 256 = if i_32 e then 1 else 2).
        { unfold raw, dec_shdr. destruct (i_32 e); cbn [sh_type shdr_size]; rewrite field_ntake by (vm_compute; discriminate).
          - apply (field_low [127; 69; 76; 70]); reflexivity.
          - apply (field_low [127; 69; 76; 70]); reflexivity. }
        intros E. rewrite E in Et. destruct (i_32 e); discriminate.
      + intros r [<-|[]]. exact Hr.
      + cbn [flat_map]. now rewrite app_nil_r.
  Qed.
End None_.

(** Symbolization says that there are no symbols, lookups and enumerations
    find none, and there is no build ID. *)
Theorem C85_missing : forall x m ptr data e, sorts x -> bare_file ptr data e ->
  (i_32 e = true /\ h_version (i_hdr e) = EV_CURRENT) \/ (i_32 e = false /\ h_phoff (i_hdr e) = 0) ->
  let b := Mem ptr data in
  (forall module addr, elf_find_sym x m (Parser module b) addr = Ok (inr MissingSyms)) /\
  (forall module opts name, find_addr x m (Parser module b) opts name = Ok []) /\
  (forall module opts S (f : for_each_fn S) s, for_each x m (Parser module b) opts f s = Ok s) /\
  read_build_id x m b = Ok None.
Proof.
  intros x m ptr data e Hx Hf Hc b.
  assert (Hn : taken_for_number e <= 1).
  { unfold taken_for_number. destruct Hc as [[-> ->]|[-> ->]]; vm_compute; discriminate. }
  destruct (bare_shdrs ptr data e Hf Hn) as (l & El & Fl).
  pose proof (bare_symtab x ptr data e Hf Hn) as Es. pose proof (bare_dynsym ptr data e Hf Hn) as Ed.
  fold b in El, Es, Ed. repeat split.
  - intros module addr. unfold elf_find_sym. cbn [p_backend p_module]. rewrite Es. cbn [bind t_syms t_strs].
    rewrite (none_by_addr x Hx). cbn [find_sym]. change (find_sym _ _ [] _ _ _ _) with (@Ok (option resolved_sym) None).
    cbn [bind]. rewrite Ed. cbn [bind t_strs]. now rewrite (none_by_addr x Hx).
  - intros module opts name. unfold find_addr, str2symtab, str2dynsym. cbn [p_backend p_module]. rewrite El, Es. cbn [bind].
    rewrite (none_str2sym x Hx). cbn [bind]. change (find_addr_impl _ _ _ _ _ []) with (@Ok (list sym_info) []).
    cbn [bind]. rewrite Ed. cbn [bind]. now rewrite (none_str2sym x Hx).
  - intros module opts S f s. unfold for_each, str2symtab, str2dynsym, for_each_sym_impl. cbn [p_backend p_module]. rewrite Es. cbn [bind].
    rewrite (none_str2sym x Hx). cbn [bind]. rewrite El. cbn [bind for_each_loop]. rewrite Ed. cbn [bind].
    rewrite (none_str2sym x Hx). reflexivity.
  - unfold read_build_id. rewrite El. cbn [bind]. clear El. generalize 0. induction Fl as [|s l Hs Fl IH]; intros i; [reflexivity|].
    cbn [build_id_loop]. destruct (N.eqb_spec (sh_type s) SHT_NOTE); [contradiction|]. apply IH.
Qed.
Print Assumptions C85_missing.

(** ** Errors

    A 64 bit file shorter than as many section headers as the offset of the
    program headers says (4096 bytes usually) can not be symbolized at all. *)
Theorem C85_error : forall x m ptr data e, bare_file ptr data e ->
  i_32 e = false -> 2 <= h_phoff (i_hdr e) -> nlen data < 64 * h_phoff (i_hdr e) ->
  let b := Mem ptr data in
  (forall module addr, elf_find_sym x m (Parser module b) addr = Err EInvalidData) /\
  (forall module opts name, find_addr x m (Parser module b) opts name = Err EInvalidData) /\
  (forall module opts S (f : for_each_fn S) s, for_each x m (Parser module b) opts f s = Err EInvalidData) /\
  read_build_id x m b = Err EInvalidData.
Proof.
  intros x m ptr data e Hf Hc H2 Hl b.
  assert (El : parse_shdrs b = Err EInvalidData).
  { unfold parse_shdrs, b. rewrite (bare_ehdr _ _ _ Hf). cbn [bind x_ehdr x_shnum ehdr_of e_32 e_shoff]. rewrite Hc.
    destruct Hf as (_ & _ & _ & _ & _ & -> & _). unfold read_pod_slice, get_from. replace (0 <=? nlen data) with true by (symmetry; apply N.leb_le, N.le_0_l).
    cbn [of_option bind]. unfold Gsym.read_pod_slice_ref, chk_mul. cbn [shdr_size].
    destruct (N.ltb_spec (64 * h_phoff (i_hdr e)) two64); [|reflexivity]. cbn [of_option bind].
    unfold read_slice.
    assert (E0 : ndrop 0 data = data) by (destruct data; reflexivity). rewrite E0.
    destruct (N.ltb_spec (nlen data) (64 * h_phoff (i_hdr e))); [reflexivity|lia]. }
  assert (Es : ensure_symtab x b = Err EInvalidData).
  { unfold ensure_symtab, parse_syms, find_section, b. rewrite (bare_ehdr _ _ _ Hf). cbn [bind x_shnum]. rewrite Hc.
    destruct (N.leb_spec (h_phoff (i_hdr e)) 1); [lia|]. fold b. now rewrite El. }
  repeat split.
  - intros. unfold elf_find_sym. cbn [p_backend]. now rewrite Es.
  - intros. unfold find_addr. cbn [p_backend]. now rewrite El.
  - intros. unfold for_each. cbn [p_backend]. now rewrite Es.
  - unfold read_build_id. now rewrite El.
Qed.
Print Assumptions C85_error.

(** ** Examples *)

Definition bare_header (entry phoff n : N) : file_header :=
  FileHeader ([1; 1] ++ repeat 0 9) 3 62 1 entry phoff 0 0 64 56 n 0 0 0.
Definition seg : phdr := Phdr 1 5 0 0 0 8192 8192 4096.
Definition seg32 : phdr := Phdr 1 5 0 4096 4096 84 84 4096.

Definition bare_b (ptr : N) (data : list N) (e : image) : bool :=
  let c := i_32 e in let h := i_hdr e in
  (nlen data <? two64) && (ptr mod word_align c =? 0) && at_b data 0 (enc_file_header c h) &&
  ((nlen (h_ident h) =? 11) &&
   ltall (wbits c) [h_entry h; h_phoff h; h_shoff h] && ltall (2 ^ 32) [h_version h; h_flags h] &&
   ltall (2 ^ 16) [h_type h; h_machine h; h_ehsize h; h_phentsize h; h_phnum h; h_shentsize h;
        h_shnum h; h_shstrndx h]) &&
  match i_sections e with [] => true | _ => false end && (h_shoff h =? 0) && (h_shnum h =? 0) && (h_shstrndx h =? 0) &&
  (h_phnum h =? nlen (i_segments e)) && (nlen (i_segments e) <? 65535) &&
  at_b data (h_phoff h) (flat_map (enc_program_header c) (i_segments e)) &&
  forallb (phdr_b c) (i_segments e) && (h_phoff h mod word_align c =? 0).
Lemma bare_check : forall ptr data e, bare_b ptr data e = true -> bare_file ptr data e.
Proof.
  intros ptr data e H. unfold bare_b in H. cbv zeta in H.
  repeat match goal with H : _ && _ = true |- _ => apply andb_true_iff in H; destruct H end.
  repeat match goal with
         | H : at_b _ _ _ = true |- _ => apply at_check in H
         | H : ltall _ _ = true |- _ => apply ltall_ok in H
         | H : (_ =? _) = true |- _ => apply N.eqb_eq in H
         | H : (_ <? _) = true |- _ => apply N.ltb_lt in H
         end.
  unfold bare_file. cbv zeta.
  split; [assumption|]. split; [assumption|]. split; [assumption|].
  split; [now repeat split|]. split; [now destruct (i_sections e)|].
  repeat (split; [assumption|]). split; [|assumption].
  eapply forallb_Forall; [|eassumption]. intros s Hs. apply andb_true_iff in Hs. destruct Hs.
  split; now apply ltall_ok.
Qed.

(** a 32 bit program *)
Definition small32 : image :=
  Image true (FileHeader ([1; 1] ++ repeat 0 9) 2 3 1 4148 52 0 0 52 32 1 0 0 0) [seg32] [].
Definition small32_data : list N := enc_file_header true (i_hdr small32) ++ enc_program_header true seg32 ++ repeat 144 20.
Example C85_missing_ex :
  bare_file 4096 small32_data small32 /\
  elf_find_sym no_ext Checked (Parser None (Mem 4096 small32_data)) 4148 = Ok (inr MissingSyms) /\
  find_file_offset Checked (Mem 4096 small32_data) 4148 1 = Ok (Some 52) /\
  file_offset_to_virt_offset Checked (Mem 4096 small32_data) 60 = Ok (Some 4156).
Proof. split; [apply bare_check; vm_compute; reflexivity|vm_compute; auto]. Qed.

(** a 64 bit program: offsets work, but looking for symbols is an error *)
Definition small : image := Image false (bare_header 120 64 1) [seg] [].
Definition small_data : list N := enc_file_header false (i_hdr small) ++ enc_program_header false seg ++ repeat 144 200.
Example C85_error_ex :
  bare_file 4096 small_data small /\ nlen small_data = 320 /\
  file_offset_to_virt_offset Checked (Mem 4096 small_data) 60 = Ok (Some 60) /\
  elf_find_sym no_ext Checked (Parser None (Mem 4096 small_data)) 120 = Err EInvalidData.
Proof. split; [apply bare_check; vm_compute; reflexivity|vm_compute; auto]. Qed.
Theorem C85_missing_refuted : exists ptr data e addr,
  bare_file ptr data e /\ h_version (i_hdr e) = EV_CURRENT /\ segments_ok e /\
  (exists off p, loads e p /\ in_memory p addr /\ find_file_offset Checked (Mem ptr data) addr 1 = Ok (Some off)) /\
  forall x m module r, elf_find_sym x m (Parser module (Mem ptr data)) addr <> Ok r.
Proof.
  exists 4096, small_data, small, 120. destruct C85_error_ex as (Hf & Hl & _).
  split; [exact Hf|]. split; [reflexivity|]. split; [|split].
  - intros p [[<-|[]] _]. split; reflexivity.
  - exists 120, seg. split; [split; [now left|reflexivity]|]. split; [split; vm_compute; [discriminate|reflexivity]|]. vm_compute; reflexivity.
  - intros x m module r. destruct (C85_error x m 4096 small_data small Hf) as [E _]; [reflexivity|vm_compute; discriminate|rewrite Hl; reflexivity|].
    rewrite E. discriminate.
Qed.
Print Assumptions C85_missing_refuted.

(** ** Invented symbols

    In a larger file the "section headers" are whatever follows the file
    header. With the right bytes there and at the entry point, symbols are
    reported that the file does not have. *)
Definition fake_names : list N :=
  let l := [0; 0] ++ bs ".symtab"%string ++ [0] ++ bs ".strtab"%string ++ [0] in
  l ++ repeat 0 (N.to_nat (64 - nlen l)).
Definition fake_syms : list esym := [ESym 0 0 0 0 0 0; ESym 1 18 0 1 4096 64].
Definition fake_strs : list N := [0] ++ bs "invented"%string ++ [0].
Definition fake : image := Image false (bare_header 4096 64 1) [seg] [].
Definition fake_data : list N :=
  let head := enc_file_header false (i_hdr fake) ++ enc_program_header false seg ++ repeat 0 8 ++
    enc_section_header false (Shdr 2 2 0 0 4160 48 0 0 8 24) ++ enc_section_header false (Shdr 10 3 0 0 4208 (nlen fake_strs) 0 0 1 0) in
  head ++ repeat 0 (N.to_nat (4096 - nlen head)) ++ fake_names ++ flat_map (enc_symbol false) fake_syms ++ fake_strs.
Theorem C85_invented_refuted : exists ptr data e addr s,
  bare_file ptr data e /\ h_version (i_hdr e) = EV_CURRENT /\
  elf_find_sym no_ext Checked (Parser None (Mem ptr data)) addr = Ok (inl s) /\ rs_name s = bs "invented"%string.
Proof.
  exists 4096, fake_data, fake, 4100. eexists. split; [apply bare_check; vm_compute; reflexivity|]. split; [reflexivity|].
  split; [vm_compute; reflexivity|]. reflexivity.
Qed.
Print Assumptions C85_invented_refuted.
