(** * ELF files of the other byte order *)

From Coq Require Import String Permutation.
From Verif Require Import Base Util UtilProofs Bytes Text Nom Sym Inspect Elf ElfSpec ElfFormat ElfProofs ElfExample BuildId ElfBigSpec.
From Verif Require Gsym.
Local Close Scope string_scope.
Local Open Scope N_scope.

Definition swap (n : nat) (v : N) : N := le_val (be_bytes n v).

Lemma be_nlen : forall n v, nlen (be_bytes n v) = N.of_nat n.
Proof. intros n v. unfold nlen, be_bytes. now rewrite rev_length, le_bytes_length. Qed.
Lemma be_skip : forall off k n v r, N.of_nat n <= off -> field off k (be_bytes n v ++ r) = field (off - N.of_nat n) k r.
Proof. intros. rewrite field_skip_list by (rewrite be_nlen; auto). now rewrite be_nlen. Qed.
Lemma be_here : forall n v r, field 0 (N.of_nat n) (be_bytes n v ++ r) = swap n v.
Proof.
  intros n v r. unfold field, swap. f_equal. replace (ndrop 0 (be_bytes n v ++ r)) with (be_bytes n v ++ r) by (now destruct (be_bytes n v ++ r)).
  apply ntake_app_exact. now rewrite be_nlen.
Qed.
Lemma be_last : forall n v, field 0 (N.of_nat n) (be_bytes n v) = swap n v.
Proof. intros n v. rewrite <- (app_nil_r (be_bytes n v)). apply be_here. Qed.

Lemma swap8 : forall v, 0 < v < 2 ^ 32 -> 2 ^ 32 <= swap 8 v.
Proof.
  intros v Hv. unfold swap, be_bytes. cbn [le_bytes rev app le_val].
  assert (E4 : v / 256 / 256 / 256 / 256 = 0) by (rewrite !N.div_div by discriminate; apply N.div_small; exact (proj2 Hv)).
  rewrite E4. change (0 / 256) with 0. change (0 mod 256) with 0.
  pose proof (N.div_mod v 256 ltac:(discriminate)) as H0.
  pose proof (N.div_mod (v / 256) 256 ltac:(discriminate)) as H1.
  pose proof (N.div_mod (v / 256 / 256) 256 ltac:(discriminate)) as H2.
  pose proof (N.div_mod (v / 256 / 256 / 256) 256 ltac:(discriminate)) as H3. rewrite E4 in H3.
  change (2 ^ 32) with 4294967296 in *. lia.
Qed.
Lemma swap4 : forall v, v mod 256 <> 0 -> 2 ^ 24 <= swap 4 v.
Proof.
  intros v Hv. unfold swap, be_bytes. cbn [le_bytes rev app le_val]. change (2 ^ 24) with 16777216. lia.
Qed.
Lemma swap2_1 : forall v, v < 2 ^ 16 -> (swap 2 v <= 1 <-> v = 0 \/ v = 256).
Proof.
  intros v Hv. unfold swap, be_bytes. cbn [le_bytes rev app le_val].
  pose proof (N.div_mod v 256 ltac:(discriminate)) as H0.
  assert (Hq : v / 256 < 256) by (apply N.div_lt_upper_bound; [discriminate|exact Hv]).
  rewrite (N.mod_small (v / 256)) by exact Hq. pose proof (N.mod_lt v 256 ltac:(discriminate)). lia.
Qed.
Lemma swap2_0 : forall v, v < 2 ^ 16 -> (swap 2 v = 0 <-> v = 0).
Proof.
  intros v Hv. unfold swap, be_bytes. cbn [le_bytes rev app le_val].
  pose proof (N.div_mod v 256 ltac:(discriminate)) as H0.
  assert (Hq : v / 256 < 256) by (apply N.div_lt_upper_bound; [discriminate|exact Hv]).
  rewrite (N.mod_small (v / 256)) by exact Hq. pose proof (N.mod_lt v 256 ltac:(discriminate)). lia.
Qed.

Lemma swap2_max : forall v, v < 2 ^ 16 -> (swap 2 v =? PN_XNUM) = (v =? 65535).
Proof.
  intros v Hv. unfold swap, be_bytes, PN_XNUM. cbn [le_bytes rev app le_val].
  pose proof (N.div_mod v 256 ltac:(discriminate)) as H0.
  assert (Hq : v / 256 < 256) by (apply N.div_lt_upper_bound; [discriminate|exact Hv]).
  rewrite (N.mod_small (v / 256)) by exact Hq. pose proof (N.mod_lt v 256 ltac:(discriminate)) as Hm. apply eq_true_iff_eq. rewrite !N.eqb_eq. lia.
Qed.

(** ** Headers *)
Definition swapped (c : bool) (h : file_header) : ehdr :=
  let w := swap (if c then 4 else 8) in
  Ehdr c (swap 2 (h_type h)) (w (h_phoff h)) (w (h_shoff h)) (swap 2 (h_phnum h)) (swap 2 (h_shnum h)) (swap 2 (h_shstrndx h)).
Ltac be_fields :=
  repeat match goal with
  | |- context [field ?off ?k (be_bytes ?n ?v ++ ?c)] =>
      rewrite (be_skip off k n v c) by (vm_compute; discriminate);
      let o := eval vm_compute in (off - N.of_nat n) in change (off - N.of_nat n) with o
  end.
Lemma dec_big : forall c h, nlen (h_ident h) = 11 -> dec_ehdr c (big_header c h) = swapped c h.
Proof.
  intros c h H1. unfold dec_ehdr, big_header, swapped, be_word.
  assert (H16 : forall k, nlen ([127; 69; 76; 70; k] ++ h_ident h) = 16)
    by (intros k; rewrite nlen_app, H1; reflexivity).
  destruct c; rewrite (app_assoc _ (h_ident h)).
  all: rewrite !(field_skip_list _ _ (_ ++ h_ident h)) by (rewrite H16; vm_compute; discriminate).
  all: rewrite H16.
  all: repeat match goal with |- context [field (?o - 16)] =>
    let o' := eval vm_compute in (o - 16) in change (o - 16) with o' end.
  all: f_equal; be_fields.
  all: match goal with
       | |- field 0 ?k (be_bytes ?n ?v ++ ?r) = _ => exact (be_here n v r)
       | |- field 0 ?k (be_bytes ?n ?v) = _ => exact (be_last n v)
       end.
Qed.
Lemma big_size : forall c h, nlen (h_ident h) = 11 -> nlen (big_header c h) = ehdr_size c.
Proof.
  intros c h H. unfold big_header, be_word. rewrite !nlen_app, H, !be_nlen. destruct c; reflexivity.
Qed.

Section File.
  Variables (ptr : N) (data : list N) (c : bool) (h : file_header).
  Hypothesis Hf : big_file ptr data c h.
  Local Notation b := (Mem ptr data).

  Lemma usual_past : forall off, usual data c off -> nlen data < swap (if c then 4 else 8) off.
  Proof.
    intros off H. unfold usual in H. destruct c.
    - destruct H as [H1 H2]. apply swap4 in H2. lia.
    - destruct H as [H1 H2]. apply swap8 in H2. lia.
  Qed.
  Lemma past_get : forall off, nlen data < off -> get_from off data = None.
  Proof. intros off H. unfold get_from. destruct (N.leb_spec off (nlen data)); [lia|reflexivity]. Qed.

  Hypothesis Hs : usual data c (h_shoff h).
  Lemma big_first : read_first_shdr b (swapped c h) = Err EInvalidData.
  Proof.
    unfold read_first_shdr, swapped, read_pod_obj. cbn [e_32 e_shoff]. now rewrite past_get by now apply usual_past.
  Qed.
  (** The first section header is beyond the end of the file, if looked for. *)
  Lemma big_ehdr : parse_ehdr b =
    if (h_shnum h =? 0) || (swap 2 (h_phnum h) =? PN_XNUM) then Err EInvalidData
    else Ok (EhdrExt (swapped c h) (swap 2 (h_shnum h)) (swap 2 (h_phnum h))).
  Proof.
    pose proof big_first as Hfirst. destruct Hf as (Hp & Hh & Hwh & _). unfold parse_ehdr.
    set (id := [127; 69; 76; 70; if c then 1 else 2] ++ h_ident h).
    assert (Hid : nlen id = 16).
    { unfold id. rewrite nlen_app. destruct Hwh as [-> _]. reflexivity. }
    assert (Hat : at_ data 0 id).
    { unfold big_header in Hh. rewrite app_assoc in Hh. apply at_app in Hh. apply Hh. }
    rewrite <- Hid. rewrite (read_bytes_at _ _ _ _ Hat). cbn [bind].
    assert (Et : ntake 4 id = [127; 69; 76; 70]) by reflexivity.
    assert (En : nnth 4 id = Some (if c then 1 else 2)) by reflexivity.
    rewrite Et, En. change (beq [127; 69; 76; 70] [127; 69; 76; 70]) with true. cbn [negb unwrap bind].
    replace (((if c then 1 else 2) =? 1) || ((if c then 1 else 2) =? 2)) with true
      by (destruct c; reflexivity). cbn [negb].
    replace ((if c then 1 else 2) =? 1) with c by (destruct c; reflexivity).
    rewrite (read_obj_at ptr data 0 _ (ehdr_size c) (word_align c) Hh);
      [|apply big_size; apply Hwh|rewrite N.add_0_r; exact Hp].
    cbn [bind]. rewrite dec_big by apply Hwh. rewrite Hfirst. cbn [bind].
    replace (e_shnum (swapped c h) =? 0) with (h_shnum h =? 0).
    2:{ assert (H16 : h_shnum h < 2 ^ 16) by (destruct Hwh as (_ & _ & _ & Hu); unfold u16s in Hu; rewrite Forall_forall in Hu; apply Hu; cbn [In]; tauto).
        pose proof (swap2_0 _ H16) as E0. cbn [swapped e_shnum].
        destruct (N.eqb_spec (h_shnum h) 0), (N.eqb_spec (swap 2 (h_shnum h)) 0); tauto. }
    destruct (h_shnum h =? 0); [reflexivity|]. cbn [orb bind]. change (e_phnum (swapped c h)) with (swap 2 (h_phnum h)).
    destruct (swap 2 (h_phnum h) =? PN_XNUM); reflexivity.
  Qed.
  Lemma big_shdrs : parse_shdrs b = Err EInvalidData.
  Proof.
    unfold parse_shdrs. rewrite big_ehdr. destruct (_ || _); [reflexivity|]. cbn [bind x_ehdr swapped e_32 e_shoff].
    unfold read_pod_slice. now rewrite past_get by now apply usual_past.
  Qed.
  Lemma big_phdrs : usual data c (h_phoff h) -> parse_phdrs b = Err EInvalidData.
  Proof.
    intros Hph. unfold parse_phdrs. rewrite big_ehdr. destruct (_ || _); [reflexivity|]. cbn [bind x_ehdr swapped e_32 e_phoff].
    unfold read_pod_slice. now rewrite past_get by now apply usual_past.
  Qed.
  Lemma big_u16 : forall v, In v [h_phnum h; h_shnum h] -> v < 2 ^ 16.
  Proof.
    intros v Hv. destruct Hf as (_ & _ & (_ & _ & _ & Hu) & _). unfold u16s in Hu. rewrite Forall_forall in Hu. apply Hu.
    cbn [In] in *. tauto.
  Qed.
  Lemma big_section : forall name, find_section b name =
    if (h_shnum h =? 256) && negb (h_phnum h =? 65535) then Ok None else Err EInvalidData.
  Proof.
    intros name. assert (H16 : h_shnum h < 2 ^ 16) by (apply big_u16; cbn; auto). assert (P16 : h_phnum h < 2 ^ 16) by (apply big_u16; cbn; auto).
    unfold find_section. rewrite big_ehdr, (swap2_max _ P16). pose proof (swap2_1 _ H16) as E1.
    destruct (N.eqb_spec (h_shnum h) 0) as [Hn0|Hn0]; [rewrite Hn0; reflexivity|]. cbn [orb].
    destruct (h_phnum h =? 65535); [now rewrite andb_false_r|]. cbn [bind x_shnum negb]. rewrite big_shdrs, andb_true_r.
    destruct (N.leb_spec (swap 2 (h_shnum h)) 1) as [Hle|Hgt], (N.eqb_spec (h_shnum h) 256); try reflexivity; exfalso; lia.
  Qed.
End File.

(** ** C86: no symbols are made up *)

(** Symbolization fails; of a file with exactly 256 sections it is said that
    symbols are missing, 256 being 1 in the other order. *)
Theorem C86_find_sym : forall x m ptr data c h module addr, sorts x -> big_file ptr data c h -> usual data c (h_shoff h) ->
  elf_find_sym x m (Parser module (Mem ptr data)) addr =
  if (h_shnum h =? 256) && negb (h_phnum h =? 65535) then Ok (inr MissingSyms) else Err EInvalidData.
Proof.
  intros x m ptr data c h module addr Hx Hf Hs. set (b := Mem ptr data).
  assert (Hb : by_addr x (SymTab [] []) = []) by (apply Permutation_nil; apply (by_addr_perm x (SymTab [] []) Hx)).
  unfold elf_find_sym, ensure_symtab, ensure_dynsym, parse_syms, parse_strs, parse_debugdata. cbn [p_backend p_module]. fold b.
  pose proof (big_ehdr ptr data c h Hf Hs) as Eh. fold b in Eh. rewrite (swap2_max (h_phnum h)) in Eh by (apply (big_u16 ptr data c h Hf); cbn; auto).
  pose proof (big_section ptr data c h Hf Hs) as E. fold b in E. rewrite !E, Eh.
  destruct (N.eqb_spec (h_shnum h) 256) as [->|]; cbn [andb].
  - change (256 =? 0) with false. cbn [orb]. destruct (h_phnum h =? 65535); [reflexivity|]. cbn [negb bind t_syms t_strs].
    rewrite Hb. change (find_sym _ _ [] _ _ _ _) with (@Ok (option resolved_sym) None). cbn [bind]. reflexivity.
  - destruct (_ || _); reflexivity.
Qed.
Print Assumptions C86_find_sym.

(** Looking for names, enumerating and reading the build ID fail. *)
Theorem C86_rest : forall x m ptr data c h, sorts x -> big_file ptr data c h -> usual data c (h_shoff h) ->
  let b := Mem ptr data in
  (forall module opts name, find_addr x m (Parser module b) opts name = Err EInvalidData) /\
  (forall module opts S (f : for_each_fn S) s, for_each x m (Parser module b) opts f s = Err EInvalidData) /\
  read_build_id x m b = Err EInvalidData.
Proof.
  intros x m ptr data c h Hx Hf Hs b. pose proof (big_shdrs ptr data c h Hf Hs) as El. fold b in El.
  assert (Hb : by_addr x (SymTab [] []) = []) by (apply Permutation_nil; apply (by_addr_perm x (SymTab [] []) Hx)).
  assert (Hn : forall keep, str2sym x (SymTab [] []) keep = Ok []).
  { intros keep. unfold str2sym. rewrite Hb. cbn [name_syms bind]. f_equal. apply Permutation_nil.
    apply Hx; [exact name_leb_total|exact name_leb_trans]. }
  repeat split.
  - intros. unfold find_addr. cbn [p_backend]. now rewrite El.
  - intros. unfold for_each, for_each_sym_impl, str2symtab, ensure_symtab, parse_syms, parse_strs, parse_debugdata. cbn [p_backend].
    pose proof (big_ehdr ptr data c h Hf Hs) as Eh. fold b in Eh. rewrite Eh.
    destruct (_ || _); [reflexivity|]. cbn [bind].
    pose proof (big_section ptr data c h Hf Hs) as E. fold b in E. rewrite !E. destruct (_ && _); [|reflexivity]. cbn [bind].
    rewrite Hn. cbn [bind]. now rewrite El.
  - unfold read_build_id. now rewrite El.
Qed.
Print Assumptions C86_rest.

(** Nor are offsets translated. *)
Theorem C86_offsets : forall m ptr data c h, big_file ptr data c h -> usual data c (h_shoff h) -> usual data c (h_phoff h) ->
  (forall off, file_offset_to_virt_offset m (Mem ptr data) off = Err EInvalidData) /\
  (forall addr size, find_file_offset m (Mem ptr data) addr size = Err EInvalidData).
Proof.
  intros m ptr data c h Hf Hs Hp. pose proof (big_phdrs ptr data c h Hf Hs Hp) as E. split; intros.
  - unfold file_offset_to_virt_offset. now rewrite E.
  - unfold find_file_offset. now rewrite E.
Qed.
Print Assumptions C86_offsets.

Definition big_h (phoff shoff shnum shstrndx : N) : file_header :=
  FileHeader ([2; 1] ++ repeat 0 9) 2 21 1 4096 phoff shoff 0 64 56 1 64 shnum shstrndx.
Definition big_b (ptr : N) (data : list N) (c : bool) (h : file_header) : bool :=
  (ptr mod word_align c =? 0) && at_b data 0 (big_header c h) &&
  ((nlen (h_ident h) =? 11) &&
   ltall (wbits c) [h_entry h; h_phoff h; h_shoff h] && ltall (2 ^ 32) [h_version h; h_flags h] &&
   ltall (2 ^ 16) [h_type h; h_machine h; h_ehsize h; h_phentsize h; h_phnum h; h_shentsize h;
        h_shnum h; h_shstrndx h]) &&
  match h_ident h with 2 :: _ => true | _ => false end.
Lemma big_check : forall ptr data c h, big_b ptr data c h = true -> big_file ptr data c h.
Proof.
  intros ptr data c h H. unfold big_b in H.
  repeat match goal with H : _ && _ = true |- _ => apply andb_true_iff in H; destruct H end.
  repeat match goal with
         | H : at_b _ _ _ = true |- _ => apply at_check in H
         | H : ltall _ _ = true |- _ => apply ltall_ok in H
         | H : (_ =? _) = true |- _ => apply N.eqb_eq in H
         end.
  split; [assumption|]. split; [assumption|]. split; [now repeat split|].
  destruct (h_ident h) as [|[|[[]|[]|]] l]; try discriminate. now exists l.
Qed.

(** a program for PowerPC with 4 sections, and one with 256 *)
Definition ppc (n : N) : list N := big_header false (big_h 64 320 n (n - 1)) ++ repeat 0 (N.to_nat 16600).
Example C86_ex :
  big_file 4096 (ppc 4) false (big_h 64 320 4 3) /\ usual (ppc 4) false 320 /\ usual (ppc 4) false 64 /\
  elf_find_sym no_ext Checked (Parser None (Mem 4096 (ppc 4))) 4096 = Err EInvalidData /\
  big_file 4096 (ppc 256) false (big_h 64 320 256 255) /\ usual (ppc 256) false 320 /\
  elf_find_sym no_ext Checked (Parser None (Mem 4096 (ppc 256))) 4096 = Ok (inr MissingSyms).
Proof.
  split; [apply big_check; vm_compute; reflexivity|]. split; [repeat split; vm_compute; reflexivity|].
  split; [repeat split; vm_compute; reflexivity|]. split; [vm_compute; reflexivity|].
  split; [apply big_check; vm_compute; reflexivity|]. split; [repeat split; vm_compute; reflexivity|]. vm_compute; reflexivity.
Qed.

(** ** Symbols made up

    An offset of section headers that is a multiple of 256 may be one of a
    32 bit file in either order. *)
Definition upto (n : N) (l : list N) : list N := l ++ repeat 0 (N.to_nat (n - nlen l)).
Definition made_names : list N := [0] ++ bs ".symtab"%string ++ [0] ++ bs ".strtab"%string ++ [0].
Definition made_syms : list esym := [ESym 0 0 0 0 0 0; ESym 1 18 0 1 4096 64].
Definition made_strs : list N := [0] ++ bs "invented"%string ++ [0].
Definition made_h : file_header := big_h 52 65536 4 3.
Definition made_data : list N :=
  let head := upto 256 (big_header true made_h) ++ repeat 0 40 ++
    enc_section_header true (Shdr 1 2 0 0 31056 32 0 0 4 16) ++
    enc_section_header true (Shdr 9 3 0 0 31088 (nlen made_strs) 0 0 1 0) in
  let head := upto 30976 head ++ enc_section_header true (Shdr 0 3 0 0 31016 (nlen made_names) 0 0 1 0) ++
    upto 40 made_names ++ flat_map (enc_symbol true) made_syms ++ made_strs in
  upto 65696 head.
Theorem C86_invented_refuted : exists ptr data h addr s,
  big_file ptr data true h /\ nlen data < 2 ^ 24 /\ 0 < h_shoff h /\ h_shoff h + 40 * h_shnum h <= nlen data /\
  elf_find_sym no_ext Checked (Parser None (Mem ptr data)) addr = Ok (inl s) /\ rs_name s = bs "invented"%string.
Proof.
  exists 4096, made_data, made_h, 4100. eexists. split; [apply big_check; vm_compute; reflexivity|].
  split; [vm_compute; reflexivity|]. split; [reflexivity|]. split; [vm_compute; discriminate|].
  split; [vm_compute; reflexivity|]. reflexivity.
Qed.
Print Assumptions C86_invented_refuted.
