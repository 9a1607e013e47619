(** * Reading ELF files *)

From Verif Require Import Base Util UtilProofs Bytes Text Sym Inspect Elf ElfSpec.
From Verif Require Gsym GsymFormat.
Local Open Scope N_scope.

(** ** Structures *)

Lemma field_last : forall n v, v < 256 ^ N.of_nat n -> field 0 (N.of_nat n) (le_bytes n v) = v.
Proof. intros n v H. rewrite <- (app_nil_r (le_bytes n v)). now apply field_here. Qed.
Lemma field_skip_list : forall off k a c, nlen a <= off -> field off k (a ++ c) = field (off - nlen a) k c.
Proof.
  intros off k a c H. unfold field. do 2 f_equal.
  replace off with (nlen a + (off - nlen a)) at 1 by lia.
  rewrite <- ndrop_ndrop. f_equal. now apply ndrop_app_exact.
Qed.

Ltac skip_fields :=
  repeat match goal with
  | |- context [field ?off ?k (le_bytes ?n ?v ++ ?c)] =>
      rewrite (field_skip off k n v c) by (vm_compute; discriminate);
      let o := eval vm_compute in (off - N.of_nat n) in change (off - N.of_nat n) with o
  end.
Ltac get_field :=
  match goal with |- field _ _ _ = _ => idtac end;
  skip_fields;
  match goal with
  | |- field 0 ?k (le_bytes ?n ?v ++ ?c) = _ => change k with (N.of_nat n); apply (field_here n v c)
  | |- field 0 ?k (le_bytes ?n ?v) = _ => change k with (N.of_nat n); apply (field_last n v)
  end.
Ltac in_list :=
  match goal with
  | H : Forall _ ?l |- ?v < _ => rewrite Forall_forall in H; apply H; cbn [In]; tauto
  end.
Ltac in_bounds :=
  match goal with
  | H : u16s ?l |- ?v < 256 ^ N.of_nat 2 =>
      change (v < 2 ^ 16); unfold u16s in H; rewrite Forall_forall in H; apply H; cbn [In]; tauto
  | H : u32s ?l |- ?v < 256 ^ N.of_nat 4 =>
      change (v < 2 ^ 32); unfold u32s in H; rewrite Forall_forall in H; apply H; cbn [In]; tauto
  | H : words true ?l |- ?v < 256 ^ N.of_nat 4 =>
      change (is_word true v); unfold words in H; rewrite Forall_forall in H; apply H; cbn [In]; tauto
  | H : words false ?l |- ?v < 256 ^ N.of_nat 8 =>
      change (is_word false v); unfold words in H; rewrite Forall_forall in H; apply H; cbn [In]; tauto
  | H : is_bytes ?l |- ?v < 256 ^ N.of_nat 1 =>
      change (v < 256); unfold is_bytes in H; rewrite Forall_forall in H; apply H; cbn [In]; tauto
  end.

Lemma dec_enc_shdr : forall c s, wf_section_header c s -> dec_shdr c (enc_section_header c s) = s.
Proof.
  intros c [] (H1 & H2). unfold dec_shdr, enc_section_header, word.
  cbn [Elf.sh_name Elf.sh_type Elf.sh_flags Elf.sh_addr Elf.sh_offset Elf.sh_size Elf.sh_link
       Elf.sh_info Elf.sh_addralign Elf.sh_entsize] in *.
  destruct c; f_equal; get_field; in_bounds.
Qed.
Lemma dec_enc_phdr : forall c p, wf_program_header c p -> dec_phdr c (enc_program_header c p) = p.
Proof.
  intros c [] (H1 & H2). unfold dec_phdr, enc_program_header.
  cbn [Elf.p_type Elf.p_flags Elf.p_offset Elf.p_vaddr Elf.p_paddr Elf.p_filesz Elf.p_memsz Elf.p_align] in *.
  destruct c; f_equal; get_field; in_bounds.
Qed.
Lemma dec_enc_sym : forall c s, wf_symbol c s -> dec_sym c (enc_symbol c s) = s.
Proof.
  intros c [] (H1 & H2 & H3 & H4). unfold dec_sym, enc_symbol.
  cbn [Elf.st_name Elf.st_info Elf.st_other Elf.st_shndx Elf.st_value Elf.st_size] in *.
  destruct c; f_equal; get_field; in_bounds.
Qed.
Lemma enc_shdr_size : forall c s, nlen (enc_section_header c s) = shdr_size c.
Proof. intros [] s; unfold enc_section_header, word; rewrite !nlen_app, !le_bytes_nlen; reflexivity. Qed.
Lemma enc_phdr_size : forall c s, nlen (enc_program_header c s) = phdr_size c.
Proof. intros [] s; unfold enc_program_header; rewrite !nlen_app, !le_bytes_nlen; reflexivity. Qed.
Lemma enc_sym_size : forall c s, nlen (enc_symbol c s) = sym_size c.
Proof. intros [] s; unfold enc_symbol; rewrite !nlen_app, !le_bytes_nlen; reflexivity. Qed.

Definition ehdr_of (c : bool) (h : file_header) : ehdr :=
  Ehdr c (h_type h) (h_phoff h) (h_shoff h) (h_phnum h) (h_shnum h) (h_shstrndx h).
Lemma enc_ehdr_size : forall c h, nlen (h_ident h) = 11 -> nlen (enc_file_header c h) = ehdr_size c.
Proof.
  intros c h H. unfold enc_file_header. rewrite nlen_app, nlen_app, H.
  destruct c; unfold word; rewrite !nlen_app, !le_bytes_nlen; reflexivity.
Qed.
Lemma dec_enc_ehdr : forall c h, wf_file_header c h -> dec_ehdr c (enc_file_header c h) = ehdr_of c h.
Proof.
  intros c h (H1 & H2 & H3 & H4). unfold dec_ehdr, enc_file_header, ehdr_of, word.
  assert (H16 : forall k, nlen ([127; 69; 76; 70; k] ++ h_ident h) = 16)
    by (intros k; rewrite nlen_app, H1; reflexivity).
  destruct c; rewrite (app_assoc _ (h_ident h)).
  all: rewrite !(field_skip_list _ _ (_ ++ h_ident h)) by (rewrite H16; vm_compute; discriminate).
  all: rewrite H16.
  all: repeat match goal with |- context [field (?o - 16)] =>
    let o' := eval vm_compute in (o - 16) in change (o - 16) with o' end.
  all: f_equal; get_field; in_bounds.
Qed.

(** ** Backends *)
Lemma read_obj_at : forall ptr data off d size al, at_ data off d -> nlen d = size ->
  (ptr + off) mod al = 0 -> read_pod_obj (Mem ptr data) size al off = Ok d.
Proof.
  intros ptr data off d size al H Hl Ha. unfold read_pod_obj. apply get_from_at in H.
  destruct H as [r ->]. cbn [of_option bind]. rewrite read_slice_app by auto. cbn [ok_or bind].
  rewrite Ha. reflexivity.
Qed.
Lemma read_bytes_at : forall ptr data off d, at_ data off d -> read_bytes (Mem ptr data) off (nlen d) = Ok d.
Proof.
  intros ptr data off d H. unfold read_bytes. apply get_from_at in H. destruct H as [r ->].
  cbn [of_option bind]. now rewrite read_slice_app.
Qed.
Lemma read_slice_at : forall A (enc : A -> list N) size al ptr data off l,
  nlen data < two64 -> 0 < size -> (forall x, In x l -> nlen (enc x) = size) ->
  at_ data off (flat_map enc l) -> (ptr + off) mod al = 0 ->
  read_pod_slice (Mem ptr data) size al off (nlen l) = Ok (map enc l).
Proof.
  intros A enc size al ptr data off l Hd Hs Hx H Ha. pose proof (at_le _ _ _ H) as Hle.
  unfold read_pod_slice. apply get_from_at in H. destruct H as [r ->]. cbn [of_option bind].
  unfold Gsym.read_pod_slice_ref, chk_mul.
  assert (E : nlen (flat_map enc l) = size * nlen l).
  { rewrite (GsymFormat.nlen_flat _ _ size) by auto. lia. }
  destruct (N.ltb_spec (size * nlen l) two64); [|lia]. cbn [of_option bind].
  rewrite read_slice_app by auto. cbn [bind]. rewrite Ha. change (0 =? 0) with true. cbn [ok_or bind].
  now rewrite GsymFormat.chunks_flat.
Qed.

Lemma aligned : forall ptr off c, ptr mod word_align c = 0 -> off mod word_align c = 0 ->
  (ptr + off) mod word_align c = 0.
Proof.
  intros ptr off c H1 H2. rewrite N.add_mod by (destruct c; discriminate). rewrite H1, H2.
  destruct c; reflexivity.
Qed.

(** ** Headers *)
Section File.
  Variables (ptr : N) (data : list N) (e : image).
  Hypothesis Hf : elf_file ptr data e.
  Local Notation b := (Mem ptr data).
  Local Notation c := (i_32 e).
  Local Notation h := (i_hdr e).

  Lemma first_shdr : forall s, nnth 0 (i_sections e) = Some s ->
    read_first_shdr b (ehdr_of c h) = Ok (s_hdr s).
  Proof.
    intros s Hs. destruct Hf as (_ & Hp & _ & _ & _ & _ & Hsh & Hwf & Hal & _).
    unfold read_first_shdr. cbn [e_32 ehdr_of e_shoff].
    destruct (i_sections e) as [|s0 l] eqn:E; [discriminate|]. injection Hs as ->.
    cbn [map flat_map] in Hsh, Hwf. inversion Hwf as [|? ? Hw _]; subst.
    apply at_app in Hsh. destruct Hsh as [Hsh _].
    rewrite (read_obj_at _ _ _ _ _ _ Hsh) by (try apply enc_shdr_size; now apply aligned).
    cbn [bind]. now rewrite dec_enc_shdr.
  Qed.

  Lemma parse_ehdr_ok : parse_ehdr b = Ok (EhdrExt (ehdr_of c h) (nlen (i_sections e)) (nlen (i_segments e))).
  Proof.
    pose proof first_shdr as Hfirst.
    destruct Hf as (_ & Hp & Hh & Hwh & Hns & Hnp & _).
    unfold parse_ehdr.
    set (id := [127; 69; 76; 70; if i_32 e then 1 else 2] ++ h_ident (i_hdr e)).
    assert (Hid : nlen id = 16).
    { unfold id. rewrite nlen_app. destruct Hwh as [-> _]. reflexivity. }
    assert (Hat : at_ data 0 id).
    { unfold enc_file_header in Hh. rewrite app_assoc in Hh. apply at_app in Hh. apply Hh. }
    rewrite <- Hid. rewrite (read_bytes_at _ _ _ _ Hat). cbn [bind].
    assert (Et : ntake 4 id = [127; 69; 76; 70]) by reflexivity.
    assert (En : nnth 4 id = Some (if i_32 e then 1 else 2)) by reflexivity.
    rewrite Et, En. change (beq [127; 69; 76; 70] [127; 69; 76; 70]) with true. cbn [negb unwrap bind].
    replace (((if i_32 e then 1 else 2) =? 1) || ((if i_32 e then 1 else 2) =? 2)) with true
      by (destruct (i_32 e); reflexivity). cbn [negb].
    replace ((if i_32 e then 1 else 2) =? 1) with c by (destruct (i_32 e); reflexivity).
    rewrite (read_obj_at ptr data 0 _ (ehdr_size c) (word_align c) Hh);
      [|apply enc_ehdr_size; apply Hwh|rewrite N.add_0_r; exact Hp].
    cbn [bind]. rewrite dec_enc_ehdr by exact Hwh. cbn [e_shnum e_phnum ehdr_of].
    assert (E1 : (if h_shnum h =? 0
       then (let* sh := read_first_shdr b (ehdr_of c h) in Ok (sh_size sh)) else Ok (h_shnum h))
       = Ok (nlen (i_sections e))).
    { unfold number_of_sections in Hns. destruct Hns as [[-> Hpos]|[-> (s & Hs & Hsz)]].
      - destruct (N.eqb_spec (nlen (i_sections e)) 0); [lia|reflexivity].
      - change (0 =? 0) with true. cbv iota. rewrite (Hfirst s Hs). cbn [bind]. now rewrite Hsz. }
    assert (E2 : (if h_phnum h =? PN_XNUM
       then (let* sh := read_first_shdr b (ehdr_of c h) in Ok (sh_info sh)) else Ok (h_phnum h))
       = Ok (nlen (i_segments e))).
    { unfold number_of_segments in Hnp. destruct Hnp as [[-> Hlt]|[-> (s & Hs & Hsz)]].
      - destruct (N.eqb_spec (nlen (i_segments e)) PN_XNUM) as [E|]; [unfold PN_XNUM in E; lia|reflexivity].
      - change (65535 =? PN_XNUM) with true. cbv iota. rewrite (Hfirst s Hs). cbn [bind]. now rewrite Hsz. }
    rewrite E1. cbn [bind]. rewrite E2. reflexivity.
  Qed.

  Lemma parse_shdrs_ok : parse_shdrs b = Ok (map s_hdr (i_sections e)).
  Proof.
    unfold parse_shdrs. rewrite parse_ehdr_ok. cbn [bind x_ehdr x_shnum ehdr_of e_32 e_shoff].
    destruct Hf as (Hd & Hp & _ & _ & _ & _ & Hsh & Hwf & Hal & _).
    replace (nlen (i_sections e)) with (nlen (map s_hdr (i_sections e)))
      by (unfold nlen; now rewrite map_length).
    rewrite (read_slice_at _ (enc_section_header c)); auto.
    - cbn [bind]. f_equal. rewrite map_map. rewrite <- (map_id (map s_hdr (i_sections e))) at 2.
      apply map_ext_in. intros s Hs. apply dec_enc_shdr. rewrite Forall_forall in Hwf. now apply Hwf.
    - destruct (i_32 e); reflexivity.
    - intros. apply enc_shdr_size.
    - now apply aligned.
  Qed.
  Lemma parse_phdrs_ok : parse_phdrs b = Ok (i_segments e).
  Proof.
    unfold parse_phdrs. rewrite parse_ehdr_ok. cbn [bind x_ehdr x_phnum ehdr_of e_32 e_phoff].
    destruct Hf as (Hd & Hp & _ & _ & _ & _ & _ & _ & _ & Hph & Hwf & Hal & _).
    rewrite (read_slice_at _ (enc_program_header c)); auto.
    - cbn [bind]. f_equal. rewrite map_map. rewrite <- (map_id (i_segments e)) at 2.
      apply map_ext_in. intros s Hs. apply dec_enc_phdr. rewrite Forall_forall in Hwf. now apply Hwf.
    - destruct (i_32 e); reflexivity.
    - intros. apply enc_phdr_size.
    - now apply aligned.
  Qed.

  Lemma section_hdr_ok : forall i s, nnth i (i_sections e) = Some s -> section_hdr b i = Ok (s_hdr s).
  Proof.
    intros i s H. unfold section_hdr. rewrite parse_shdrs_ok. cbn [bind].
    rewrite nnth_nth_error in *. now rewrite nth_error_map, H.
  Qed.
  Lemma section_contents : forall i s, nnth i (i_sections e) = Some s -> contents data (s_hdr s) (s_data s).
  Proof.
    intros i s H. destruct Hf as (_ & _ & _ & _ & _ & _ & _ & _ & _ & _ & _ & _ & Hc & _).
    rewrite Forall_forall in Hc. apply Hc. rewrite nnth_nth_error in H. eapply nth_error_In, H.
  Qed.
  Lemma section_data_raw_ok : forall i s, nnth i (i_sections e) = Some s ->
    section_data_raw b i = Ok (s_data s).
  Proof.
    intros i s H. unfold section_data_raw. rewrite (section_hdr_ok _ _ H). cbn [bind].
    destruct (section_contents _ _ H) as [[E ->]|[E [Hat Hl]]].
    - rewrite E. reflexivity.
    - destruct (N.eqb_spec (sh_type (s_hdr s)) SHT_NOBITS); [contradiction|]. cbn [negb].
      rewrite <- Hl. now apply read_bytes_at.
  Qed.
End File.

Lemma str_at_ok : forall strs off s, string_at strs off s -> str_at strs off = Ok s.
Proof.
  intros strs off s [Hat Hn]. unfold str_at. apply get_from_at in Hat. destruct Hat as [r ->].
  cbn [of_option bind]. unfold read_cstr. rewrite <- app_assoc. cbn [app].
  rewrite split_once_app; auto.
  rewrite Forall_forall in *. intros x Hx. apply N.eqb_neq. now apply Hn.
Qed.
Lemma str_at_inv : forall strs off s, str_at strs off = Ok s -> string_at strs off s.
Proof.
  intros strs off s H. unfold str_at in H. ib H r E. ib H p E2. destruct p as [s' r2].
  injection H as <-. apply of_option_ok_inv in E. apply ok_or_ok_inv in E2. unfold read_cstr in E2.
  apply of_option_ok_inv in E2. apply split_once_some in E2.
  destruct E2 as (z & -> & Hz & Hs). apply N.eqb_eq in Hz. subst z. split.
  - apply at_get_from with r2. rewrite <- app_assoc. exact E.
  - rewrite Forall_forall in *. intros x Hx. specialize (Hs x Hx). cbv beta in Hs. now apply N.eqb_neq in Hs.
Qed.
Lemma to_str_inv : forall s s', to_str s = Ok s' -> s' = s /\ utf8_valid s = true.
Proof. intros s s' H. unfold to_str in H. destruct (utf8_valid s); [injection H as <-; auto|discriminate]. Qed.
Lemma to_str_ok : forall s, utf8_valid s = true -> to_str s = Ok s.
Proof. intros s H. unfold to_str. now rewrite H. Qed.
Lemma string_at_fun : forall strs off a b, string_at strs off a -> string_at strs off b -> a = b.
Proof.
  intros strs off a b Ha Hb. apply str_at_ok in Ha, Hb. congruence.
Qed.

Section File2.
  Variables (ptr : N) (data : list N) (e : image).
  Hypothesis Hf : elf_file ptr data e.
  Local Notation b := (Mem ptr data).
  Local Notation c := (i_32 e).

  Lemma parse_shstrtab_ok : exists names, parse_shstrtab b = Ok (s_data names) /\
    Forall (fun s => string_at (s_data names) (sh_name (s_hdr s)) (s_name s) /\
                     utf8_valid (s_name s) = true) (tl (i_sections e)).
  Proof.
    pose proof (first_shdr ptr data e Hf) as Hfirst.
    pose proof (section_data_raw_ok ptr data e Hf) as Hraw.
    pose proof (parse_ehdr_ok ptr data e Hf) as Heh.
    destruct Hf as (_ & _ & _ & _ & _ & _ & _ & _ & _ & _ & _ & _ & _ & i & names & Hi & Hn & HF).
    exists names. split; auto. unfold parse_shstrtab. rewrite Heh. cbn [bind x_ehdr].
    assert (E : shstrndx (Mem ptr data) (ehdr_of (i_32 e) (i_hdr e)) = Ok i).
    { unfold shstrndx. cbn [e_shstrndx ehdr_of]. destruct Hi as [[-> Hlt]|[-> (s & Hs & <-)]].
      - destruct (N.eqb_spec i SHN_XINDEX) as [E|]; [unfold SHN_XINDEX in E; lia|reflexivity].
      - change (65535 =? SHN_XINDEX) with true. cbv iota. now rewrite (Hfirst s Hs). }
    rewrite E. cbn [bind]. now apply Hraw.
  Qed.
  Lemma section_name_ok : forall i s, 0 < i -> nnth i (i_sections e) = Some s ->
    section_name b i = Ok (s_name s).
  Proof.
    intros i s Hi Hs. unfold section_name. rewrite (section_hdr_ok ptr data e Hf i s Hs). cbn [bind].
    destruct parse_shstrtab_ok as (names & Hn & HF). rewrite Hn. cbn [bind].
    rewrite Forall_forall in HF. destruct (HF s) as [H1 H2].
    { rewrite nnth_nth_error in Hs. destruct (i_sections e) as [|s0 l]; [now destruct (N.to_nat i)|].
      destruct (N.to_nat i) eqn:E; [lia|]. cbn in Hs. eapply nth_error_In, Hs. }
    rewrite (str_at_ok _ _ _ H1). cbn [bind]. now apply to_str_ok.
  Qed.

  (** the index of the first section of a name *)
  Lemma find_section_ok : forall name,
    match section_named e name with
    | Some s => exists i, find_section b name = Ok (Some i) /\ nnth i (i_sections e) = Some s
    | None => find_section b name = Ok None
    end.
  Proof.
    intros name. unfold find_section, section_named. rewrite (parse_ehdr_ok ptr data e Hf). cbn [bind x_shnum].
    rewrite (parse_shdrs_ok ptr data e Hf). cbn [bind].
    assert (Hloop : forall l i, 0 < i -> (forall j, nnth (i + j) (i_sections e) = nnth j l) ->
      match find (fun s => beq (s_name s) name) l with
      | Some s => exists k, find_section_loop b name (map s_hdr l) i = Ok (Some k) /\ nnth k (i_sections e) = Some s
      | None => find_section_loop b name (map s_hdr l) i = Ok None
      end).
    { induction l as [|s l IH]; intros i Hi Hl; cbn [find map find_section_loop]; [reflexivity|].
      assert (Hs : nnth i (i_sections e) = Some s).
      { specialize (Hl 0). rewrite N.add_0_r in Hl. rewrite Hl. reflexivity. }
      rewrite (section_name_ok i s Hi Hs). cbn [bind]. destruct (beq (s_name s) name); [eauto|].
      apply IH; [lia|]. intros j. replace (i + 1 + j) with (i + (j + 1)) by lia. rewrite Hl.
      rewrite !nnth_nth_error. replace (N.to_nat (j + 1)) with (S (N.to_nat j)) by lia. reflexivity. }
    destruct (i_sections e) as [|s0 l] eqn:E.
    - cbn [tl find]. reflexivity.
    - cbn [map tl]. rewrite nlen_cons.
      specialize (Hloop l 1 ltac:(lia)). rewrite <- E in *.
      assert (Hj : forall j, nnth (1 + j) (i_sections e) = nnth j l).
      { intros j. rewrite E. rewrite !nnth_nth_error. replace (N.to_nat (1 + j)) with (S (N.to_nat j)) by lia. reflexivity. }
      specialize (Hloop Hj).
      destruct (N.leb_spec (nlen l + 1) 1) as [Hle|]; [|exact Hloop].
      destruct l as [|s1 l]; [reflexivity|]. rewrite nlen_cons in Hle. lia.
  Qed.

  Lemma parse_section_data_ok : forall T size (dec : bool -> list N -> T) (enc : T -> list N) i s l,
    0 < size c -> (forall t, In t l -> nlen (enc t) = size c) -> (forall t, In t l -> dec c (enc t) = t) ->
    nnth i (i_sections e) = Some s -> s_data s = flat_map enc l ->
    sh_offset (s_hdr s) mod word_align c = 0 ->
    parse_section_data size dec b i = Ok l.
  Proof.
    intros T size dec enc i s l Hsz Hsize Hdec Hs Hdata Hal. unfold parse_section_data.
    rewrite (parse_ehdr_ok ptr data e Hf). cbn [bind x_ehdr ehdr_of e_32].
    rewrite (section_hdr_ok ptr data e Hf i s Hs). cbn [bind].
    pose proof (GsymFormat.nlen_flat _ enc (size c) l Hsize) as Hlen.
    assert (Hnil : nlen (s_data s) = 0 -> l = []).
    { rewrite Hdata, Hlen. intros H0. destruct l; auto. rewrite nlen_cons in H0. nia. }
    destruct (section_contents ptr data e Hf i s Hs) as [[E E']|[E [Hat Hl]]].
    - rewrite E. change (SHT_NOBITS =? SHT_NOBITS) with true. cbv iota. f_equal. symmetry. apply Hnil. rewrite E'. reflexivity.
    - destruct (N.eqb_spec (sh_type (s_hdr s)) SHT_NOBITS); [contradiction|]. rewrite <- Hl, Hdata, Hlen.
      rewrite N.mod_mul by lia. change (0 =? 0) with true. cbn [negb]. rewrite N.div_mul by lia.
      destruct (N.eqb_spec (nlen l) 0) as [E0|].
      + destruct l; [reflexivity|]. rewrite nlen_cons in E0. lia.
      + rewrite Hdata in Hat. rewrite (read_slice_at _ enc); auto.
        * cbn [bind]. f_equal. rewrite map_map. rewrite <- (map_id l) at 2. apply map_ext_in. auto.
        * apply Hf.
        * apply aligned; [apply Hf|auto].
  Qed.

  Lemma parse_syms_for_idx_ok : forall i s syms, nnth i (i_sections e) = Some s -> symbols_of e s syms ->
    parse_syms_for_idx b i = Ok syms.
  Proof.
    intros i s syms Hs (Hd & Hw & Hal). unfold parse_syms_for_idx.
    apply (parse_section_data_ok _ sym_size dec_sym (enc_symbol (i_32 e)) i s); auto.
    - destruct (i_32 e); reflexivity.
    - intros. apply enc_sym_size.
    - intros t Ht. apply dec_enc_sym. rewrite Forall_forall in Hw. now apply Hw.
  Qed.
  Lemma table_ok : forall ns nt t, table_named e ns nt t ->
    parse_syms b ns = Ok (t_syms t) /\ parse_strs b nt = Ok (t_strs t).
  Proof.
    intros ns nt t [H1 H2]. unfold parse_syms, parse_strs.
    rewrite (parse_ehdr_ok ptr data e Hf). cbn [bind]. split.
    - pose proof (find_section_ok ns) as H. destruct (section_named e ns) as [s|].
      + destruct H as (i & -> & Hi). cbn [bind]. now apply (parse_syms_for_idx_ok i s).
      + rewrite H. cbn [bind]. now rewrite H1.
    - pose proof (find_section_ok nt) as H. destruct (section_named e nt) as [s|].
      + destruct H as (i & -> & Hi). cbn [bind]. rewrite (section_data_raw_ok ptr data e Hf i s Hi). now rewrite H2.
      + rewrite H. cbn [bind]. now rewrite H2.
  Qed.
End File2.

Lemma ensure_symtab_ok : forall x ptr data e t, elf_file ptr data e -> symtab_of x e t ->
  ensure_symtab x (Mem ptr data) = Ok t.
Proof.
  intros x ptr data e t Hf (t0 & Ht0 & H). unfold ensure_symtab.
  destruct (table_ok ptr data e Hf _ _ _ Ht0) as [-> ->]. cbn [bind].
  destruct H as [[Hne ->]|[Hnil H]].
  - destruct t0 as [[|s l] strs]; [now destruct Hne|]. reflexivity.
  - rewrite Hnil. unfold parse_debugdata. pose proof (find_section_ok ptr data e Hf n_debugdata) as Hd.
    destruct (section_named e n_debugdata) as [s|].
    + destruct Hd as (i & -> & Hi). cbn [bind]. rewrite (section_data_raw_ok ptr data e Hf i s Hi). cbn [bind].
      destruct H as (d & -> & [[-> ->]|[Hne (e' & He' & Ht)]]).
      * cbn [bind]. destruct t0; cbn in *. now rewrite Hnil.
      * cbn [bind]. destruct d as [|d0 d]; [now destruct Hne|].
        destruct (table_ok _ _ e' He' _ _ _ Ht) as [-> ->]. cbn [bind]. now destruct t.
    + rewrite Hd. cbn [bind]. subst t. destruct t0; cbn in *. now rewrite Hnil.
Qed.
Lemma ensure_dynsym_ok : forall ptr data e t, elf_file ptr data e -> dynsym_of e t ->
  ensure_dynsym (Mem ptr data) = Ok t.
Proof.
  intros ptr data e t Hf Ht. unfold ensure_dynsym.
  destruct (table_ok ptr data e Hf _ _ _ Ht) as [-> ->]. cbn [bind]. now destruct t.
Qed.
