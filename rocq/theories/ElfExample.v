(** * Making ELF files, for examples *)

From Coq Require Import String.
From Verif Require Import Base Util UtilProofs Bytes Text Nom Sym Inspect Elf ElfSpec.
Local Close Scope string_scope.
Local Open Scope N_scope.

(** A section to be: name, type, address, link, info, data *)
Record input := Input {
  in_name : list N;
  in_type : N;
  in_addr : N;
  in_link : N;
  in_info : N;
  in_data : list N
}.
Definition pad8 (l : list N) : list N := l ++ repeat 0 (N.to_nat ((8 - nlen l mod 8) mod 8)).

(** The section of section names, and where in there names start *)
Definition names_of (l : list input) : list N :=
  flat_map (fun i => in_name i ++ [0]) l.
Fixpoint place (c : bool) (name off : N) (l : list input) : list section * list N :=
  match l with
  | [] => ([], [])
  | i :: l =>
      let d := pad8 (in_data i) in
      let '(secs, bytes) := place c (name + nlen (in_name i) + 1) (off + nlen d) l in
      (Section_ (in_name i)
         (Shdr name (in_type i) 0 (in_addr i) off (nlen (in_data i)) (in_link i) (in_info i) 8 0)
         (in_data i) :: secs, d ++ bytes)
  end.
Definition null_section : input := Input [] 0 0 0 0 [].
Definition make (c : bool) (type : N) (segments : list phdr) (l : list input) : image * list N :=
  let l := null_section :: l in
  let l := l ++ [Input (bs ".shstrtab"%string) 3 0 0 0 (names_of l ++ bs ".shstrtab"%string ++ [0])] in
  let base := if c then 52 else 64 in
  let ph := pad8 (repeat 0 (N.to_nat (base + (if c then 32 else 56) * nlen segments))) in
  let '(secs, bytes) := place c 0 (nlen ph) l in
  let h := FileHeader ([1; 1] ++ repeat 0 9) type 62 1 0 (if c then 52 else 64) (nlen ph + nlen bytes)
             0 base (if c then 32 else 56) (nlen segments) (if c then 40 else 64) (nlen secs) (nlen secs - 1) in
  let head := enc_file_header c h ++ flat_map (enc_program_header c) segments in
  (Image c h segments secs,
   head ++ repeat 0 (N.to_nat (nlen ph - nlen head)) ++ bytes ++
   flat_map (enc_section_header c) (map s_hdr secs)).

Lemma at_check : forall data off b,
  (off + nlen b <=? nlen data) && beq (ntake (nlen b) (ndrop off data)) b = true -> at_ data off b.
Proof.
  intros data off b H. apply andb_true_iff in H. destruct H as [H1 H2]. apply N.leb_le in H1. apply beq_eq in H2.
  exists (ntake off data), (ndrop (nlen b) (ndrop off data)). split.
  - rewrite <- H2 at 1. now rewrite !ntake_ndrop.
  - rewrite nlen_ntake. lia.
Qed.

(** Boolean versions of the requirements *)
Definition ltall (w : N) (l : list N) : bool := forallb (fun v => v <? w) l.
Lemma ltall_ok : forall w l, ltall w l = true -> Forall (fun v => v < w) l.
Proof.
  intros w l H. apply Forall_forall. intros v Hv. unfold ltall in H. rewrite forallb_forall in H.
  now apply N.ltb_lt, H.
Qed.
Definition at_b (data : list N) (off : N) (b : list N) : bool :=
  (off + nlen b <=? nlen data) && beq (ntake (nlen b) (ndrop off data)) b.
Definition wbits (c : bool) : N := 2 ^ (if c then 32 else 64).
Definition string_b (strs : list N) (off : N) (s : list N) : bool :=
  at_b strs off (s ++ [0]) && forallb (fun b => negb (b =? 0)) s.
Lemma string_b_ok : forall strs off s, string_b strs off s = true -> string_at strs off s.
Proof.
  intros strs off s H. apply andb_true_iff in H. destruct H as [H1 H2]. split; [now apply at_check|].
  rewrite forallb_forall in H2. apply Forall_forall. intros b Hb. apply H2 in Hb. now apply N.eqb_neq, negb_true_iff.
Qed.
Definition shdr_b (c : bool) (s : shdr) : bool :=
  ltall (2 ^ 32) [sh_name s; sh_type s; sh_link s; sh_info s] &&
  ltall (wbits c) [sh_flags s; sh_addr s; sh_offset s; sh_size s; sh_addralign s; sh_entsize s].
Definition phdr_b (c : bool) (p : phdr) : bool :=
  ltall (2 ^ 32) [p_type p; p_flags p] &&
  ltall (wbits c) [p_offset p; p_vaddr p; p_paddr p; p_filesz p; p_memsz p; p_align p].
Definition sym_b (c : bool) (s : esym) : bool :=
  ltall 256 [st_info s; st_other s] && ltall (2 ^ 16) [st_shndx s] && ltall (2 ^ 32) [st_name s] &&
  ltall (wbits c) [st_value s; st_size s].
Definition elf_file_b (ptr : N) (data : list N) (e : image) : bool :=
  let c := i_32 e in
  let h := i_hdr e in
  (nlen data <? two64) && (ptr mod word_align c =? 0) &&
  at_b data 0 (enc_file_header c h) &&
  ((nlen (h_ident h) =? 11) &&
   ltall (wbits c) [h_entry h; h_phoff h; h_shoff h] && ltall (2 ^ 32) [h_version h; h_flags h] &&
   ltall (2 ^ 16) [h_type h; h_machine h; h_ehsize h; h_phentsize h; h_phnum h; h_shentsize h;
        h_shnum h; h_shstrndx h]) &&
  ((h_shnum h =? nlen (i_sections e)) && (0 <? nlen (i_sections e))) &&
  ((h_phnum h =? nlen (i_segments e)) && (nlen (i_segments e) <? 65535)) &&
  at_b data (h_shoff h) (flat_map (enc_section_header c) (map s_hdr (i_sections e))) &&
  forallb (shdr_b c) (map s_hdr (i_sections e)) &&
  (h_shoff h mod word_align c =? 0) &&
  at_b data (h_phoff h) (flat_map (enc_program_header c) (i_segments e)) &&
  forallb (phdr_b c) (i_segments e) &&
  (h_phoff h mod word_align c =? 0) &&
  forallb (fun s => if sh_type (s_hdr s) =? SHT_NOBITS then beq (s_data s) []
                    else at_b data (sh_offset (s_hdr s)) (s_data s) && (nlen (s_data s) =? sh_size (s_hdr s)))
    (i_sections e) &&
  (h_shstrndx h <? 65535) &&
  match nnth (h_shstrndx h) (i_sections e) with
  | Some names =>
      forallb (fun s => string_b (s_data names) (sh_name (s_hdr s)) (s_name s) && utf8_valid (s_name s))
        (tl (i_sections e))
  | None => false
  end.
Lemma forallb_Forall : forall A (f : A -> bool) (P : A -> Prop) l,
  (forall a, f a = true -> P a) -> forallb f l = true -> Forall P l.
Proof. intros A f P l H Hl. apply Forall_forall. intros a Ha. rewrite forallb_forall in Hl. auto. Qed.
Lemma elf_file_check : forall ptr data e, elf_file_b ptr data e = true -> elf_file ptr data e.
Proof.
  intros ptr data e H. unfold elf_file_b in H. cbv zeta in H.
  repeat match goal with H : _ && _ = true |- _ => apply andb_true_iff in H; destruct H end.
  repeat match goal with
         | H : at_b _ _ _ = true |- _ => apply at_check in H
         | H : ltall _ _ = true |- _ => apply ltall_ok in H
         | H : (_ =? _) = true |- _ => apply N.eqb_eq in H
         | H : (_ <? _) = true |- _ => apply N.ltb_lt in H
         end.
  destruct (nnth (h_shstrndx (i_hdr e)) (i_sections e)) as [names|] eqn:En; [|discriminate].
  unfold elf_file. cbv zeta.
  split; [assumption|]. split; [assumption|]. split; [assumption|].
  split; [now repeat split|]. split; [left; auto|]. split; [left; auto|]. split; [assumption|].
  split.
  { eapply forallb_Forall; [|eassumption]. intros s Hs. apply andb_true_iff in Hs. destruct Hs.
    split; now apply ltall_ok. }
  split; [assumption|]. split; [assumption|]. split.
  { eapply forallb_Forall; [|eassumption]. intros s Hs. apply andb_true_iff in Hs. destruct Hs.
    split; now apply ltall_ok. }
  split; [assumption|]. split.
  { eapply forallb_Forall; [|eassumption]. cbv beta. intros s Hs. unfold contents.
    destruct (N.eqb_spec (sh_type (s_hdr s)) SHT_NOBITS).
    - left. split; auto. now apply beq_eq.
    - right. apply andb_true_iff in Hs. destruct Hs. split; auto. split; [now apply at_check|]. now apply N.eqb_eq. }
  exists (h_shstrndx (i_hdr e)), names. split; [left; auto|]. split; [assumption|].
  eapply forallb_Forall; [|eassumption]. cbv beta. intros s Hs. apply andb_true_iff in Hs. destruct Hs.
  split; auto. now apply string_b_ok.
Qed.
Lemma symbols_check : forall e s syms,
  beq (s_data s) (flat_map (enc_symbol (i_32 e)) syms) && forallb (sym_b (i_32 e)) syms &&
  (sh_offset (s_hdr s) mod word_align (i_32 e) =? 0) = true -> symbols_of e s syms.
Proof.
  intros e s syms H. repeat match goal with H : _ && _ = true |- _ => apply andb_true_iff in H; destruct H end.
  split; [now apply beq_eq|]. split; [|now apply N.eqb_eq].
  eapply forallb_Forall; [|eassumption]. intros z Hz. unfold sym_b in Hz.
  repeat match goal with H : _ && _ = true |- _ => apply andb_true_iff in H; destruct H end.
  repeat split; now apply ltall_ok.
Qed.
Definition table_b (e : image) (syms strs : list N) (t : symtab) : bool :=
  match section_named e syms with
  | Some s => beq (s_data s) (flat_map (enc_symbol (i_32 e)) (t_syms t)) && forallb (sym_b (i_32 e)) (t_syms t) &&
              (sh_offset (s_hdr s) mod word_align (i_32 e) =? 0)
  | None => match t_syms t with [] => true | _ => false end
  end &&
  match section_named e strs with Some s => beq (t_strs t) (s_data s) | None => beq (t_strs t) [] end.
Lemma table_check : forall e syms strs t, table_b e syms strs t = true -> table_named e syms strs t.
Proof.
  intros e syms strs t H. apply andb_true_iff in H. destruct H as [H1 H2]. split.
  - destruct (section_named e syms); [now apply symbols_check|]. destruct (t_syms t); auto; discriminate.
  - destruct (section_named e strs); now apply beq_eq.
Qed.
Lemma symtab_check : forall x e t, table_b e n_symtab n_strtab t = true -> t_syms t <> [] -> symtab_of x e t.
Proof. intros x e t H Hn. exists t. split; [now apply table_check|]. now left. Qed.
Lemma symtab_empty_check : forall x e t, table_b e n_symtab n_strtab t = true -> t_syms t = [] ->
  section_named e n_debugdata = None -> symtab_of x e t.
Proof. intros x e t H Hn Hd. exists t. split; [now apply table_check|]. right. split; auto. now rewrite Hd. Qed.

(** Tables of symbols: name, type, section, value, size; a null symbol first *)
Definition syms_data (c : bool) (l : list esym) : list N := flat_map (enc_symbol c) l.
Definition null_sym : esym := ESym 0 0 0 0 0 0.
Definition names_b (t : symtab) (names : list (list N)) : bool :=
  (Nat.eqb (List.length (t_syms t)) (List.length names)) &&
  forallb (fun '(s, n) => string_b (t_strs t) (st_name s) n && utf8_valid n) (combine (t_syms t) names).
Lemma names_check : forall t names, names_b t names = true -> names_ok t.
Proof.
  intros t names H s Hi _. apply andb_true_iff in H. destruct H as [Hl H]. apply Nat.eqb_eq in Hl.
  apply In_nth_error in Hi. destruct Hi as [i Hi].
  destruct (nth_error names i) as [n|] eqn:En.
  - rewrite forallb_forall in H. assert (Hin : In (s, n) (combine (t_syms t) names)).
    { clear H Hl. revert i names Hi En. generalize (t_syms t). induction l as [|z l IH]; intros [|i] [|n' names] Hi En; try discriminate.
      - cbn in *. left. congruence.
      - right. eapply IH; eauto. }
    apply H in Hin. apply andb_true_iff in Hin. destruct Hin. exists n. split; auto. now apply string_b_ok.
  - apply nth_error_None in En. apply nth_error_lt in Hi. lia.
Qed.
Lemma space_check : forall t, forallb (fun s => st_value s + st_size s <? two64) (t_syms t) = true -> in_space t.
Proof. intros t. apply forallb_Forall. intros s. apply N.ltb_lt. Qed.

Lemma sections_check : forall e t,
  forallb (fun s => match nnth (st_shndx s) (i_sections e) with
    | Some sec => sh_offset (s_hdr sec) + sh_size (s_hdr sec) <? two64
    | None => 65280 <=? st_shndx s
    end) (t_syms t) = true -> sections_ok e t.
Proof.
  intros e t H s Hs Hlt. rewrite forallb_forall in H. apply H in Hs.
  destruct (nnth _ _) as [sec|]; [|apply N.leb_le in Hs; lia]. exists sec. split; auto. now apply N.ltb_lt.
Qed.

Definition no_ext : ext :=
  Ext (fun _ => Err EUnsupported) (fun _ => Err EUnsupported) (fun _ => Err EUnsupported) (fun _ => 0)
      (fun A leb l => isort leb l).
Lemma no_ext_sorts : sorts no_ext.
Proof. intros A leb l H1 H2. split; [apply isort_perm|now apply isort_sorted]. Qed.
