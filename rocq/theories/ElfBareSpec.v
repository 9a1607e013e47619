(** * ELF files without section headers

    System V ABI, chapter 4: a file having no section header table has zero
    for its offset, its number of entries and the index of the section of
    names. A program can be run without any section headers, and there are
    tools removing them ([sstrip], [strip --strip-section-headers]). *)

From Verif Require Import Base Util Bytes Text Sym Elf ElfSpec.
Local Open Scope N_scope.

Definition bare_file (ptr : N) (data : list N) (e : image) : Prop :=
  let c := i_32 e in
  let h := i_hdr e in
  nlen data < two64 /\
  ptr mod word_align c = 0 /\
  at_ data 0 (enc_file_header c h) /\ wf_file_header c h /\
  i_sections e = [] /\ h_shoff h = 0 /\ h_shnum h = 0 /\ h_shstrndx h = 0 /\
  h_phnum h = nlen (i_segments e) /\ nlen (i_segments e) < 65535 /\
  at_ data (h_phoff h) (flat_map (enc_program_header c) (i_segments e)) /\
  Forall (wf_program_header c) (i_segments e) /\
  h_phoff h mod word_align c = 0.

(** The version of the format there is *)
Definition EV_CURRENT : N := 1.
