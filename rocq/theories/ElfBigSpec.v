(** * ELF files of the other byte order

    System V ABI, chapter 4: with [ELFDATA2MSB] as the encoding in the
    identification, all numbers have their most significant byte first. *)

From Verif Require Import Base Util UtilProofs Bytes Text Sym Elf ElfSpec.
Local Open Scope N_scope.

Definition ELFDATA2MSB : N := 2.
Definition be_bytes (n : nat) (v : N) : list N := rev (le_bytes n v).
Definition be_word (c : bool) (v : N) : list N := be_bytes (if c then 4 else 8) v.

(** [h_ident] is the part of the identification following the class, the
    encoding first. *)
Definition big_header (c : bool) (h : file_header) : list N :=
  [127; 69; 76; 70; if c then 1 else 2] ++ h_ident h ++
  be_bytes 2 (h_type h) ++ be_bytes 2 (h_machine h) ++ be_bytes 4 (h_version h) ++
  be_word c (h_entry h) ++ be_word c (h_phoff h) ++ be_word c (h_shoff h) ++
  be_bytes 4 (h_flags h) ++ be_bytes 2 (h_ehsize h) ++ be_bytes 2 (h_phentsize h) ++
  be_bytes 2 (h_phnum h) ++ be_bytes 2 (h_shentsize h) ++ be_bytes 2 (h_shnum h) ++
  be_bytes 2 (h_shstrndx h).

(** A file with such a header, found at address [ptr] in memory *)
Definition big_file (ptr : N) (data : list N) (c : bool) (h : file_header) : Prop :=
  ptr mod word_align c = 0 /\ at_ data 0 (big_header c h) /\ wf_file_header c h /\
  exists rest, h_ident h = ELFDATA2MSB :: rest.

(** The size of files, and offsets of tables in them, that cannot be mistaken
    for something within the file: of 64 bit files, all up to 4 GiB; of 32 bit
    files up to 16 MiB, those which are not a multiple of 256. *)
Definition usual (data : list N) (c : bool) (off : N) : Prop :=
  if c then nlen data < 2 ^ 24 /\ off mod 256 <> 0
  else nlen data < 2 ^ 32 /\ 0 < off < 2 ^ 32.
