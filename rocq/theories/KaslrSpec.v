(** * Core files of a kernel

    An ELF file with notes; the one named VMCOREINFO has lines of the form
    key=value (Documentation/admin-guide/kdump/vmcoreinfo.rst). *)

From Coq Require Import String.
From Verif Require Import Base Util UtilProofs PropUtil Bytes Nom Inspect Elf ElfSpec BuildIdSpec.
Local Close Scope string_scope.
Local Open Scope N_scope.

(** A core file need not have any sections. *)
Definition core_file (data : list N) (phs : list phdr) : Prop :=
  exists c h, nlen data < 2 ^ 63 /\
    at_ data 0 (enc_file_header c h) /\ wf_file_header c h /\
    h_phnum h = nlen phs /\ nlen phs < 65535 /\
    at_ data (h_phoff h) (flat_map (enc_program_header c) phs) /\ Forall (wf_program_header c) phs /\
    (h_shnum h = 0 -> h_shoff h + (if c then 40 else 64) <= nlen data).

(** The notes in a segment; those other than of type [PT_NOTE] have none. *)
Definition segment_notes (data : list N) (p : phdr) (l : list note) : Prop :=
  (p_type p = 4 /\ at_ data (p_offset p) (flat_map enc_note l) /\
   nlen (flat_map enc_note l) = p_filesz p /\ Forall wf_note l) \/
  (p_type p <> 4 /\ l = []).
Definition vmcoreinfo (n : note) : Prop := nt_name n = bs "VMCOREINFO"%string ++ [0] /\ nt_desc n <> [].

(** Text up to the start of a line, text from the end of a line *)
Definition line_start (l : list N) : Prop := l = [] \/ exists k, l = k ++ [10].
Definition line_end (l : list N) : Prop := l = [] \/ exists k, l = 10 :: k.
Definition key : list N := bs "KERNELOFFSET="%string.
(** No line starts with the key. *)
Definition unstated (text : list N) : Prop := forall x y, text = x ++ key ++ y -> ~ line_start x.
(** The first line that does gives a value. *)
Definition states (text : list N) (value : list N) : Prop :=
  exists before after, text = before ++ key ++ value ++ after /\
    line_start before /\ line_end after /\ unstated before /\ Forall (fun c => c <> 10) value.
Definition hex (text : list N) (v : N) : Prop :=
  exists ds, digits_of text ds /\ (List.length text <= 16)%nat /\ v = hex_number ds.

(** The first symbol of a name *)
Definition first_named (l : list sym_info) (name : list N) (addr : N) : Prop :=
  exists a s b, l = a ++ s :: b /\ si_name s = name /\ si_addr s = addr /\ Forall (fun z => si_name z <> name) a.
Definition none_named (l : list sym_info) (name : list N) : Prop := Forall (fun z => si_name z <> name) l.
