(** * Notes (System V ABI, chapter 5) *)

From Verif Require Import Base Util UtilProofs Bytes Elf ElfSpec.
Local Open Scope N_scope.

Record note := Note { nt_name : list N; nt_type : N; nt_desc : list N }.
Definition pad4 (l : list N) : list N := l ++ repeat 0 (N.to_nat ((4 - nlen l mod 4) mod 4)).
Definition enc_note (n : note) : list N :=
  le_bytes 4 (nlen (nt_name n)) ++ le_bytes 4 (nlen (nt_desc n)) ++ le_bytes 4 (nt_type n) ++
  pad4 (nt_name n) ++ pad4 (nt_desc n).
Definition wf_note (n : note) : Prop :=
  nlen (nt_name n) + 3 < 2 ^ 32 /\ nlen (nt_desc n) + 3 < 2 ^ 32 /\ nt_type n < 2 ^ 32.

(** A GNU build ID *)
Definition GNU : list N := [71; 78; 85; 0].
Definition is_build_id (n : note) : bool := (nt_type n =? 3) && beq (nt_name n) GNU.

(** The notes of a section; other sections have none. *)
Definition notes_of (s : section) (l : list note) : Prop :=
  if sh_type (s_hdr s) =? 7 then
    s_data s = flat_map enc_note l /\ Forall wf_note l /\
    sh_offset (s_hdr s) mod 4 = 0 /\ N.land (sh_flags (s_hdr s)) 2048 = 0
  else l = [].
Definition notes (e : image) (l : list note) : Prop :=
  exists ll, Forall2 notes_of (i_sections e) ll /\ l = concat ll.
