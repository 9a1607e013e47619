(** * What relocations mean (System V ABI, chapter 4) *)

From Verif Require Import Base Util UtilProofs Bytes Elf ElfSpec.
Local Open Scope N_scope.

(** A section of relocations: the section they are for, whether the values
    stored are addends, and the symbols referred to *)
Record rtable := RTable {
  rt_target : N;
  rt_implicit : bool;
  rt_syms : list esym;
  rt_relocs : list relocation
}.

Definition reloc_section (e : image) (s : section) (o : option rtable) : Prop :=
  let h := s_hdr s in
  if (sh_type h =? 4) || (sh_type h =? 9) then
    exists t, o = Some t /\ rt_target t = sh_info h /\ rt_implicit t = (sh_type h =? 9) /\
      s_data s = flat_map (enc_relocation (sh_type h =? 4) (i_32 e)) (rt_relocs t) /\
      Forall (fun r => wf_relocation (i_32 e) r /\ rl_sym r < nlen (rt_syms t)) (rt_relocs t) /\
      sh_offset h mod word_align (i_32 e) = 0 /\
      exists sec, nnth (sh_link h) (i_sections e) = Some sec /\ symbols_of e sec (rt_syms t)
  else o = None.

(** The value of a field to which a relocation applies *)
Definition relocated (t : rtable) (r : relocation) (stored v : N) : Prop :=
  exists s, nnth (rl_sym r) (rt_syms t) = Some s /\
    v = if rt_implicit t then (stored + st_value s) mod 2 ^ 64
        else Z.to_N ((Z.of_N (st_value s) + rl_addend r) mod 2 ^ 64).
(** A relocation for offset [off] of section [target] *)
Definition applies (tabs : list (option rtable)) (target off : N) (t : rtable) (r : relocation) : Prop :=
  In (Some t) tabs /\ rt_target t = target /\ In r (rt_relocs t) /\ rl_offset r = off.
