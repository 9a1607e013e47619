(** * Normalization of the addresses of a process, from the contents of files *)

From Verif Require Import Base Maps Sym Elf ElfSpec BuildIdSpec FileCache Symbolizer Normalize Host HostSpec.
From Verif Require PropMaps PropNormalize ZipSpec.
Local Open Scope N_scope.

(** Files consist of bytes. *)
Definition wf_host (h : host) : Prop :=
  forall p ptr data, h_open h p = Good (ptr, data) -> is_bytes data /\ nlen data < two64.

(** [path] is what the file mapped at [v] is reported as. *)
Definition reported_as (h : host) (o : nopts) (p : pid) (v : vma) (q path : list N) : Prop :=
  if no_map_files o then PropMaps.is_map_file (number h p) (vma_start v) (vma_end v) path else path = q.

(** The build ID of a program or library: that of its first such note *)
Definition has_build_id (e : image) (b : option (list N)) : Prop :=
  exists l, notes e l /\ (forall n, In n l -> nt_type n = 3 -> nt_name n = GNU) /\ b = option_map nt_desc (find is_build_id l).
Definition build_id_reported (o : nopts) (e : image) (b : option (list N)) : Prop :=
  if no_build_ids o then has_build_id e b else b = None.

(** Not the name of a file in an archive *)
Definition plain (path : list N) : Prop := forall a b, path <> a ++ [33; 47] ++ b.

(** What is at the address can be told: if it is an archive that is to be
    looked into, then it is one, and the file in it there is a program or
    library, or there is none; if it is the vDSO, then that is a library. *)
Definition tellable (x : ext) (h : host) (o : nopts) (p : pid) (vs : list (vma * (bool * PropMaps.layout))) (a : N) : Prop :=
  forall v, mapped_at vs v a -> let off := a - vma_start v + vma_offset v in
  (forall q, of_file v q -> PropNormalize.is_archive q -> no_apk_to_elf o = true ->
     exists path ptr data rs1 rs2, reported_as h o p v q path /\ file_at h path ptr data /\ archive data (rs1 ++ rs2) /\
       Forall (elsewhere data off) rs1 /\
       (rs2 = [] \/
        exists c name start contents e b tl, rs2 = c :: tl /\ stored data c name start contents /\ start <= off < start + nlen contents /\
          elf_file (ptr + start) contents e /\ build_id_reported o e b)) /\
  (is_vdso v -> exists start data e st dt, vdso_image h p v start data /\ elf_program x start data e st dt).
