(** * Model of memory mapped files: src/mmap.rs

    The mapping's contents are the file's at the time of mapping; sharing
    ([Rc]), [advise] and changes of the file by others are not modelled. *)

From Verif Require Import Base Util Bytes.
Local Open Scope N_scope.

(** lines 84-89 [Mmap] *)
Record mmap := Mmap { mm_mapping : option (list N); mm_start : N; mm_end : N }.

(** lines 47-78 [Builder::map] *)
Definition map_file (contents : list N) : mmap :=
  if nlen contents =? 0 then Mmap None 0 1 else Mmap (Some contents) 0 (nlen contents).

(** lines 116-125 [Mmap::constrain] *)
Definition constrain (m : mode) (v : mmap) (start end_ : N) : res (option mmap) :=
  let* e := add64 m (mm_start v) end_ in
  if mm_end v <? e then Ok None
  else
    let* e := add64 m (mm_start v) end_ in
    let* s := add64 m (mm_start v) start in
    Ok (Some (Mmap (mm_mapping v) s e)).

(** lines 131-140 [Mmap::deref] *)
Definition deref (v : mmap) : list N :=
  match mm_mapping v with
  | Some mapping => match get_range (mm_start v) (mm_end v) mapping with Some d => d | None => [] end
  | None => []
  end.
