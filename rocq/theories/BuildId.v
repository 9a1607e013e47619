(** * Build IDs (src/normalize/buildid.rs) *)

From Verif Require Import Base Util Bytes Elf.
Local Open Scope N_scope.

(** elf/types.rs: [ElfN_Nhdr] (12 bytes, aligned to 4) and [NT_GNU_BUILD_ID] *)
Definition NT_GNU_BUILD_ID : N := 3.

(** lines 30-52: the notes of one section; [pos] is where in memory the bytes
    are. Every iteration consumes at least a header; [fuel] bounds their
    number. *)
Fixpoint notes_loop (fuel : nat) (m : mode) (pos : N) (bytes : list N) : res (option (list N)) :=
  match fuel with
  | O => NoFuel
  | S fuel =>
      if nlen bytes <? 12 then Ok None
      else
        let* '(d, bytes) := ok_or EInvalidData (read_slice 12 bytes) in
        if negb (pos mod 4 =? 0) then Err EInvalidData
        else
          let namesz := field 0 4 d in
          let descsz := field 4 4 d in
          let type := field 8 4 d in
          let* n := align_up m two32 namesz 4 in
          let* bytes := ok_or EInvalidData (advance n bytes) in
          if type =? NT_GNU_BUILD_ID then
            let* '(id, _) := ok_or EInvalidData (read_slice descsz bytes) in
            Ok (Some id)
          else
            let* k := align_up m two32 descsz 4 in
            let* bytes := ok_or EInvalidData (advance k bytes) in
            notes_loop fuel m (pos + 12 + n + k) bytes
  end.

(** [Result::unwrap] *)
Definition unwrap_res {A} (r : res A) : res A :=
  match r with Err _ => Panic | r => r end.

(** lines 23-56 [read_build_id], the loop over sections *)
Fixpoint build_id_loop (x : ext) (m : mode) (b : backend) (l : list shdr) (idx : N) : res (option (list N)) :=
  match l with
  | [] => Ok None
  | sh :: l =>
      if sh_type sh =? SHT_NOTE then
        let* '(pos, bytes) := unwrap_res (section_data x m b idx) in
        let* o := notes_loop (S (List.length bytes)) m pos bytes in
        match o with
        | Some id => Ok (Some id)
        | None => build_id_loop x m b l (idx + 1)
        end
      else build_id_loop x m b l (idx + 1)
  end.
(** lines 20-58 [read_build_id] *)
Definition read_build_id (x : ext) (m : mode) (b : backend) : res (option (list N)) :=
  let* shdrs := parse_shdrs b in
  build_id_loop x m b shdrs 0.
