(** * Model of /repo/src/kernel/depmod.rs

    The index of kernel modules that depmod writes. *)

From Verif Require Import Base Util Maps.
Local Open Scope N_scope.

(** lines 15-18 *)
Definition index_node_mask : N := 0x0fffffff.
Definition index_node_childs : N := 0x20000000.
Definition index_node_values : N := 0x40000000.
Definition index_node_prefix : N := 0x80000000.
Definition has_flag (w flag : N) : bool := negb (N.land w flag =? 0).

(** lines 71-93 [validate] *)
Definition depmod_validate (data : list N) : res unit :=
  let* '(magic, r) := ok_or EInvalidData (read_be32 data) in
  if negb (magic =? 0xb007f457) then Err EInvalidData else
  let* '(version, _) := ok_or EInvalidData (read_be32 r) in
  if negb (version =? 0x00020001) then Err EInvalidData else
  Ok tt.

(** lines 111-165, the loop. Every further turn uses up a byte of the name, so
    [fuel] above the name's length is enough. *)
Fixpoint depmod_walk (fuel : nat) (m : mode) (data reader name : list N) : res (option (N * list N)) :=
  match fuel with
  | O => NoFuel
  | S fuel =>
      let* '(offset, _) := ok_or EInvalidData (read_be32 reader) in
      let node_offset := N.land offset index_node_mask in
      if nlen data <? node_offset then Err EInvalidData else
      let reader := ndrop node_offset data in
      let* pre :=
        (if has_flag offset index_node_prefix then
           let* '(prefix, reader) := ok_or EInvalidData (read_cstr reader) in
           match strip_prefix prefix name with
           | None => Ok None
           | Some name => Ok (Some (name, reader))
           end
         else Ok (Some (name, reader))) in
      match pre with
      | None => Ok None
      | Some (name, reader) =>
          if has_flag offset index_node_childs then
            let* '(first, reader) := ok_or EInvalidData (read_u8 reader) in
            let* '(last, reader) := ok_or EInvalidData (read_u8 reader) in
            match name with
            | cur :: name =>
                if (cur <? first) || (last <? cur) then Ok None else
                let* reader := ok_or EInvalidData (advance (4 * (cur - first)) reader) in
                depmod_walk fuel m data reader name
            | [] =>
                let* d := usub m 256 last first in
                let* d := uadd m 256 d 1 in
                let* reader := ok_or EInvalidData (advance (4 * d) reader) in
                Ok (Some (offset, reader))
            end
          else
            match name with
            | _ :: _ => Ok None
            | [] => Ok (Some (offset, reader))
            end
      end
  end.

(** [Path::join] *)
Definition path_join (base path : list N) : list N :=
  match path with
  | 47 :: _ => path
  | _ =>
      match base with
      | [] => path
      | _ => if last base 0 =? 47 then base ++ path else base ++ 47 :: path
      end
  end.

(** lines 99-195 [find_path] *)
Definition find_path (m : mode) (base_dir data name : list N) : res (option (list N)) :=
  let* reader := ok_or EInvalidData (advance 8 data) in
  let* found := depmod_walk (S (length name)) m data reader name in
  match found with
  | None => Ok None
  | Some (offset, reader) =>
      if negb (has_flag offset index_node_values) then Ok None else
      let* '(value_count, reader) := ok_or EInvalidData (read_be32 reader) in
      if value_count =? 0 then Ok None else
      let* reader := ok_or EInvalidData (advance 4 reader) in
      let* '(path, _) := of_option EInvalidData (split_once (fun b => b =? 58) reader) in
      Ok (Some (path_join base_dir path))
  end.
