(** * Where separate debug files are looked for, and the section naming them

    GDB manual, "Debugging Information in Separate Files". *)

From Verif Require Import Base DebugLink.
From Verif Require Nom.
From Coq Require Import String.
Local Close Scope string_scope.
Local Open Scope N_scope.
Local Notation length := List.length.

(** A plain file name *)
Definition plain (name : list N) : Prop :=
  name <> [] /\ ~ In 47 name /\ name <> Nom.bs "."%string /\ name <> Nom.bs ".."%string.
(** [hex_name id s]: two lower case digits per byte *)
Definition digit_is (c d : N) : Prop := (d < 10 /\ c = 48 + d) \/ (10 <= d < 16 /\ c = 97 + (d - 10)).
Inductive hex_name : list N -> list N -> Prop :=
| HexNil : hex_name [] []
| HexCons : forall b h l id s, digit_is h (b / 16) -> digit_is l (b mod 16) -> hex_name id s ->
    hex_name (b :: id) (h :: l :: s).
(** The file for a build ID *)
Definition build_id_file (id : list N) (p : path) : Prop :=
  exists b rest s1 s2, id = b :: rest /\ hex_name [b] s1 /\ hex_name rest s2 /\
    p = Path true [Nom.bs "usr"%string; Nom.bs "lib"%string; Nom.bs "debug"%string; Nom.bs ".build-id"%string;
                   s1; s2 ++ Nom.bs ".debug"%string].
(** Directories from the given one up to, but without, the root *)
Definition upwards (dir : list (list N)) (dirs : list (list (list N))) : Prop :=
  match dir with
  | [] => dirs = [[]]
  | _ => length dirs = length dir /\
         forall i, (i < length dir)%nat -> nth_error dirs i = Some (firstn (length dir - i) dir)
  end.
Definition below (d : path) (dir : list (list N)) (name : list N) : path :=
  Path (p_abs d) (p_comps d ++ dir ++ [name]).
(** [documented dirs linker name id l]: the files to look at for the debug
    information of the file [linker], by its build ID, in the directories for
    debug files, next to it, and in a copy of its directory in one of them. *)
Definition documented (dirs : list path) (linker : option (list (list N) * list N)) (name : list N)
    (id : option (list N)) (l : list path) : Prop :=
  exists l1 l2 l3,
    l = l1 ++ l2 ++ l3 /\
    (match id with
     | Some id => if nlen id <? 8 then l1 = [] else exists p, l1 = [p] /\ build_id_file id p
     | None => l1 = []
     end) /\
    Forall2 (fun d p => p = below d [] name) dirs l2 /\
    match linker with
    | None => l3 = []
    | Some (dir, file) =>
        exists ups ls, upwards dir ups /\
          Forall2 (fun d ps => Forall2 (fun u p => p = below d u name) ups ps) dirs ls /\
          l3 = below (Path true []) dir name :: List.concat ls
    end.

(** A debug link section: name, padding and checksum (on a little endian
    machine) *)
Definition link_section (data name : list N) (crc : N) : Prop :=
  ~ In 0 name /\ exists pad c0 c1 c2 c3 rest,
    data = name ++ 0 :: pad ++ [c0; c1; c2; c3] ++ rest /\
    (length pad < 4)%nat /\ (4 | nlen name + 1 + nlen pad) /\
    crc = c0 + 256 * (c1 + 256 * (c2 + 256 * c3)).
Definition link_length_ok (data : list N) : Prop := nlen data + 4 <= 2 ^ 64.
(** [without x l l']: [l'] is [l] without [x]. *)
Inductive without (x : option path) : list path -> list path -> Prop :=
| WithoutNil : without x [] []
| WithoutSkip : forall p l l', x = Some p -> without x l l' -> without x (p :: l) l'
| WithoutKeep : forall p l l', x <> Some p -> without x l l' -> without x (p :: l) (p :: l').
