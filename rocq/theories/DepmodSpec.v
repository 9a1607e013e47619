(** * The index files of kmod

    After libkmod/libkmod-index.c and tools/depmod.c: a trie over the names of
    modules. A node has a prefix, a range of children by next byte, and values
    for the name that ends there. A reference to a node has its offset and
    flags for the parts it has. *)

From Coq Require Import String.
From Verif Require Import Base Util UtilProofs Nom.
Local Close Scope string_scope.
Local Open Scope N_scope.

Inductive trie :=
| Trie : forall (prefix : list N) (first : N) (children : list (option trie)) (values : list (N * list N)), trie.

(** A name and its values *)
Inductive has : trie -> list N -> list (N * list N) -> Prop :=
| HasHere : forall p f cs vs, vs <> [] -> has (Trie p f cs vs) p vs
| HasChild : forall p f cs vs i t n us,
    nth_error cs i = Some (Some t) -> has t n us -> has (Trie p f cs vs) (p ++ (f + N.of_nat i) :: n) us.

(** Big endian *)
Definition be32 (v : N) : list N := rev (le_bytes 4 v).

Definition ref_word (off : N) (p : list N) (cs : list (option trie)) (vs : list (N * list N)) : N :=
  off + (match cs with [] => 0 | _ => 2 ^ 29 end) + (match vs with [] => 0 | _ => 2 ^ 30 end)
      + (match p with [] => 0 | _ => 2 ^ 31 end).
Definition node_bytes (p : list N) (f : N) (slots : list N) (vs : list (N * list N)) : list N :=
  (match p with [] => [] | _ => p ++ [0] end) ++
  (match slots with [] => [] | _ => [f; f + nlen slots - 1] ++ flat_map be32 slots end) ++
  (match vs with [] => [] | _ => be32 (nlen vs) ++ flat_map (fun v => be32 (fst v) ++ snd v ++ [0]) vs end).

(** A node in a file; no child is a zero. *)
Inductive stored (data : list N) : N -> trie -> Prop :=
| Stored : forall off p f cs vs slots rest,
    off < 2 ^ 28 -> off <= nlen data -> nlen vs < 2 ^ 32 ->
    Forall (fun c => c <> 0) p ->
    (cs <> [] -> f + nlen cs <= 256) -> nlen cs < 256 ->
    ndrop off data = node_bytes p f slots vs ++ rest ->
    Forall2 (slot data) slots cs ->
    stored data (ref_word off p cs vs) (Trie p f cs vs)
with slot (data : list N) : N -> option trie -> Prop :=
| NoSlot : slot data 0 None
| Slot : forall w t, w <> 0 -> w < 2 ^ 32 -> stored data w t -> slot data w (Some t).

(** A file: magic number, version, reference to the root *)
Definition index_file (data : list N) (t : trie) : Prop :=
  exists root rest, root < 2 ^ 32 /\ data = be32 0xb007f457 ++ be32 0x00020001 ++ be32 root ++ rest /\ stored data root t.

(** The value for a module: its path, and what it depends on *)
Definition module_value (v : N * list N) (path : list N) : Prop :=
  exists deps, snd v = path ++ bs ":"%string ++ deps /\ Forall (fun c => c <> 58) path.
(** Where the path leads *)
Definition under (base path full : list N) : Prop :=
  (exists p, path = 47 :: p) /\ full = path \/
  (~ exists p, path = 47 :: p) /\
    (exists b, base = b ++ [47] /\ full = base ++ path \/
     (base <> [] /\ ~ exists b, base = b ++ [47]) /\ full = base ++ bs "/"%string ++ path \/
     base = [] /\ full = path).
