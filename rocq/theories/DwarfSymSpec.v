(** * What symbols debug information lists

    DWARF Debugging Information Format, version 5, sections 2.3 and 3.3: entries
    are stored in the order of a walk through the tree, functions are those
    entries with code. *)

From Verif Require Import Base Dwarf DwarfSpec Inspect Text.
Local Open Scope N_scope.

Fixpoint preorder (t : tree) : list tree :=
  let 'Node _ _ _ c := t in
  t :: match c with Some l => flat_map preorder l | None => [] end.

(** [those P l l']: [l'] are those of [l] with [P]. *)
Inductive those {A} (P : A -> Prop) : list A -> list A -> Prop :=
| PickNil : those P [] []
| PickTake : forall x l l', P x -> those P l l' -> those P (x :: l) (x :: l')
| PickSkip : forall x l l', ~ P x -> those P l l' -> those P (x :: l) l'.

Fixpoint somes {A} (l : list (option A)) : list A :=
  match l with
  | [] => []
  | Some x :: l => x :: somes l
  | None :: l => somes l
  end.

(** Functions that were only declared, or inlined everywhere, have no code. *)
Definition has_code (b : body) (attrs : list (option attr)) : Prop :=
  exists r, declares b attrs r /\ r_begin r < r_end r.
Definition functions_of (b : body) (t : tree) (xs : list tree) : Prop :=
  those (fun x => t_tag x = TSubprogram /\ has_code b (t_attrs x)) (preorder t) xs.

(** The name of an entry, if it has one; names of others are followed at most
    [limit] times. *)
Definition called (us : units) (limit : nat) (b : body) (x : tree) (o : option (list N)) : Prop :=
  match o with
  | Some s => names_function us limit b (t_attrs x) s
  | None => nameless (t_attrs x) /\ forall v, ~ refers_on (t_attrs x) v
  end.
(** What is to be reported of a function: nothing without a name. Its code is
    in one piece. *)
Definition info_of (module : option (list N)) (offset_of : N -> N -> res (option N))
    (us : units) (limit : nat) (b : body) (x : tree) (o : option sym_info) : Prop :=
  exists n, called us limit b x n /\
  match n with
  | None => o = None
  | Some s => exists lo hi fo, utf8_valid s = true /\ low_of b (t_attrs x) lo /\ high_of b (t_attrs x) lo hi /\ lo <= hi /\
      offset_of lo (hi - lo) = Ok fo /\ o = Some (SymInfo s lo (Some (hi - lo)) TFunction fo module)
  end.
(** The symbols of a unit, in order *)
Definition unit_infos (module : option (list N)) (offset_of : N -> N -> res (option N))
    (us : units) (limit : nat) (u : dunit) (l : list sym_info) : Prop :=
  exists b t xs os, unit_body u b /\ unit_tree b t /\
    (forall x, is_function t x -> ranges_wf b (t_attrs x) /\ names_wf (t_attrs x)) /\
    functions_of b t xs /\ Forall2 (info_of module offset_of us limit b) xs os /\ l = somes os.

(** The first symbol of a name *)
Definition first_named (name : list N) (l : list sym_info) (o : option sym_info) : Prop :=
  match o with
  | Some i => si_name i = name /\ exists before after, l = before ++ i :: after /\ Forall (fun j => si_name j <> name) before
  | None => Forall (fun j => si_name j <> name) l
  end.
