(** * The parts of the [nom] parser library (version 7) in use

    [PErr] is [Err::Error] (another alternative may be tried), [PFail] is
    [Err::Failure] (it may not). [Err::Incomplete] does not arise from the
    "complete" parsers in use. *)

From Coq Require Import String Ascii.
From Verif Require Import Base.
Local Open Scope N_scope.

(** The bytes of a literal. *)
Definition bs (s : string) : list N := map N_of_ascii (list_ascii_of_string s).
Arguments bs s%string.

Inductive pr (A : Type) := POk (rest : list N) (a : A) | PErr | PFail.
Arguments POk {A}. Arguments PErr {A}. Arguments PFail {A}.
Definition parser (A : Type) := list N -> pr A.

Definition pbind {A B} (p : pr A) (f : list N -> A -> pr B) : pr B :=
  match p with POk r a => f r a | PErr => PErr | PFail => PFail end.
Notation "'parse*' i , x := p 'in' e" :=
  (pbind p (fun i x => e)) (at level 200, i name, x name, p at level 100, e at level 200).

Definition pret {A} (a : A) : parser A := fun i => POk i a.
(** [cut] *)
Definition cut {A} (p : parser A) : parser A :=
  fun i => match p i with PErr => PFail | r => r end.
(** [opt] *)
Definition popt {A} (p : parser A) : parser (option A) :=
  fun i => match p i with POk r a => POk r (Some a) | PErr => POk i None | PFail => PFail end.
(** [map] *)
Definition pmap {A B} (p : parser A) (f : A -> B) : parser B :=
  fun i => parse* r, a := p i in POk r (f a).
(** [map_res] with a check *)
Definition pcheck {A} (p : parser A) (f : A -> bool) : parser A :=
  fun i => parse* r, a := p i in if f a then POk r a else PErr.
(** [terminated] *)
Definition terminated {A B} (p : parser A) (q : parser B) : parser A :=
  fun i => parse* i, a := p i in parse* i, _b := q i in POk i a.
(** [alt] *)
Fixpoint palt {A} (ps : list (parser A)) : parser A :=
  fun i => match ps with
           | [] => PErr
           | p :: ps => match p i with PErr => palt ps i | r => r end
           end.

(** [starts_with] *)
Fixpoint strip_prefix (t i : list N) : option (list N) :=
  match t, i with
  | [], _ => Some i
  | a :: t, b :: i => if a =? b then strip_prefix t i else None
  | _ :: _, [] => None
  end.
(** [bytes::complete::tag] *)
Definition tag (t : list N) : parser unit :=
  fun i => match strip_prefix t i with Some r => POk r tt | None => PErr end.

(** The longest prefix whose bytes satisfy [f], and the rest. *)
Fixpoint span (f : N -> bool) (i : list N) : list N * list N :=
  match i with
  | [] => ([], [])
  | b :: i' => if f b then let (p, r) := span f i' in (b :: p, r) else ([], i)
  end.
(** [bytes::complete::take_while] *)
Definition take_while (f : N -> bool) : parser (list N) :=
  fun i => let (p, r) := span f i in POk r p.
(** [character::complete::space1], [multispace0] *)
Definition is_space (b : N) : bool := (b =? 32) || (b =? 9).
Definition is_multispace (b : N) : bool := is_space b || (b =? 13) || (b =? 10).
Definition space1 : parser unit :=
  fun i => match span is_space i with ([], _) => PErr | (_, r) => POk r tt end.
Definition multispace0 : parser unit := fun i => POk (snd (span is_multispace i)) tt.

(** [multi::separated_list1] with a separator that consumes input: the
    elements after the first one. *)
Fixpoint sep_rest {A B} (fuel : nat) (sep : parser B) (p : parser A) (i : list N) : pr (list A) :=
  match fuel with
  | O => PFail
  | S fuel =>
      match sep i with
      | PErr => POk i []
      | PFail => PFail
      | POk i1 _ =>
          match p i1 with
          | PErr => POk i []
          | PFail => PFail
          | POk i2 a => parse* r, l := sep_rest fuel sep p i2 in POk r (a :: l)
          end
      end
  end.
Definition separated_list1 {A B} (sep : parser B) (p : parser A) : parser (list A) :=
  fun i => parse* r, a := p i in parse* r', l := sep_rest (S (length r)) sep p r in POk r' (a :: l).
