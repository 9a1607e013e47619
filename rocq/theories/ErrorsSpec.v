(** * Errors as users see them *)

From Coq Require Import String.
From Verif Require Import Base Errors.
Local Open Scope string_scope.

(** What an error of another library and its causes say *)
Fixpoint foreign_texts (e : foreign) : list string :=
  match e with Foreign t _ s => t :: match s with Some s => foreign_texts s | None => [] end end.
Definition cow_text (c : cow) : string := match c with Borrowed s => s | Owned s => s end.
(** Texts with something before each *)
Definition each_after (before : string) (l : list string) : string := String.concat "" (map (fun t => before ++ t) l).
(** An error as first made from an error of another library, its kind, and the
    backtrace taken then *)
Inductive first : error -> ekind -> foreign -> option string -> Prop :=
| FirstDwarf : forall f b, first (Dwarf f b) EInvalidDwarf f b
| FirstStd : forall f b, first (Std f b) EOther f b
| FirstIo : forall k f b r, In (k, r)
    [(IoNotFound, ENotFound); (IoPermissionDenied, EPermissionDenied); (IoAlreadyExists, EAlreadyExists);
     (IoWouldBlock, EWouldBlock); (IoInvalidInput, EInvalidInput); (IoInvalidData, EInvalidData);
     (IoTimedOut, ETimedOut); (IoWriteZero, EWriteZero); (IoUnsupported, EUnsupported);
     (IoUnexpectedEof, EUnexpectedEof); (IoOutOfMemory, EOutOfMemory)] -> first (Io k f b) r f b
| FirstElse : forall n f b, first (Io (IoElse n) f b) EOther f b.
(** Contexts are added one by one, on the way to the caller. *)
Definition add_contexts (e : error) (l : list cow) : error := fold_left layer_context l e.
Definition trace_text (b : option string) : string :=
  match b with None => "" | Some b => newline ++ newline ++ "Stack backtrace:" ++ newline ++ b end.
