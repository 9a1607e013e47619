(** * Lines of a text *)

From Verif Require Import Base Util.
Local Open Scope N_scope.

(** A line has a line feed at its end and nowhere else. *)
Definition line (l : list N) : Prop := exists x, l = x ++ [10] /\ ~ In 10 x.
(** A text is made of complete lines and a rest. *)
Definition in_lines (s : list N) (ls : list (list N)) (rest : list N) : Prop :=
  s = concat ls ++ rest /\ Forall line ls /\ ~ In 10 rest.
(** Without zeros *)
Definition plain (s : list N) : Prop := ~ In 0 s.
