(** * Frames of inlined functions and the locations they show *)

From Verif Require Import Base Sym.
Local Open Scope N_scope.

(** ** Frames

    [locs] are the locations executing in the frames, outermost first, given
    the location of the address and the call sites of the inlined calls. *)
Definition frame_locs {A} (loc : A) (calls : list A) (locs : list A) : Prop :=
  length locs = S (length calls) /\
  (forall i c, nth_error calls i = Some c -> nth_error locs i = Some c) /\
  nth_error locs (length calls) = Some loc.

(** ** Proofs *)
Lemma set_last_app : forall l x ci, set_last_code (l ++ [x]) ci = l ++ [InlinedFn (if_name x) ci].
Proof.
  induction l as [|y l IH]; intros; [reflexivity|]. cbn [app set_last_code].
  destruct (l ++ [x]) eqn:E; [now destruct l|]. rewrite <- E, IH. reflexivity.
Qed.
Lemma last_code_app : forall l x, last_code (l ++ [x]) = Some (if_code_info x).
Proof.
  induction l as [|y l IH]; intros; [reflexivity|]. cbn [app last_code].
  destruct (l ++ [x]) eqn:E; [now destruct l|]. rewrite <- E, IH. reflexivity.
Qed.

(** Names with the location of the next frame, the last with [loc]. *)
Fixpoint shift (names : list (list N)) (cis : list code_info) (loc : code_info) : list inlined_fn :=
  match names, cis with
  | n :: ns, _ :: cs =>
      InlinedFn n (Some (match cs with [] => loc | c :: _ => c end)) :: shift ns cs loc
  | _, _ => []
  end.
Lemma shift_names : forall names cis loc, length names = length cis ->
  map if_name (shift names cis loc) = names.
Proof.
  induction names as [|n names IH]; intros [|c cis] loc H; simpl in *; try lia; auto.
  rewrite IH by lia. reflexivity.
Qed.
Lemma shift_locs : forall names cis loc, length names = length cis ->
  frame_locs (Some loc) (map Some cis)
    (Some (match cis with [] => loc | c :: _ => c end) :: map if_code_info (shift names cis loc)).
Proof.
  induction names as [|n names IH]; intros [|c cis] loc H; simpl in H; try lia.
  - repeat split. intros [|i] x Hx; discriminate.
  - injection H as H. specialize (IH cis loc H). cbn [shift map if_code_info].
    destruct IH as (L1 & L2 & L3). split; [|split].
    + simpl in *. lia.
    + intros [|i] x Hx; [exact Hx|]. cbn [nth_error]. now apply L2.
    + cbn [length nth_error]. exact L3.
Qed.
