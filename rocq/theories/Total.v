(** * Totality: results of code that always terminates and, in a release
      build, never panics *)

From Verif Require Import Base Util UtilProofs.
Local Open Scope N_scope.

Definition total {A} (m : mode) (r : res A) : Prop :=
  r <> NoFuel /\ (m = Wrapping -> r <> Panic).

Lemma total_safe : forall A (r : res A), total Wrapping r -> safe r.
Proof. intros A r [H1 H2]. split; auto. Qed.
Lemma safe_total : forall A m (r : res A), safe r -> total m r.
Proof. intros A m r [H1 H2]. split; auto. Qed.
Lemma total_ok : forall A m (a : A), total m (Ok a).
Proof. split; discriminate. Qed.
Lemma total_err : forall A m k, total m (@Err A k).
Proof. split; discriminate. Qed.
Global Hint Resolve total_ok total_err : core.
Lemma total_bind : forall A B m (r : res A) (f : A -> res B),
  total m r -> (forall a, r = Ok a -> total m (f a)) -> total m (bind r f).
Proof.
  intros A B m [a|k| |] f [H1 H2] Hf; simpl; auto.
  - split; [discriminate|]. intros Hm. now apply H2 in Hm.
  - congruence.
Qed.
Lemma total_ok_or : forall A m k (r : res A), total m r -> total m (ok_or k r).
Proof. intros A m k [a|[]| |]; simpl; auto. Qed.
Lemma total_of_option : forall A m k (o : option A), total m (of_option k o).
Proof. intros. apply safe_total, safe_of_option. Qed.
Lemma total_wrap : forall m w v, total m (wrap m w v).
Proof. intros. unfold wrap. destruct (v <? w); auto. destruct m; auto. split; discriminate. Qed.
Lemma total_uadd : forall m w a b, total m (uadd m w a b).
Proof. intros. apply total_wrap. Qed.
Lemma total_umul : forall m w a b, total m (umul m w a b).
Proof. intros. apply total_wrap. Qed.
Lemma total_usub : forall m w a b, total m (usub m w a b).
Proof. intros. unfold usub. destruct (b <=? a); auto. destruct m; auto. split; discriminate. Qed.
Lemma total_shl64 : forall m a b, total m (shl64 m a b).
Proof. intros. unfold shl64. destruct (b <? 64); auto. destruct m; auto. split; discriminate. Qed.
Lemma total_read_slice : forall m n r, total m (read_slice n r).
Proof. intros. apply safe_total, safe_read_slice. Qed.
Lemma total_read_le : forall m n r, total m (read_le n r).
Proof. intros. apply safe_total, safe_read_le. Qed.
Lemma total_align : forall m p a r, total m (align p a r).
Proof. intros. apply safe_total, safe_align. Qed.
Lemma total_read_cstr : forall m r, total m (read_cstr r).
Proof. intros. apply safe_total, safe_read_cstr. Qed.
Lemma total_uleb_loop : forall m r acc shift, total m (uleb_loop m acc shift r).
Proof.
  induction r as [|b r IH]; intros; cbn [uleb_loop]; auto.
  destruct (N.land b 128 =? 0); (apply total_bind; [apply total_shl64|]); auto.
Qed.
Lemma total_read_u64_leb128 : forall m r, total m (read_u64_leb128 m r).
Proof.
  intros m [|b r]; cbn [read_u64_leb128]; auto.
  destruct (N.land b 128 =? 0); auto using total_uleb_loop.
Qed.
Lemma total_sleb_loop : forall m r acc shift, total m (sleb_loop m acc shift r).
Proof.
  induction r as [|b r IH]; intros; cbn [sleb_loop]; auto.
  apply total_bind; [apply total_shl64|]. intros a _.
  destruct (N.land b 128 =? 0); auto.
  destruct ((shift + 7 <? 64) && negb (N.land b 64 =? 0)); auto.
  apply total_bind; auto using total_shl64.
Qed.
Lemma total_read_i64_leb128 : forall m r, total m (read_i64_leb128 m r).
Proof.
  intros m r. unfold read_i64_leb128. apply total_bind; [apply total_sleb_loop|].
  intros [v r'] _. auto.
Qed.

(** How much readers consume. *)
Lemma uleb_shorter : forall m r v r', read_u64_leb128 m r = Ok (v, r') -> (length r' < length r)%nat.
Proof.
  intros m r v r' H. apply read_u64_leb128_consumes in H. destruct H as (pre & b & -> & _).
  rewrite app_length. simpl. lia.
Qed.
Lemma sleb_shorter : forall m r v r', read_i64_leb128 m r = Ok (v, r') -> (length r' < length r)%nat.
Proof.
  intros m r v r' H. unfold read_i64_leb128 in H. ib H [x y] E. injection H as <- <-.
  now apply sleb_loop_shorter in E.
Qed.
Lemma read_slice_shorter : forall n r d r', read_slice n r = Ok (d, r') -> nlen r = n + nlen r'.
Proof. intros n r d r' H. apply read_slice_ok in H. destruct H as (-> & H & _). rewrite nlen_app. lia. Qed.
Lemma read_le_shorter : forall n r v r', read_le n r = Ok (v, r') -> nlen r = n + nlen r'.
Proof.
  intros n r v r' H. unfold read_le in H. ib H [d y] E. injection H as <- <-.
  now apply read_slice_shorter in E.
Qed.
