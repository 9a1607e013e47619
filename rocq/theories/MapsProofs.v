(** * Facts about the memory map model *)

From Verif Require Import Base Util UtilProofs Maps.
Local Open Scope N_scope.

(** Text of [v] in the given base with exactly [k] digits. *)
Fixpoint num_text (base : N) (k : nat) (v : N) : list N :=
  match k with
  | O => []
  | S k' => num_text base k' (v / base) ++ [digit_char (v mod base)]
  end.
Fixpoint num_digits (base : N) (k : nat) (v : N) : list N :=
  match k with
  | O => []
  | S k' => num_digits base k' (v / base) ++ [v mod base]
  end.

Lemma num_text_length : forall base k v, length (num_text base k v) = k.
Proof. induction k; intros v; simpl; auto. rewrite app_length, IHk. simpl. lia. Qed.

Lemma fmt_loop_spec : forall base fuel v acc, 2 <= base -> v < 2 ^ N.of_nat fuel ->
  exists k, fmt_loop base fuel v acc = num_text base k v ++ acc /\ v < base ^ N.of_nat k /\
    (k = O \/ base ^ (N.of_nat k - 1) <= v).
Proof.
  intros base. induction fuel as [|fuel IH]; intros v acc Hb Hv.
  - exists O. simpl in *. change (2 ^ N.of_nat 0) with 1 in Hv. repeat split; auto.
  - simpl. destruct (N.eqb_spec v 0) as [->|Hv0].
    + exists O. repeat split; auto.
    + rewrite Nat2N.inj_succ, N.pow_succ_r' in Hv.
      assert (Hlt : v / base < 2 ^ N.of_nat fuel) by (apply N.div_lt_upper_bound; nia).
      destruct (IH (v / base) (digit_char (v mod base) :: acc) Hb Hlt) as (k & E & Hk & Hmin).
      exists (S k). rewrite E. split; [|split].
      * simpl. now rewrite <- app_assoc.
      * rewrite Nat2N.inj_succ, N.pow_succ_r'. pose proof (N.div_mod v base ltac:(lia)).
        pose proof (N.mod_lt v base ltac:(lia)). nia.
      * right. replace (N.of_nat (S k) - 1) with (N.of_nat k) by lia.
        destruct Hmin as [->|Hmin].
        -- change (N.of_nat 0) with 0. rewrite N.pow_0_r. lia.
        -- destruct k as [|k]; [change (N.of_nat 0) with 0; rewrite N.pow_0_r; lia|].
           replace (N.of_nat (S k)) with (N.succ (N.of_nat (S k) - 1)) by lia.
           rewrite N.pow_succ_r'. pose proof (N.div_mod v base ltac:(lia)). nia.
Qed.

Lemma size_nat_gt : forall v, v < 2 ^ N.of_nat (N.size_nat v).
Proof.
  intros v. pose proof (N.size_gt v) as H.
  replace (N.of_nat (N.size_nat v)) with (N.size v); auto.
  destruct v as [|p]; auto. simpl.
  induction p as [p IH|p IH|]; simpl in *; auto.
  - rewrite Nat2N.inj_succ, <- IH by (apply (N.size_gt (N.pos p))). now rewrite N.succ_pos_spec || (simpl; auto).
  - rewrite Nat2N.inj_succ, <- IH by (apply (N.size_gt (N.pos p))). auto.
Qed.

Lemma fmt_num_spec : forall base v, 2 <= base ->
  exists k, fmt_num base v = num_text base k v /\ (1 <= k)%nat /\ v < base ^ N.of_nat k /\
    (k = 1%nat \/ base ^ (N.of_nat k - 1) <= v).
Proof.
  intros base v Hb. unfold fmt_num. destruct (N.eqb_spec v 0) as [->|Hv].
  - exists 1%nat. repeat split; auto.
    change (N.of_nat 1) with 1. rewrite N.pow_1_r. lia.
  - destruct (fmt_loop_spec base (N.size_nat v) v [] Hb (size_nat_gt v)) as (k & E & Hk & Hmin).
    exists k. rewrite E, app_nil_r. repeat split; auto.
    + destruct k; [|lia]. change (N.of_nat 0) with 0 in Hk. rewrite N.pow_0_r in Hk. lia.
    + destruct Hmin as [->|]; auto. change (N.of_nat 0) with 0 in Hk. rewrite N.pow_0_r in Hk. lia.
Qed.

Lemma digit_char_hex : forall d, d < 16 -> ascii_to_hexdigit (digit_char d) = Some d.
Proof.
  intros d H. assert (Hd : In d [0;1;2;3;4;5;6;7;8;9;10;11;12;13;14;15]) by (simpl; lia).
  simpl in Hd. repeat (destruct Hd as [<-|Hd]; [reflexivity|]). destruct Hd.
Qed.
Lemma num_text_digits : forall k v,
  Forall2 (fun c d => ascii_to_hexdigit c = Some d) (num_text 16 k v) (num_digits 16 k v).
Proof.
  induction k as [|k IH]; intros v; simpl; [constructor|].
  apply Forall2_app; auto. repeat constructor. apply digit_char_hex. apply N.mod_lt. lia.
Qed.
Lemma hex_val_app1 : forall ds d, hex_val (ds ++ [d]) = 16 * hex_val ds + d.
Proof.
  induction ds as [|x ds IH]; intros d; simpl; [change (nlen []) with 0; lia|].
  rewrite IH, nlen_app, N.pow_add_r. change (16 ^ nlen [d]) with 16. lia.
Qed.
Lemma num_digits_val : forall k v, v < 16 ^ N.of_nat k -> hex_val (num_digits 16 k v) = v.
Proof.
  induction k as [|k IH]; intros v Hv; cbn [num_digits].
  - change (16 ^ N.of_nat 0) with 1 in Hv. simpl. lia.
  - rewrite Nat2N.inj_succ, N.pow_succ_r' in Hv. rewrite hex_val_app1, IH.
    + symmetry. apply N.div_mod. lia.
    + apply N.div_lt_upper_bound; lia.
Qed.
Lemma from_radix_16_num_text : forall m k v, (k <= 16)%nat -> v < 16 ^ N.of_nat k ->
  from_radix_16 m (num_text 16 k v) = Ok v.
Proof.
  intros m k v Hk Hv. rewrite (from_radix_16_ok m _ (num_digits 16 k v)).
  - now rewrite num_digits_val.
  - apply num_text_digits.
  - now rewrite num_text_length.
Qed.

(** ** Splitting *)
Lemma split_once_app : forall check a b rest,
  Forall (fun c => check c = false) a -> check b = true ->
  split_once check (a ++ b :: rest) = Some (a, rest).
Proof.
  intros check a b rest Ha Hb. induction Ha as [|x a Hx Ha IH]; simpl.
  - now rewrite Hb.
  - rewrite Hx, IH. reflexivity.
Qed.
Lemma split_once_some : forall check l a rest, split_once check l = Some (a, rest) ->
  exists b, l = a ++ b :: rest /\ check b = true /\ Forall (fun c => check c = false) a.
Proof.
  intros check. induction l as [|x l IH]; intros a rest H; simpl in H; [discriminate|].
  destruct (check x) eqn:Ex.
  - injection H as <- <-. exists x. repeat split; auto.
  - destruct (split_once check l) as [[l1 r1]|] eqn:E; [|discriminate].
    injection H as <- <-. destruct (IH _ _ eq_refl) as (b & -> & Hb & Hf).
    exists b. repeat split; auto.
Qed.
Lemma split_once_none : forall check l, split_once check l = None <-> Forall (fun c => check c = false) l.
Proof.
  intros check l. induction l as [|x l IH]; simpl; [split; auto|].
  destruct (check x) eqn:Ex; split; intros H; try discriminate.
  - inversion H; congruence.
  - destruct (split_once check l) as [[]|]; [discriminate|]. constructor; auto. now apply IH.
  - inversion H; subst. apply IH in H3. now rewrite H3.
Qed.

Lemma num_text_no : forall base (P : N -> bool) k v, 2 <= base <= 16 ->
  (forall d, d < 16 -> P (digit_char d) = false) ->
  Forall (fun c => P c = false) (num_text base k v).
Proof.
  intros base P k v Hb HP. revert v. induction k as [|k IH]; intros v; simpl; [constructor|].
  apply Forall_app. split; auto. constructor; auto. apply HP.
  pose proof (N.mod_lt v base ltac:(lia)). lia.
Qed.
Lemma digit_not_ws : forall d, d < 16 -> is_ws (digit_char d) = false.
Proof.
  intros d H. assert (Hd : In d [0;1;2;3;4;5;6;7;8;9;10;11;12;13;14;15]) by (simpl; lia).
  simpl in Hd. repeat (destruct Hd as [<-|Hd]; [reflexivity|]). destruct Hd.
Qed.
Lemma digit_not_dash : forall d, d < 16 -> (digit_char d =? 45) = false.
Proof.
  intros d H. assert (Hd : In d [0;1;2;3;4;5;6;7;8;9;10;11;12;13;14;15]) by (simpl; lia).
  simpl in Hd. repeat (destruct Hd as [<-|Hd]; [reflexivity|]). destruct Hd.
Qed.

(** ** Trimming *)
Lemma trim_start_ws : forall a l, Forall (fun b => is_ws b = true) a -> trim_start (a ++ l) = trim_start l.
Proof. induction 1; simpl; auto. now rewrite H. Qed.
Lemma trim_start_stop : forall b l, is_ws b = false -> trim_start (b :: l) = b :: l.
Proof. intros b l H. simpl. now rewrite H. Qed.
Lemma trim_ascii_core : forall pre name post,
  Forall (fun b => is_ws b = true) pre -> Forall (fun b => is_ws b = true) post ->
  (forall b l, name = b :: l -> is_ws b = false) ->
  (forall b l, name = l ++ [b] -> is_ws b = false) ->
  trim_ascii (pre ++ name ++ post) = name.
Proof.
  intros pre name post Hpre Hpost Hh Ht. unfold trim_ascii. rewrite trim_start_ws by auto.
  destruct name as [|b l].
  - simpl. rewrite <- (app_nil_r post). rewrite trim_start_ws by auto. reflexivity.
  - rewrite <- app_comm_cons, trim_start_stop by eauto.
    rewrite app_comm_cons, rev_app_distr, trim_start_ws by (now apply Forall_rev).
    destruct (exists_last (l := b :: l)) as (l' & x & E); [discriminate|].
    rewrite E, rev_app_distr. simpl. rewrite (Ht x l' E). simpl. now rewrite rev_involutive.
Qed.

(** ** Suffixes *)
Lemma strip_prefix_some : forall p l r, strip_prefix p l = Some r <-> l = p ++ r.
Proof.
  induction p as [|x p IH]; intros [|y l] r; simpl; split; intros H; try congruence.
  - destruct (N.eqb_spec x y) as [->|]; [|discriminate]. apply IH in H. congruence.
  - injection H as -> ->. rewrite N.eqb_refl. now apply IH.
Qed.
Lemma strip_suffix_some : forall s l r, strip_suffix s l = Some r <-> l = r ++ s.
Proof.
  intros s l r. unfold strip_suffix.
  destruct (strip_prefix (rev s) (rev l)) as [r'|] eqn:E.
  - apply strip_prefix_some in E. apply (f_equal (@rev N)) in E.
    rewrite rev_involutive, rev_app_distr, rev_involutive in E. subst l.
    split; intros H; [congruence|]. apply app_inv_tail in H. congruence.
  - split; [discriminate|]. intros ->. exfalso.
    assert (strip_prefix (rev s) (rev (r ++ s)) = Some (rev r)); [|congruence].
    apply strip_prefix_some. apply rev_app_distr.
Qed.
Lemma strip_suffix_none : forall s l, strip_suffix s l = None <-> forall r, l <> r ++ s.
Proof.
  intros s l. destruct (strip_suffix s l) as [r|] eqn:E.
  - apply strip_suffix_some in E. split; [discriminate|]. intros H. now apply H in E.
  - split; auto. intros _ r Hr. apply strip_suffix_some in Hr. congruence.
Qed.

(** ** Lines *)
Lemma read_lines_app : forall l rest, Forall (fun b => b <> 10) l ->
  read_lines (l ++ 10 :: rest) = (l ++ [10]) :: read_lines rest.
Proof.
  intros l rest H. induction H as [|b l Hb H IH]; simpl; auto.
  destruct (N.eqb_spec b 10); [congruence|]. now rewrite IH.
Qed.
