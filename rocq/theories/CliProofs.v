(** * Facts about the command line tool's output *)

From Verif Require Import Base Num Maps MapsProofs Sym Inspect Depmod Symbolizer Normalize Cli CliSpec.
From Verif Require Import Nom.
From Coq Require Import String Permutation Sorted.
Local Close Scope string_scope.
Local Open Scope N_scope.
Local Notation length := List.length.

(** ** Numbers *)
Lemma digits_fold : forall base k v, 2 <= base -> v < base ^ N.of_nat k ->
  fold_left (fun a d => a * base + d) (num_digits base k v) 0 = v.
Proof.
  intros base k. induction k as [|k IH]; intros v Hb Hv.
  - change (N.of_nat 0) with 0 in Hv. rewrite N.pow_0_r in Hv. simpl. lia.
  - cbn [num_digits]. rewrite fold_left_app. cbn [fold_left]. rewrite Nat2N.inj_succ, N.pow_succ_r' in Hv.
    rewrite IH; auto; [|apply N.div_lt_upper_bound; lia]. pose proof (N.div_mod v base ltac:(lia)). lia.
Qed.
Lemma num_text_number : forall (chr : N -> N -> Prop) base k v, 2 <= base -> (forall d, d < base -> chr (digit_char d) d) ->
  v < base ^ N.of_nat k -> (1 <= k)%nat -> number chr base v (num_text base k v).
Proof.
  intros chr base k v Hb Hc Hv Hk. exists (num_digits base k v). split; [|split].
  - clear Hv Hk. revert v. induction k as [|k IH]; intros v; cbn [num_text num_digits]; [constructor|].
    apply Forall2_app; auto. repeat constructor. apply Hc, N.mod_lt. lia.
  - intros E. apply (f_equal (@length _)) in E. rewrite num_text_length in E. simpl in E. lia.
  - symmetry. now apply digits_fold.
Qed.
Lemma num_text_hd : forall base k v, 2 <= base ->
  hd_error (num_text base (S k) v) = Some (digit_char ((v / base ^ N.of_nat k) mod base)).
Proof.
  intros base k. induction k as [|k IH]; intros v Hb.
  - change (N.of_nat 0) with 0. rewrite N.pow_0_r, N.div_1_r. reflexivity.
  - cbn [num_text]. specialize (IH (v / base) Hb). cbn [num_text] in IH.
    destruct (num_text base k (v / base / base) ++ [digit_char (v / base mod base)]) as [|c s] eqn:E; [discriminate|].
    cbn [hd_error app] in *. rewrite IH. do 2 f_equal. rewrite Nat2N.inj_succ, N.pow_succ_r'.
    rewrite N.div_div; auto; [lia|]. apply N.pow_nonzero. lia.
Qed.
Lemma digit_char_zero : forall d, digit_char d = 48 -> d = 0.
Proof. intros d. unfold digit_char. destruct (d <? 10); lia. Qed.
Lemma num_text_shortest : forall base k v, 2 <= base -> (1 <= k)%nat -> v < base ^ N.of_nat k ->
  k = 1%nat \/ base ^ (N.of_nat k - 1) <= v -> shortest (num_text base k v).
Proof.
  intros base k v Hb Hk Hv [->|Hm]; [left; apply num_text_length|]. right.
  destruct k as [|k]; [lia|]. rewrite num_text_hd by auto. intros E. injection E as E. apply digit_char_zero in E.
  replace (N.of_nat (S k) - 1) with (N.of_nat k) in Hm by lia.
  assert (Hp : base ^ N.of_nat k <> 0) by (apply N.pow_nonzero; lia).
  rewrite Nat2N.inj_succ, N.pow_succ_r' in Hv.
  rewrite N.mod_small in E by (apply N.div_lt_upper_bound; lia).
  pose proof (N.div_str_pos v (base ^ N.of_nat k) ltac:(lia)). lia.
Qed.
Lemma hex_digit_char : forall d, d < 16 -> hex_digit (digit_char d) d.
Proof. intros d H. unfold digit_char, hex_digit. destruct (N.ltb_spec d 10); lia. Qed.
Lemma dec_digit_char : forall d, d < 10 -> dec_digit (digit_char d) d.
Proof. intros d H. unfold digit_char, dec_digit. destruct (N.ltb_spec d 10); lia. Qed.
Lemma num_text_lower : forall k v, Forall lower (num_text 16 k v).
Proof.
  induction k as [|k IH]; intros v; cbn [num_text]; [constructor|]. apply Forall_app. split; auto. constructor; [|constructor].
  unfold lower, digit_char. pose proof (N.mod_lt v 16 ltac:(lia)). destruct (N.ltb_spec (v mod 16) 10); lia.
Qed.
Lemma fmt_hex_ok : forall v, hex_text v (fmt_hex v) /\ Forall lower (fmt_hex v) /\ shortest (fmt_hex v).
Proof.
  intros v. destruct (fmt_num_spec 16 v ltac:(lia)) as (k & E & Hk & Hv & Hm). unfold fmt_hex. rewrite E. split; [|split].
  - apply num_text_number; auto; [lia|]. exact hex_digit_char.
  - apply num_text_lower.
  - apply num_text_shortest; auto. lia.
Qed.
Lemma fmt_dec_ok : forall v, shown_dec v (fmt_dec v).
Proof.
  intros v. destruct (fmt_num_spec 10 v ltac:(lia)) as (k & E & Hk & Hv & Hm). unfold fmt_dec. rewrite E. split.
  - apply num_text_number; auto; [lia|]. exact dec_digit_char.
  - apply num_text_shortest; auto. lia.
Qed.
Lemma fmt_hex_length : forall v k, (1 <= k)%nat -> v < 16 ^ N.of_nat k -> (length (fmt_hex v) <= k)%nat.
Proof.
  intros v k Hk H. destruct (fmt_num_spec 16 v ltac:(lia)) as (j & E & Hj & Hv & [->|Hm]); unfold fmt_hex; rewrite E, num_text_length; auto.
  assert (16 ^ (N.of_nat j - 1) < 16 ^ N.of_nat k) as Hlt by lia. apply N.pow_lt_mono_r_iff in Hlt; lia.
Qed.
Lemma hex_0x_ok : forall v, shown_hex v (hex_0x v).
Proof. intros v. destruct (fmt_hex_ok v) as (H1 & H2 & H3). now apply (shex v (fmt_hex v)). Qed.
Lemma zeros_hex : forall v s n, hex_text v s -> hex_text v (repeat 48 n ++ s).
Proof.
  intros v s n H. induction n as [|n IH]; auto. cbn [repeat app]. destruct IH as (ds & H1 & H2 & H3). exists (0 :: ds). split; [|split].
  - constructor; auto. left. split; lia.
  - discriminate.
  - cbn [fold_left]. exact H3.
Qed.
Lemma zeros_lower : forall s n, Forall lower s -> Forall lower (repeat 48 n ++ s).
Proof.
  intros s n H. apply Forall_app. split; auto. induction n; constructor; auto. unfold lower. lia.
Qed.
Lemma zero_pad_length : forall n s, length (zero_pad n s) = Nat.max n (length s).
Proof. intros n s. unfold zero_pad. rewrite app_length, repeat_length. lia. Qed.
Lemma hex_16_ok : forall v, shown_addr v (hex_16 v).
Proof.
  intros v. destruct (fmt_hex_ok v) as (H1 & H2 & H3). refine (saddr v (zero_pad 14 (fmt_hex v)) _ _ _ _).
  - now apply zeros_hex.
  - now apply zeros_lower.
  - rewrite zero_pad_length. lia.
  - rewrite zero_pad_length. destruct (Nat.le_gt_cases (length (fmt_hex v)) 14) as [L|L]; [left; lia|].
    right. unfold zero_pad. now replace (14 - length (fmt_hex v))%nat with 0%nat by lia.
Qed.

(** Reading numbers *)
Lemma number_fun : forall (chr : N -> N -> Prop) base v w s, (forall c d d', chr c d -> chr c d' -> d = d') ->
  number chr base v s -> number chr base w s -> v = w.
Proof.
  intros chr base v w s Hf (ds & H1 & _ & ->) (ds' & H2 & _ & ->). f_equal. revert ds' H2.
  induction H1 as [|c d s ds Hc Hs IH]; intros ds' H2; inversion H2; subst; auto. f_equal; eauto.
Qed.
Lemma hex_fun : forall v w s, hex_text v s -> hex_text w s -> v = w.
Proof. intros v w s. apply number_fun. unfold hex_digit. intros c d d'. lia. Qed.
Lemma dec_fun : forall v w s, dec_text v s -> dec_text w s -> v = w.
Proof. intros v w s. apply number_fun. unfold dec_digit. intros c d d'. lia. Qed.
Lemma number_chars : forall (chr : N -> N -> Prop) (P : N -> Prop) base v s, (forall c d, chr c d -> P c) -> number chr base v s -> Forall P s.
Proof. intros chr P base v s H (ds & H1 & _). induction H1; constructor; eauto. Qed.
Definition alnum (b : N) : Prop := 48 <= b <= 57 \/ 97 <= b <= 122.
Lemma shown_hex_chars : forall v s, shown_hex v s -> Forall alnum s.
Proof.
  intros v s [s' H1 H2 _]. cbn [str_0x app]. do 2 (constructor; [unfold alnum; lia|]). eapply Forall_impl; [|exact H2]. unfold alnum, lower. intros; lia.
Qed.
Lemma shown_addr_chars : forall v s, shown_addr v s -> Forall alnum s.
Proof.
  intros v s [s' H1 H2 _]. cbn [str_0x app]. do 2 (constructor; [unfold alnum; lia|]). eapply Forall_impl; [|exact H2]. unfold alnum, lower. intros; lia.
Qed.
Lemma shown_dec_chars : forall v s, shown_dec v s -> Forall alnum s.
Proof. intros v s [H _]. revert H. apply number_chars. unfold dec_digit, alnum. intros; lia. Qed.
Lemma shown_hex_fun : forall v w s, shown_hex v s -> shown_hex w s -> v = w.
Proof. intros v w s [s1 H1 _ _] H. inversion H as [s2 H2 _ _ E]. subst. eapply hex_fun; eauto. Qed.
Lemma shown_addr_fun : forall v w s, shown_addr v s -> shown_addr w s -> v = w.
Proof. intros v w s [s1 H1 _ _ _] H. inversion H as [s2 H2 _ _ _ E]. subst. eapply hex_fun; eauto. Qed.
Lemma shown_dec_fun : forall v w s, shown_dec v s -> shown_dec w s -> v = w.
Proof. intros v w s [H1 _] [H2 _]. eapply dec_fun; eauto. Qed.

(** ** Splitting text *)
Definition ends (c : N) (r : list N) : Prop := r = [] \/ exists r', r = c :: r'.
Lemma split_char : forall c s s' r r', Forall (fun b => b <> c) s -> Forall (fun b => b <> c) s' -> ends c r -> ends c r' ->
  s ++ r = s' ++ r' -> s = s' /\ r = r'.
Proof.
  intros c s. induction s as [|b s IH]; intros [|b' s'] r r' H H' Hr Hr' E; auto.
  - exfalso. cbn [app] in E. apply Forall_inv in H'. destruct Hr as [Er|[q Er]]; rewrite Er in E; [discriminate|]. injection E as E _. auto.
  - exfalso. cbn [app] in E. apply Forall_inv in H. destruct Hr' as [Er|[q Er]]; rewrite Er in E; [discriminate|]. injection E as E _. auto.
  - injection E as <- E. inversion H; inversion H'; subst. destruct (IH s' r r') as [-> ->]; auto.
Qed.
Lemma no_pair_tail : forall c d b s, no_pair c d (b :: s) -> no_pair c d s.
Proof. intros c d b s H x y E. apply (H (b :: x) y). now rewrite E. Qed.
Lemma split_pair : forall c d s s' r r', c <> d -> no_pair c d s -> no_pair c d s' ->
  s ++ c :: d :: r = s' ++ c :: d :: r' -> s = s' /\ r = r'.
Proof.
  intros c d s. induction s as [|b s IH]; intros [|b' s'] r r' Hd H H' E.
  - injection E as ->. auto.
  - exfalso. destruct s' as [|b'' s']; cbn [app] in E.
    + injection E as _ E _. congruence.
    + injection E as -> -> _. apply (H' [] s'). reflexivity.
  - exfalso. destruct s as [|b'' s]; cbn [app] in E.
    + injection E as _ E _. congruence.
    + injection E as -> -> _. apply (H [] s). reflexivity.
  - injection E as -> E. destruct (IH s' r r' Hd) as [-> ->]; eauto using no_pair_tail.
Qed.
Lemma alnum_not : forall c s, ~ alnum c -> Forall alnum s -> Forall (fun b => b <> c) s.
Proof. intros c s H. apply Forall_impl. intros b Hb ->. auto. Qed.

(** Lines *)
Lemma text_inj : forall ls ls', Forall one_line ls -> Forall one_line ls' -> text ls = text ls' -> ls = ls'.
Proof.
  induction ls as [|l ls IH]; intros [|l' ls'] H H' E; auto.
  - exfalso. cbn [text flat_map] in E. destruct l'; discriminate.
  - exfalso. cbn [text flat_map] in E. destruct l; discriminate.
  - cbn [text flat_map] in E. fold (text ls) in E. fold (text ls') in E. rewrite <- !app_assoc in E. cbn [app] in E.
    apply Forall_cons_iff in H, H'. destruct H as [H1 H2], H' as [H3 H4].
    destruct (split_char 10 l l' (10 :: text ls) (10 :: text ls') H1 H3) as [-> E']; auto; try (right; eauto). injection E' as E'.
    f_equal. auto.
Qed.
Lemma text_app : forall a b, text (a ++ b) = text a ++ text b.
Proof. intros. unfold text. apply flat_map_app. Qed.
