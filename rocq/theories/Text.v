(** * UTF-8 validity ([str::from_utf8] of Rust's standard library)

    Follows the well-formed byte sequences of the Unicode standard, table 3-7,
    as the documentation of [core::str::from_utf8] does. *)

From Verif Require Import Base.
Local Open Scope N_scope.

Definition in_range (lo hi b : N) : bool := (lo <=? b) && (b <=? hi).
Definition is_cont (b : N) : bool := in_range 128 191 b.

Fixpoint utf8_valid (l : list N) : bool :=
  match l with
  | [] => true
  | a :: l1 =>
      if a <? 128 then utf8_valid l1
      else if in_range 194 223 a then
        match l1 with
        | b :: l2 => is_cont b && utf8_valid l2
        | _ => false
        end
      else if in_range 224 239 a then
        match l1 with
        | b :: c :: l3 =>
            (if a =? 224 then in_range 160 191 b
             else if a =? 237 then in_range 128 159 b else is_cont b)
            && is_cont c && utf8_valid l3
        | _ => false
        end
      else if in_range 240 244 a then
        match l1 with
        | b :: c :: d :: l4 =>
            (if a =? 240 then in_range 144 191 b
             else if a =? 244 then in_range 128 143 b else is_cont b)
            && is_cont c && is_cont d && utf8_valid l4
        | _ => false
        end
      else false
  end.

(** ** What it means: a sequence of encoded scalar values *)
Definition is_scalar (c : N) : Prop := c < 55296 \/ 57344 <= c < 1114112.
Definition utf8_char (c : N) : list N :=
  if c <? 128 then [c]
  else if c <? 2048 then [192 + c / 64; 128 + c mod 64]
  else if c <? 65536 then
    [224 + c / 4096; 128 + (c / 64) mod 64; 128 + c mod 64]
  else
    [240 + c / 262144; 128 + (c / 4096) mod 64; 128 + (c / 64) mod 64; 128 + c mod 64].
Definition utf8_enc (cs : list N) : list N := flat_map utf8_char cs.

Lemma in_range_iff : forall lo hi b, in_range lo hi b = true <-> lo <= b <= hi.
Proof. intros. unfold in_range. rewrite andb_true_iff, !N.leb_le. tauto. Qed.
Lemma in_range_false : forall lo hi b, b < lo \/ hi < b -> in_range lo hi b = false.
Proof.
  intros lo hi b H. destruct (in_range lo hi b) eqn:E; auto.
  apply in_range_iff in E. lia.
Qed.
Lemma in_range_true : forall lo hi b, lo <= b <= hi -> in_range lo hi b = true.
Proof. intros. now apply in_range_iff. Qed.

Lemma utf8_ascii : forall l, Forall (fun b => b < 128) l -> utf8_valid l = true.
Proof.
  induction 1 as [|b l Hb H IH]; cbn [utf8_valid]; auto.
  destruct (N.ltb_spec b 128); [auto|lia].
Qed.

Lemma utf8_char_valid : forall c rest, is_scalar c ->
  utf8_valid (utf8_char c ++ rest) = utf8_valid rest.
Proof.
  intros c rest Hc. unfold is_scalar in Hc. unfold utf8_char.
  assert (Hm : forall x, x mod 64 < 64) by (intros; apply N.mod_lt; lia).
  assert (Hdm : forall x, x = 64 * (x / 64) + x mod 64) by (intros; apply N.div_mod; lia).
  destruct (N.ltb_spec c 128) as [H1|H1].
  { cbn [utf8_valid app]. destruct (N.ltb_spec c 128); [auto|lia]. }
  destruct (N.ltb_spec c 2048) as [H2|H2].
  { cbn [utf8_valid app]. pose proof (Hm c). pose proof (Hdm c).
    destruct (N.ltb_spec (192 + c / 64) 128); [lia|].
    rewrite in_range_true by lia. unfold is_cont. rewrite in_range_true by lia. auto. }
  pose proof (Hm c) as Hm0. pose proof (Hdm c) as Hd0.
  pose proof (Hm (c / 64)) as Hm1. pose proof (Hdm (c / 64)) as Hd1.
  rewrite N.div_div in Hd1 by lia. change (64 * 64) with 4096 in Hd1.
  destruct (N.ltb_spec c 65536) as [H3|H3].
  { cbn [utf8_valid app].
    destruct (N.ltb_spec (224 + c / 4096) 128); [lia|].
    rewrite (in_range_false 194 223) by lia. rewrite (in_range_true 224 239) by lia.
    assert (Hb : (if 224 + c / 4096 =? 224 then in_range 160 191 (128 + (c / 64) mod 64)
                  else if 224 + c / 4096 =? 237 then in_range 128 159 (128 + (c / 64) mod 64)
                  else is_cont (128 + (c / 64) mod 64)) = true).
    { destruct (N.eqb_spec (224 + c / 4096) 224); [apply in_range_true; lia|].
      destruct (N.eqb_spec (224 + c / 4096) 237); apply in_range_true; lia. }
    rewrite Hb. unfold is_cont. rewrite in_range_true by lia. auto. }
  pose proof (Hm (c / 4096)) as Hm2. pose proof (Hdm (c / 4096)) as Hd2.
  rewrite N.div_div in Hd2 by lia. change (4096 * 64) with 262144 in Hd2.
  cbn [utf8_valid app].
  destruct (N.ltb_spec (240 + c / 262144) 128); [lia|].
  rewrite (in_range_false 194 223) by lia. rewrite (in_range_false 224 239) by lia.
  rewrite (in_range_true 240 244) by lia.
  assert (Hb : (if 240 + c / 262144 =? 240 then in_range 144 191 (128 + (c / 4096) mod 64)
                else if 240 + c / 262144 =? 244 then in_range 128 143 (128 + (c / 4096) mod 64)
                else is_cont (128 + (c / 4096) mod 64)) = true).
  { destruct (N.eqb_spec (240 + c / 262144) 240); [apply in_range_true; lia|].
    destruct (N.eqb_spec (240 + c / 262144) 244); apply in_range_true; lia. }
  rewrite Hb. unfold is_cont. rewrite !in_range_true by lia. auto.
Qed.

Lemma utf8_enc_valid : forall cs, Forall is_scalar cs -> utf8_valid (utf8_enc cs) = true.
Proof.
  induction 1 as [|c cs Hc H IH]; [reflexivity|].
  unfold utf8_enc. cbn [flat_map]. rewrite utf8_char_valid; auto.
Qed.

Lemma utf8_valid_enc_len : forall n l, (length l <= n)%nat -> utf8_valid l = true ->
  exists cs, Forall is_scalar cs /\ l = utf8_enc cs.
Proof.
  induction n as [|n IH]; intros l Hn H.
  { destruct l; [|simpl in Hn; lia]. now exists []. }
  assert (Hgo : forall c l1 l', is_scalar c -> l = utf8_char c ++ l' -> l' = l1 ->
    (length l1 <= n)%nat -> utf8_valid l1 = true ->
    exists cs, Forall is_scalar cs /\ l = utf8_enc cs).
  { intros c l1 l' Hc -> -> Hl Hv. destruct (IH _ Hl Hv) as (cs & Hcs & ->).
    exists (c :: cs). split; [constructor; auto|reflexivity]. }
  destruct l as [|a l1]; [now exists []|]. cbn [utf8_valid] in H. simpl in Hn.
  destruct (N.ltb_spec a 128) as [Ha|Ha].
  { apply (Hgo a l1 l1); auto; try lia; [unfold is_scalar; lia|].
    unfold utf8_char. destruct (N.ltb_spec a 128); [reflexivity|lia]. }
  destruct (in_range 194 223 a) eqn:E2.
  { apply in_range_iff in E2. destruct l1 as [|b l2]; [discriminate|].
    apply andb_true_iff in H. destruct H as [Hb H]. apply in_range_iff in Hb. simpl in Hn.
    set (c := (a - 192) * 64 + (b - 128)).
    assert (Hdiv : c / 64 = a - 192) by (symmetry; apply N.div_unique with (b - 128); unfold c; lia).
    assert (Hmod : c mod 64 = b - 128) by (symmetry; apply N.mod_unique with (a - 192); unfold c; lia).
    apply (Hgo c l2 l2); auto; try lia; [unfold is_scalar, c; lia|].
    unfold utf8_char. destruct (N.ltb_spec c 128); [unfold c in *; lia|].
    destruct (N.ltb_spec c 2048); [|unfold c in *; lia].
    rewrite Hdiv, Hmod. cbn [app]. clear - E2 Hb. f_equal; [lia|]. f_equal; lia. }
  destruct (in_range 224 239 a) eqn:E3.
  { apply in_range_iff in E3. destruct l1 as [|b [|d l3]]; try discriminate.
    apply andb_true_iff in H. destruct H as [H Hv]. apply andb_true_iff in H. destruct H as [Hb Hd].
    apply in_range_iff in Hd. simpl in Hn.
    assert (Hb' : 128 <= b <= 191 /\ (a = 224 -> 160 <= b) /\ (a = 237 -> b <= 159)).
    { destruct (N.eqb_spec a 224); [apply in_range_iff in Hb; lia|].
      destruct (N.eqb_spec a 237); apply in_range_iff in Hb; lia. }
    set (c := (a - 224) * 4096 + (b - 128) * 64 + (d - 128)).
    assert (Hdiv : c / 64 = (a - 224) * 64 + (b - 128))
      by (symmetry; apply N.div_unique with (d - 128); unfold c; lia).
    assert (Hdiv2 : c / 4096 = a - 224)
      by (symmetry; apply N.div_unique with ((b - 128) * 64 + (d - 128)); unfold c; lia).
    assert (Hmod : c mod 64 = d - 128)
      by (symmetry; apply N.mod_unique with ((a - 224) * 64 + (b - 128)); unfold c; lia).
    assert (Hmod2 : (c / 64) mod 64 = b - 128)
      by (symmetry; apply N.mod_unique with (a - 224); try rewrite Hdiv; lia).
    apply (Hgo c l3 l3); [unfold is_scalar, c; clear - E3 Hb' Hd; lia| |auto|clear - Hn; lia|auto].
    unfold utf8_char. destruct (N.ltb_spec c 128); [unfold c in *; lia|].
    destruct (N.ltb_spec c 2048); [unfold c in *; lia|].
    destruct (N.ltb_spec c 65536); [|unfold c in *; lia].
    rewrite Hmod2, Hmod, Hdiv2. cbn [app]. clear - E3 Hb' Hd. do 2 (f_equal; [lia|]). f_equal; lia. }
  destruct (in_range 240 244 a) eqn:E4; [|discriminate].
  apply in_range_iff in E4. destruct l1 as [|b [|d [|e l4]]]; try discriminate.
  apply andb_true_iff in H. destruct H as [H Hv]. apply andb_true_iff in H. destruct H as [H He].
  apply andb_true_iff in H. destruct H as [Hb Hd].
  apply in_range_iff in Hd. apply in_range_iff in He. simpl in Hn.
  assert (Hb' : 128 <= b <= 191 /\ (a = 240 -> 144 <= b) /\ (a = 244 -> b <= 143)).
  { destruct (N.eqb_spec a 240); [apply in_range_iff in Hb; lia|].
    destruct (N.eqb_spec a 244); apply in_range_iff in Hb; lia. }
  set (c := (a - 240) * 262144 + (b - 128) * 4096 + (d - 128) * 64 + (e - 128)).
  assert (Hdiv : c / 64 = (a - 240) * 4096 + (b - 128) * 64 + (d - 128))
    by (symmetry; apply N.div_unique with (e - 128); unfold c; lia).
  assert (Hdiv2 : c / 4096 = (a - 240) * 64 + (b - 128))
    by (symmetry; apply N.div_unique with ((d - 128) * 64 + (e - 128)); unfold c; lia).
  assert (Hdiv3 : c / 262144 = a - 240)
    by (symmetry; apply N.div_unique with ((b - 128) * 4096 + (d - 128) * 64 + (e - 128)); unfold c; lia).
  assert (Hmod : c mod 64 = e - 128)
    by (symmetry; apply N.mod_unique with ((a - 240) * 4096 + (b - 128) * 64 + (d - 128)); unfold c; lia).
  assert (Hmod2 : (c / 64) mod 64 = d - 128)
    by (symmetry; apply N.mod_unique with ((a - 240) * 64 + (b - 128)); try rewrite Hdiv; lia).
  assert (Hmod3 : (c / 4096) mod 64 = b - 128)
    by (symmetry; apply N.mod_unique with (a - 240); try rewrite Hdiv2; lia).
  apply (Hgo c l4 l4); [unfold is_scalar, c; clear - E4 Hb' Hd He; lia| |auto|clear - Hn; lia|auto].
  unfold utf8_char. destruct (N.ltb_spec c 128); [unfold c in *; lia|].
  destruct (N.ltb_spec c 2048); [unfold c in *; lia|].
  destruct (N.ltb_spec c 65536); [unfold c in *; lia|].
  rewrite Hmod3, Hmod2, Hmod, Hdiv3. cbn [app]. clear - E4 Hb' Hd He. do 3 (f_equal; [lia|]). f_equal; lia.
Qed.

(** [utf8_valid] accepts exactly the encodings of sequences of scalar values. *)
Theorem utf8_valid_iff : forall l,
  utf8_valid l = true <-> exists cs, Forall is_scalar cs /\ l = utf8_enc cs.
Proof.
  intros l. split.
  - intros H. eapply utf8_valid_enc_len; eauto.
  - intros (cs & Hcs & ->). now apply utf8_enc_valid.
Qed.

Example utf8_example :
  utf8_valid [226; 130; 172; 36] = true /\ utf8_enc [8364; 36] = [226; 130; 172; 36] /\
  utf8_valid [237; 160; 128] = false /\ utf8_valid [192; 128] = false /\
  utf8_valid [240; 159; 146; 150] = true.
Proof. repeat split; reflexivity. Qed.
