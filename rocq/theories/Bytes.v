(** * Bytes: parts of byte strings and packed structures *)

From Verif Require Import Base Util UtilProofs.
Local Open Scope N_scope.

(** A field of [n] bytes at offset [off] of a packed structure [d] read with
    [read_pod] (src/util.rs lines 454-464). *)
Definition field (off n : N) (d : list N) : N := le_val (ntake n (ndrop off d)).

(** [slice.get(n..)] *)
Definition get_from (n : N) (l : list N) : option (list N) :=
  if n <=? nlen l then Some (ndrop n l) else None.

(** [slice.get(a..b)] *)
Definition get_range (a b : N) (l : list N) : option (list N) :=
  if (a <=? b) && (b <=? nlen l) then Some (ntake (b - a) (ndrop a l)) else None.

(** [b] is found at offset [off] of [data]. *)
Definition at_ (data : list N) (off : N) (b : list N) : Prop :=
  exists before after, data = before ++ b ++ after /\ nlen before = off.

Definition u16s (l : list N) : Prop := Forall (fun v => v < 2 ^ 16) l.
Definition u32s (l : list N) : Prop := Forall (fun v => v < 2 ^ 32) l.

(** ** Packed structures *)

Lemma le_bytes_val : forall l n, is_bytes l -> length l = n -> le_bytes n (le_val l) = l.
Proof.
  induction l as [|b l IH]; intros n Hb <-; simpl; auto.
  inversion Hb; subst. f_equal.
  - rewrite N.mul_comm, N.mod_add by lia. now apply N.mod_small.
  - rewrite N.add_comm, N.mul_comm, N.div_add_l by lia. rewrite N.div_small by auto.
    rewrite N.add_0_r. now apply IH.
Qed.
Lemma is_bytes_app : forall a b, is_bytes (a ++ b) <-> is_bytes a /\ is_bytes b.
Proof. intros. apply Forall_app. Qed.
Lemma is_bytes_ndrop : forall n l, is_bytes l -> is_bytes (ndrop n l).
Proof.
  intros n l H. rewrite <- (ntake_ndrop _ l n) in H. apply is_bytes_app in H. tauto.
Qed.
Lemma is_bytes_ntake : forall n l, is_bytes l -> is_bytes (ntake n l).
Proof.
  intros n l H. rewrite <- (ntake_ndrop _ l n) in H. apply is_bytes_app in H. tauto.
Qed.
Lemma ndrop_ndrop : forall A (l : list A) a b, ndrop a (ndrop b l) = ndrop (b + a) l.
Proof.
  intros A l a b. rewrite !ndrop_skipn. replace (N.to_nat (b + a)) with (N.to_nat b + N.to_nat a)%nat by lia.
  generalize (N.to_nat b). revert l.
  induction l as [|x l IH]; intros n; [now rewrite !skipn_nil|]. destruct n; simpl; auto.
Qed.
Lemma ndrop_0 : forall A (l : list A), ndrop 0 l = l.
Proof. intros. rewrite ndrop_skipn. reflexivity. Qed.

Lemma field_lt : forall off n d, is_bytes d -> field off n d < 256 ^ n.
Proof.
  intros off n d H. unfold field.
  eapply N.lt_le_trans; [apply le_val_lt, is_bytes_ntake, is_bytes_ndrop, H|].
  apply N.pow_le_mono_r; [lia|]. rewrite nlen_ntake. lia.
Qed.
Lemma split_field : forall off n d, is_bytes d -> off + N.of_nat n <= nlen d ->
  ndrop off d = le_bytes n (field off (N.of_nat n) d) ++ ndrop (off + N.of_nat n) d.
Proof.
  intros off n d Hb Hl. rewrite <- (ntake_ndrop _ (ndrop off d) (N.of_nat n)).
  rewrite ndrop_ndrop. f_equal. unfold field.
  symmetry. apply le_bytes_val.
  - now apply is_bytes_ntake, is_bytes_ndrop.
  - pose proof (nlen_ntake _ (ndrop off d) (N.of_nat n)) as H. rewrite nlen_ndrop in H.
    unfold nlen in *. lia.
Qed.
Lemma field_here : forall n v c, v < 256 ^ N.of_nat n -> field 0 (N.of_nat n) (le_bytes n v ++ c) = v.
Proof.
  intros. unfold field. rewrite ndrop_0. rewrite ntake_app_exact by (now rewrite le_bytes_nlen).
  now apply le_val_bytes.
Qed.
Lemma field_skip : forall off k n v c, N.of_nat n <= off ->
  field off k (le_bytes n v ++ c) = field (off - N.of_nat n) k c.
Proof.
  intros off k n v c H. unfold field. do 2 f_equal.
  replace off with (N.of_nat n + (off - N.of_nat n)) at 1 by lia.
  rewrite <- ndrop_ndrop. f_equal. apply ndrop_app_exact. now rewrite le_bytes_nlen.
Qed.

(** Evaluates [field off n (le_bytes .. ++ le_bytes .. ++ ..)]. *)
Ltac skip_field :=
  match goal with
  | |- context [field ?off ?k (le_bytes ?n ?v ++ ?c)] =>
      rewrite (field_skip off k n v c) by (vm_compute; discriminate);
      let o := eval vm_compute in (off - N.of_nat n) in change (off - N.of_nat n) with o
  end.

Ltac eval_field :=
  match goal with
  | |- field _ _ ?h = _ => unfold h || (let f := (match h with ?f _ => f end) in unfold f)
  end;
  repeat skip_field;
  match goal with |- field 0 _ (le_bytes ?n ?v ++ ?c) = _ => apply (field_here n v c) end.
Ltac in_u :=
  match goal with
  | H : u16s ?l |- ?v < _ =>
      change (v < 2 ^ 16); unfold u16s in H; rewrite Forall_forall in H; apply H; simpl; tauto
  | H : u32s ?l |- ?v < _ =>
      change (v < 2 ^ 32); unfold u32s in H; rewrite Forall_forall in H; apply H; simpl; tauto
  end.

Ltac next_field Hb Hl :=
  match goal with
  | |- ndrop ?off ?d = le_bytes ?n ?v ++ ?c =>
      rewrite (split_field off n d Hb) by (rewrite Hl; vm_compute; discriminate); f_equal;
      let o := eval vm_compute in (off + N.of_nat n) in change (off + N.of_nat n) with o
  | |- ndrop ?off ?d = [] => rewrite ndrop_skipn; apply skipn_all2; unfold nlen in Hl; lia
  end.

(** ** Positions *)
Lemma some_inj : forall A (a b : A), Some a = Some b -> a = b.
Proof. congruence. Qed.
Lemma get_from_at : forall data off b, at_ data off b ->
  exists after, get_from off data = Some (b ++ after).
Proof.
  intros data off b (before & after & -> & <-). exists after. unfold get_from.
  rewrite nlen_app. destruct (N.leb_spec (nlen before) (nlen before + nlen (b ++ after))); [|lia].
  f_equal. now apply ndrop_app_exact.
Qed.
Lemma at_get_from : forall data off b after, get_from off data = Some (b ++ after) -> at_ data off b.
Proof.
  intros data off b after H. unfold get_from in H.
  destruct (N.leb_spec off (nlen data)) as [Hl|]; [|discriminate]. injection H as H.
  exists (ntake off data), after. split; [|rewrite nlen_ntake; lia].
  rewrite <- H. symmetry. apply ntake_ndrop.
Qed.
Lemma at_le : forall data off b, at_ data off b -> off + nlen b <= nlen data.
Proof. intros data off b (u & v & -> & <-). rewrite !nlen_app. lia. Qed.
Lemma at_app : forall data off a b, at_ data off (a ++ b) -> at_ data off a /\ at_ data (off + nlen a) b.
Proof.
  intros data off a b (u & v & -> & <-). split.
  - exists u, (b ++ v). now rewrite <- app_assoc.
  - exists (u ++ a), v. rewrite nlen_app. split; auto. repeat rewrite <- app_assoc. auto.
Qed.
Lemma at_range : forall data off b, at_ data off b ->
  get_range off (off + nlen b) data = Some b.
Proof.
  intros data off b H. pose proof (at_le _ _ _ H). destruct H as (u & v & -> & <-). unfold get_range.
  destruct (N.leb_spec (nlen u) (nlen u + nlen b)); [|lia].
  destruct (N.leb_spec (nlen u + nlen b) (nlen (u ++ b ++ v))); [|lia]. simpl. f_equal.
  rewrite ndrop_app_exact by auto. rewrite ntake_app_exact by lia. auto.
Qed.
Lemma at_bytes : forall data off b, is_bytes data -> at_ data off b -> is_bytes b.
Proof.
  intros data off b H (u & v & -> & _). rewrite !is_bytes_app in H. tauto.
Qed.
Lemma get_from_bytes : forall data off r, is_bytes data -> get_from off data = Some r -> is_bytes r.
Proof.
  intros data off r Hb H. unfold get_from in H. destruct (off <=? nlen data); [|discriminate].
  injection H as <-. now apply is_bytes_ndrop.
Qed.

Lemma get_from_at2 : forall data off x b y, get_from off data = Some (x ++ b ++ y) -> at_ data (off + nlen x) b.
Proof.
  intros data off x b y H. rewrite app_assoc in H. apply at_get_from in H. now apply at_app in H.
Qed.
Lemma slice_slice : forall A (l : list A) a n s k, s + k <= n ->
  ntake k (ndrop s (ntake n (ndrop a l))) = ntake k (ndrop (a + s) l).
Proof.
  intros A l a n s k H. rewrite <- ndrop_ndrop. set (l' := ndrop a l). clearbody l'.
  rewrite !ntake_firstn, !ndrop_skipn, skipn_firstn_comm, firstn_firstn. f_equal. lia.
Qed.
