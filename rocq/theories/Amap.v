(** * Finite maps as association lists

    The contract of a [HashMap]; see also src/insert_map.rs: [InsertMap::get]
    (lines 33-43) is [aget], [get_or_insert] (52-65) and [get_or_try_insert]
    (74-94) look up first and only then [aset], [remove] (101-107) is [adel]. *)

From Verif Require Import Base.

Section Amap.
  Context {K V : Type} (eqb : K -> K -> bool).
  Hypothesis eqb_spec : forall a b, reflect (a = b) (eqb a b).

  Fixpoint aget (k : K) (m : list (K * V)) : option V :=
    match m with
    | [] => None
    | (k', v) :: m' => if eqb k k' then Some v else aget k m'
    end.
  Fixpoint aset (k : K) (v : V) (m : list (K * V)) : list (K * V) :=
    match m with
    | [] => [(k, v)]
    | (k', v') :: m' => if eqb k k' then (k, v) :: m' else (k', v') :: aset k v m'
    end.
  Fixpoint adel (k : K) (m : list (K * V)) : list (K * V) :=
    match m with
    | [] => []
    | (k', v') :: m' => if eqb k k' then m' else (k', v') :: adel k m'
    end.

  Definition akeys (m : list (K * V)) : list K := map fst m.

  Lemma aget_aset_eq : forall k v m, aget k (aset k v m) = Some v.
  Proof.
    induction m as [|[k' v'] m IH]; simpl.
    - destruct (eqb_spec k k); congruence.
    - destruct (eqb_spec k k') as [->|Hne]; simpl.
      + destruct (eqb_spec k' k'); congruence.
      + destruct (eqb_spec k k'); congruence.
  Qed.
  Lemma aget_aset_neq : forall k k' v m, k <> k' -> aget k (aset k' v m) = aget k m.
  Proof.
    induction m as [|[k2 v2] m IH]; simpl; intros Hne.
    - destruct (eqb_spec k k'); congruence.
    - destruct (eqb_spec k' k2) as [->|Hne2]; simpl.
      + destruct (eqb_spec k k2); congruence.
      + destruct (eqb_spec k k2); auto.
  Qed.
  Lemma aget_in : forall k v m, aget k m = Some v -> In (k, v) m.
  Proof.
    induction m as [|[k' v'] m IH]; simpl; intros H; [discriminate|].
    destruct (eqb_spec k k') as [->|]; [left; congruence|auto].
  Qed.
  Lemma aget_none : forall k m, aget k m = None <-> ~ In k (akeys m).
  Proof.
    induction m as [|[k' v'] m IH]; simpl; [split; auto|].
    destruct (eqb_spec k k') as [->|Hne].
    - split; [discriminate|]. intros H. exfalso. auto.
    - rewrite IH. split; intros H; [intros [E|E]; auto; congruence|]. tauto.
  Qed.
  Lemma aget_nodup : forall k v m, NoDup (akeys m) -> In (k, v) m -> aget k m = Some v.
  Proof.
    induction m as [|[k' v'] m IH]; simpl; intros Hnd Hin; [tauto|].
    inversion Hnd; subst. destruct Hin as [E|Hin].
    - injection E as -> ->. destruct (eqb_spec k k); congruence.
    - destruct (eqb_spec k k') as [->|]; auto.
      exfalso. apply H1. apply in_map_iff. exists (k', v). auto.
  Qed.
  Lemma aset_keys_in : forall k v m k', In k' (akeys (aset k v m)) <-> k' = k \/ In k' (akeys m).
  Proof.
    induction m as [|[k2 v2] m IH]; simpl; intros k'.
    - intuition congruence.
    - destruct (eqb_spec k k2) as [->|Hne]; simpl.
      + intuition congruence.
      + rewrite IH. tauto.
  Qed.
  Lemma aset_nodup : forall k v m, NoDup (akeys m) -> NoDup (akeys (aset k v m)).
  Proof.
    induction m as [|[k2 v2] m IH]; simpl; intros Hnd.
    - repeat constructor. auto.
    - inversion Hnd; subst. destruct (eqb_spec k k2) as [->|Hne]; simpl; constructor; auto.
      intros Hin. apply aset_keys_in in Hin. destruct Hin; auto.
  Qed.
  Lemma adel_incl : forall k m x, In x (adel k m) -> In x m.
  Proof.
    induction m as [|[k2 v2] m IH]; simpl; intros x H; auto.
    destruct (eqb k k2); simpl in *; intuition auto.
  Qed.
  Lemma adel_keys_incl : forall k m k', In k' (akeys (adel k m)) -> In k' (akeys m).
  Proof.
    intros k m k' H. apply in_map_iff in H. destruct H as (x & <- & Hx).
    apply in_map. eapply adel_incl; eauto.
  Qed.
  Lemma adel_nodup : forall k m, NoDup (akeys m) -> NoDup (akeys (adel k m)).
  Proof.
    induction m as [|[k2 v2] m IH]; simpl; intros Hnd; auto.
    inversion Hnd; subst. destruct (eqb k k2); simpl; auto. constructor; auto.
    intros Hin. apply adel_keys_incl in Hin. auto.
  Qed.
  Lemma aget_adel_eq : forall k m, NoDup (akeys m) -> aget k (adel k m) = None.
  Proof.
    induction m as [|[k2 v2] m IH]; simpl; intros Hnd; auto.
    inversion Hnd; subst. destruct (eqb_spec k k2) as [->|Hne]; simpl.
    - now apply aget_none.
    - destruct (eqb_spec k k2); [congruence|auto].
  Qed.
  Lemma aget_adel_neq : forall k k' m, k <> k' -> aget k (adel k' m) = aget k m.
  Proof.
    induction m as [|[k2 v2] m IH]; simpl; intros Hne; auto.
    destruct (eqb_spec k' k2) as [->|Hne2]; simpl.
    - destruct (eqb_spec k k2); congruence.
    - destruct (eqb_spec k k2); auto.
  Qed.
End Amap.
