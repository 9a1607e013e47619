(** * Facts about parts of lists *)

From Verif Require Import Base.

Lemma in_skipn : forall A (l : list A) n e, In e (skipn n l) -> In e l.
Proof. intros A l n e H. rewrite <- (firstn_skipn n l). apply in_or_app. now right. Qed.
Lemma skipn_nth : forall A (l : list A) n i, nth_error (skipn n l) i = nth_error l (n + i).
Proof.
  induction l as [|x l IH]; intros [|n] i; cbn [skipn]; auto.
  - destruct i; reflexivity.
  - rewrite IH. reflexivity.
Qed.
Lemma skipn_sorted : forall A (R : A -> A -> Prop) l n, StronglySorted R l -> StronglySorted R (skipn n l).
Proof.
  intros A R l. induction l as [|x l IH]; intros [|n] H; cbn [skipn]; auto.
  apply IH. now inversion H.
Qed.
Lemma skipn_in_nth : forall A (l : list A) n e, In e (skipn n l) -> exists j, (n <= j)%nat /\ nth_error l j = Some e.
Proof.
  intros A l n e H. apply In_nth_error in H. destruct H as [k Hk]. rewrite skipn_nth in Hk.
  exists (n + k)%nat. split; auto. lia.
Qed.
Lemma nth_in_skipn : forall A (l : list A) n j e, (n <= j)%nat -> nth_error l j = Some e -> In e (skipn n l).
Proof.
  intros A l n j e Hj He. apply nth_error_In with (j - n)%nat. rewrite skipn_nth.
  replace (n + (j - n))%nat with j by lia. auto.
Qed.

(** Sorting leaves the order of what is equal. *)
Section Stable.
  Context {A : Type} (leb : A -> A -> bool) (p : A -> bool).
  Hypothesis Hp : forall a b, p a = true -> p b = true -> leb a b = true.
  Lemma insert_stable : forall x l, filter p (insert leb x l) = filter p (x :: l).
  Proof.
    intros x. induction l as [|y l IH]; [reflexivity|]. cbn [insert].
    destruct (leb x y) eqn:E; [reflexivity|]. cbn [filter] in *. rewrite IH.
    destruct (p x) eqn:Ex, (p y) eqn:Ey; auto. rewrite Hp in E by auto. discriminate.
  Qed.
  Lemma isort_stable : forall l, filter p (isort leb l) = filter p l.
  Proof.
    induction l as [|x l IH]; [reflexivity|]. cbn [isort]. rewrite insert_stable. cbn [filter]. now rewrite IH.
  Qed.
End Stable.

(** The first and the last that satisfy something *)
Lemma filter_hd : forall A (p : A -> bool) l e, hd_error (filter p l) = Some e <->
  exists l1 l2, l = l1 ++ e :: l2 /\ p e = true /\ Forall (fun x => p x = false) l1.
Proof.
  intros A p l e. induction l as [|x l IH]; cbn [filter].
  - split; [discriminate|]. intros (l1 & l2 & H & _). destruct l1; discriminate.
  - destruct (p x) eqn:E; cbn [hd_error].
    + split.
      * intros H. injection H as <-. exists [], l. auto.
      * intros (l1 & l2 & H & H1 & H2). destruct l1 as [|y l1]; injection H as -> ->; auto.
        inversion H2; congruence.
    + rewrite IH. split; intros (l1 & l2 & H & H1 & H2).
      * exists (x :: l1), l2. subst. auto.
      * destruct l1 as [|y l1]; injection H as -> ->; [congruence|]. inversion H2; subst. eauto.
Qed.
Lemma filter_rev : forall A (p : A -> bool) l, filter p (rev l) = rev (filter p l).
Proof.
  intros A p. induction l as [|x l IH]; [reflexivity|]. cbn [rev filter]. rewrite filter_app, IH. cbn [filter].
  destruct (p x); cbn [rev]; [reflexivity|apply app_nil_r].
Qed.
Lemma filter_last : forall A (p : A -> bool) l e, hd_error (rev (filter p l)) = Some e <->
  exists l1 l2, l = l1 ++ e :: l2 /\ p e = true /\ Forall (fun x => p x = false) l2.
Proof.
  intros A p l e. rewrite <- filter_rev, filter_hd. split; intros (l1 & l2 & H & H1 & H2).
  - exists (rev l2), (rev l1). rewrite <- (rev_involutive l), H, rev_app_distr. cbn [rev]. rewrite <- app_assoc.
    split; [reflexivity|]. split; auto. now apply Forall_rev.
  - exists (rev l2), (rev l1). subst l. rewrite rev_app_distr. cbn [rev]. rewrite <- app_assoc.
    split; [reflexivity|]. split; auto. now apply Forall_rev.
Qed.
