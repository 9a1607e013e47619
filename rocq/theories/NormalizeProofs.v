(** * Facts about the normalization model *)

From Verif Require Import Base Util UtilProofs Amap Maps MapsProofs Normalize Sym.
Local Open Scope N_scope.

Definition coversb (a : N) (v : maps_entry) : bool := (me_start v <=? a) && (a <? me_end v).
Definition lookup (es : list maps_entry) (a : N) : option maps_entry := find (coversb a) es.
Global Arguments lookup : simpl never.
Global Arguments coversb : simpl never.

(** Ascending, disjoint, non-empty. *)
Definition disjoint (es : list maps_entry) : Prop :=
  StronglySorted (fun v w => me_end v <= me_start w) es /\
  Forall (fun v => me_start v < me_end v) es.

Lemma disjoint_cons : forall e es, disjoint (e :: es) ->
  disjoint es /\ me_start e < me_end e /\ Forall (fun w => me_end e <= me_start w) es.
Proof.
  intros e es [H1 H2]. inversion H1; subst. inversion H2; subst. repeat split; auto.
Qed.
Lemma disjoint_filter : forall P es, disjoint es -> disjoint (filter P es).
Proof.
  intros P es [H1 H2]. split.
  - induction H1 as [|e es H1 IH Hf]; simpl; [constructor|].
    inversion H2; subst. destruct (P e); auto. constructor; auto.
    rewrite Forall_forall in *. intros x Hx. apply filter_In in Hx. apply Hf. tauto.
  - rewrite Forall_forall in *. intros x Hx. apply filter_In in Hx. apply H2. tauto.
Qed.

Lemma lookup_some : forall es a v, lookup es a = Some v -> In v es /\ me_start v <= a < me_end v.
Proof.
  intros es a v H. apply find_some in H. unfold coversb in H.
  rewrite andb_true_iff, N.leb_le, N.ltb_lt in H. tauto.
Qed.
Lemma lookup_none : forall es a, lookup es a = None <-> forall v, In v es -> ~ (me_start v <= a < me_end v).
Proof.
  intros es a. split.
  - intros H v Hv Hc. eapply find_none in H; eauto. unfold coversb in H. lia.
  - intros H. unfold lookup. destruct (find (coversb a) es) eqn:E; auto.
    apply lookup_some in E. destruct E as [E1 E2]. exfalso. eapply H; eauto.
Qed.
Lemma lookup_below : forall es a, Forall (fun w => a < me_start w) es -> lookup es a = None.
Proof.
  intros es a H. apply lookup_none. intros v Hv. rewrite Forall_forall in H. specialize (H v Hv). lia.
Qed.
Lemma lookup_unique : forall es a v, disjoint es -> In v es -> me_start v <= a < me_end v ->
  lookup es a = Some v.
Proof.
  intros es a v Hd Hin Hc. induction es as [|e es IH]; [destruct Hin|].
  apply disjoint_cons in Hd. destruct Hd as (Hd & He & Hf). unfold lookup. simpl.
  destruct Hin as [->|Hin].
  - unfold coversb. destruct (N.leb_spec (me_start v) a); destruct (N.ltb_spec a (me_end v)); auto; lia.
  - rewrite Forall_forall in Hf. specialize (Hf v Hin). unfold coversb at 1.
    destruct (N.ltb_spec a (me_end e)); [lia|]. rewrite andb_false_r. now apply IH.
Qed.

(** Sorted, starting at [prev] or above. *)
Fixpoint ascending (prev : N) (l : list N) : Prop :=
  match l with
  | [] => True
  | a :: l' => prev <= a /\ ascending a l'
  end.
Lemma ascending_sorted : forall l prev, StronglySorted N.le l ->
  (forall a l', l = a :: l' -> prev <= a) -> ascending prev l.
Proof.
  induction l as [|a l IH]; intros prev Hs Hp; simpl; auto. inversion Hs as [|? ? Hs' Hf]; subst. split; eauto.
  apply IH; auto. intros b l' ->. inversion Hf; auto.
Qed.
Lemma sorted_ascending : forall l prev, ascending prev l -> StronglySorted N.le l /\ Forall (N.le prev) l.
Proof.
  induction l as [|a l IH]; intros prev Hs; simpl in *; [split; constructor|].
  destruct Hs as [Ha Hs]. apply IH in Hs. destruct Hs as [Hs Hf]. repeat split; auto.
  - constructor; auto.
  - constructor; auto. eapply Forall_impl; [|exact Hf]. intros b Hb. simpl in Hb. lia.
Qed.

Lemma lookup_hit : forall e es a, me_start e <= a < me_end e -> lookup (e :: es) a = Some e.
Proof.
  intros e es a Hc. unfold lookup. simpl. unfold coversb.
  destruct (N.leb_spec (me_start e) a); destruct (N.ltb_spec a (me_end e)); auto; lia.
Qed.

Definition next_vma (es : list maps_entry) (a : N) : option maps_entry :=
  find (fun v => a <? me_end v) es.
Global Arguments next_vma : simpl never.
Lemma next_vma_lookup : forall es p a e, disjoint es -> next_vma es p = Some e -> p <= a -> a < me_end e ->
  lookup es a = if me_start e <=? a then Some e else None.
Proof.
  intros es p a e Hd He Hp Ha. induction es as [|v es IH]; [discriminate|].
  destruct (disjoint_cons _ _ Hd) as (Hd' & Hv & Hf). unfold next_vma in He. simpl in He.
  destruct (N.ltb_spec p (me_end v)).
  - injection He as ->. destruct (N.leb_spec (me_start e) a).
    + now apply lookup_hit.
    + apply lookup_below. constructor; auto. eapply Forall_impl; [|exact Hf]. intros w Hw. simpl in Hw. lia.
  - unfold lookup. simpl. unfold coversb at 1. destruct (N.ltb_spec a (me_end v)); [lia|].
    rewrite andb_false_r. now apply IH.
Qed.
Lemma next_vma_gt : forall es p e, next_vma es p = Some e -> p < me_end e.
Proof. intros es p e E. apply find_some in E. destruct E as [_ E]. now apply N.ltb_lt. Qed.
Lemma next_vma_none : forall es a, next_vma es a = None -> lookup es a = None.
Proof.
  intros es a E. apply lookup_none. intros v Hv. eapply find_none in E; eauto. simpl in E. lia.
Qed.

(** Collecting everything by queries gives the same list. *)
Lemma next_vma_skip : forall pre e es, disjoint (pre ++ e :: es) -> 
  forall a, Forall (fun v => me_end v <= a) pre -> next_vma (pre ++ e :: es) a = next_vma (e :: es) a.
Proof.
  induction pre as [|v pre IH]; intros e es Hd a Hf; auto. inversion Hf; subst.
  unfold next_vma. simpl. destruct (N.ltb_spec a (me_end v)); [lia|].
  apply disjoint_cons in Hd. now apply IH.
Qed.
Lemma query_all_ok : forall query all, disjoint all -> (forall a, query a = Ok (next_vma all a)) ->
  forall es pre fuel a, all = pre ++ es -> (length es < fuel)%nat ->
  Forall (fun v => me_end v <= a) pre -> Forall (fun v => a < me_end v) es ->
  query_all fuel query a = Ok (filter filter_relevant es).
Proof.
  intros query all Hd Hq. induction es as [|e es IH]; intros pre fuel a Hall Hf Hpre Hes.
  - destruct fuel; [simpl in Hf; lia|]. simpl. rewrite Hq, Hall, app_nil_r. simpl.
    destruct (next_vma pre a) as [v|] eqn:E; auto.
    pose proof (next_vma_gt _ _ _ E). apply find_some in E. rewrite Forall_forall in Hpre.
    destruct E as [E _]. specialize (Hpre v E). simpl in Hpre. lia.
  - destruct fuel; [simpl in Hf; lia|]. simpl. rewrite Hq. rewrite Hall in *. simpl.
    rewrite next_vma_skip by auto. unfold next_vma. simpl. inversion Hes; subst.
    destruct (N.ltb_spec a (me_end e)); [|lia].
    rewrite (IH (pre ++ [e]) fuel (me_end e)).
    + simpl. destruct (filter_relevant e); reflexivity.
    + now rewrite <- app_assoc.
    + simpl in Hf. lia.
    + apply Forall_app. split; [|constructor; auto; lia].
      eapply Forall_impl; [|exact Hpre]. intros v Hv. simpl in Hv. lia.
    + assert (Hd' : disjoint (e :: es)).
      { clear -Hd. induction pre; auto. simpl in Hd. apply disjoint_cons in Hd. tauto. }
      apply disjoint_cons in Hd'. destruct Hd' as ([_ Hd2] & _ & Hd1).
      rewrite Forall_forall in *. intros v Hv. specialize (Hd1 v Hv). specialize (Hd2 v Hv). simpl in *. lia.
Qed.

Section PassProofs.
  Context {H : Type}.
  Variable unk : N -> reason -> H -> H.
  Variable ent : N -> maps_entry -> H -> res H.

  (** What the pass amounts to: handle each address by itself. *)
  Definition step (lk : N -> option maps_entry) (a : N) (h : H) : res H :=
    match lk a with
    | Some e => ent a e h
    | None => Ok (unk a Unmapped h)
    end.
  Fixpoint fold_addrs (lk : N -> option maps_entry) (addrs : list N) (h : H) : res H :=
    match addrs with
    | [] => Ok h
    | a :: addrs' => let* h' := step lk a h in fold_addrs lk addrs' h'
    end.

  (** The same with the check for sortedness. *)
  Fixpoint fold_checked (lk : N -> option maps_entry) (prev : N) (addrs : list N) (h : H) : res H :=
    match addrs with
    | [] => Ok h
    | a :: addrs' =>
        if a <? prev then Err EInvalidInput
        else let* h' := step lk a h in fold_checked lk a addrs' h'
    end.
  Lemma fold_checked_sorted : forall lk addrs prev h, ascending prev addrs ->
    fold_checked lk prev addrs h = fold_addrs lk addrs h.
  Proof.
    intros lk. induction addrs as [|a addrs IH]; intros prev h Ha; simpl; auto.
    destruct Ha as [Ha Hs]. destruct (N.ltb_spec a prev); [lia|].
    destruct (step lk a h); simpl; auto.
  Qed.
  Lemma fold_checked_ok : forall lk addrs prev h h', fold_checked lk prev addrs h = Ok h' ->
    ascending prev addrs.
  Proof.
    intros lk. induction addrs as [|a addrs IH]; intros prev h h' E; simpl in *; auto.
    destruct (N.ltb_spec a prev); [discriminate|]. ib E h1 E1. split; eauto.
  Qed.
  Lemma fold_checked_unsorted : forall lk addrs prev h, 
    (forall a h, exists h', step lk a h = Ok h') -> ~ ascending prev addrs ->
    fold_checked lk prev addrs h = Err EInvalidInput.
  Proof.
    intros lk. induction addrs as [|a addrs IH]; intros prev h Ht Hn; simpl in *; [tauto|].
    destruct (N.ltb_spec a prev); auto. destruct (Ht a h) as [h1 ->]. simpl. apply IH; auto.
  Qed.

  (** Any source: a result means that the input was sorted. *)
  Lemma main_loop_sorted : forall St (entries : N -> St -> _) fuel addrs prev e st h h',
    main_loop entries unk ent fuel addrs prev e st h = Ok h' -> ascending prev addrs.
  Proof.
    intros St entries fuel. induction addrs as [|a addrs IH]; intros prev e st h h' E; simpl in *; auto.
    destruct (N.ltb_spec a prev); [discriminate|]. split; auto.
    ib E [[found e'] st'] E1. destruct found; simpl in E.
    - destruct (a <? me_start e'); [eauto|]. ib E h1 E2. eauto.
    - eauto.
  Qed.

  (** ** Iterators *)
  Lemma find_entry_iter : forall rest fuel a e, (length rest < fuel)%nat -> disjoint (e :: rest) ->
    exists found e' rest',
      find_entry iter_next fuel a e (map Ok rest) = Ok (found, e', map Ok rest') /\
      disjoint (e' :: rest') /\ (length rest' <= length rest)%nat /\
      (forall a', a <= a' -> lookup (e' :: rest') a' = lookup (e :: rest) a') /\
      (if found then a < me_end e' else rest' = [] /\ me_end e' <= a).
  Proof.
    induction rest as [|e1 rest IH]; intros fuel a e Hf Hd.
    - destruct fuel as [|fuel]; [simpl in Hf; lia|]. cbn [find_entry iter_next map bind].
      destruct (N.leb_spec (me_end e) a).
      + exists false, e, []. simpl. repeat split; auto; try apply Hd.
      + exists true, e, []. simpl. repeat split; auto; try apply Hd.
    - destruct fuel as [|fuel]; [simpl in Hf; lia|]. cbn [find_entry iter_next map bind].
      destruct (N.leb_spec (me_end e) a).
      + destruct (disjoint_cons _ _ Hd) as (Hd' & He & Hfa).
        destruct (IH fuel a e1 ltac:(simpl in Hf; lia) Hd') as (found & e' & rest' & E1 & E2 & E3 & E4 & E5).
        exists found, e', rest'. split; [exact E1|]. split; [exact E2|].
        split; [simpl; lia|]. split; [|exact E5].
        intros a' Ha'. rewrite E4 by auto. unfold lookup. simpl. unfold coversb at 3.
        destruct (N.ltb_spec a' (me_end e)); [lia|]. now rewrite andb_false_r.
      + exists true, e, (e1 :: rest). simpl. repeat split; auto; try apply Hd.
  Qed.

  Lemma main_loop_iter : forall addrs fuel prev e rest lk h,
    (length rest < fuel)%nat -> disjoint (e :: rest) ->
    (forall a, prev <= a -> lookup (e :: rest) a = lk a) ->
    main_loop iter_next unk ent fuel addrs prev e (map Ok rest) h = fold_checked lk prev addrs h.
  Proof.
    induction addrs as [|a addrs IH]; intros fuel prev e rest lk h Hf Hd Hlk; simpl; auto.
    destruct (N.ltb_spec a prev); auto.
    destruct (find_entry_iter rest fuel a e Hf Hd) as (found & e' & rest' & E1 & E2 & E3 & E4 & E5).
    rewrite E1. simpl.
    assert (Hlk' : forall a', a <= a' -> lookup (e' :: rest') a' = lk a').
    { intros a' Ha'. rewrite E4 by auto. apply Hlk. lia. }
    unfold step. rewrite <- (Hlk' a) by lia. destruct found; simpl.
    - destruct (N.ltb_spec a (me_start e')).
      + rewrite lookup_below.
        * cbn [bind]. apply IH; auto. lia.
        * constructor; auto. apply disjoint_cons in E2. destruct E2 as (_ & _ & E2).
          eapply Forall_impl; [|exact E2]. intros w Hw. simpl in Hw. lia.
      + rewrite lookup_hit by lia. destruct (ent a e' h); simpl; auto. apply IH; auto. lia.
    - destruct E5 as [-> E5]. replace (lookup [e'] a) with (@None maps_entry).
      + apply (IH fuel a e' []); auto. simpl. lia.
      + symmetry. apply lookup_none. intros v [<-|[]]. lia.
  Qed.

  Lemma normalize_sorted_iter : forall addrs fuel es h,
    (length es <= fuel)%nat -> es <> [] -> disjoint es ->
    normalize_sorted iter_next unk ent fuel addrs (map Ok es) h = fold_checked (lookup es) (hd 0 addrs) addrs h.
  Proof.
    intros addrs fuel es h Hf Hne Hd. unfold normalize_sorted. destruct es as [|e es]; [congruence|].
    replace (match addrs with [] => 0 | a :: _ => a end) with (hd 0 addrs) by (destruct addrs; auto).
    simpl. apply main_loop_iter; auto.
  Qed.

  (** ** Queries *)
  Lemma main_loop_query : forall query es, disjoint es -> (forall a, query a = Ok (next_vma es a)) ->
    forall addrs fuel prev p e h, p <= prev -> next_vma es p = Some e ->
    main_loop (query_next query) unk ent (S fuel) addrs prev e tt h = fold_checked (lookup es) prev addrs h.
  Proof.
    intros query es Hd Hq. induction addrs as [|a addrs IH]; intros fuel prev p e h Hp He.
    - reflexivity.
    - simpl. destruct (N.ltb_spec a prev); auto. unfold step.
      unfold query_next at 1. rewrite Hq.
      destruct (N.leb_spec (me_end e) a) as [Hge|Hlt].
      + destruct (next_vma es a) as [e'|] eqn:E.
        * pose proof (next_vma_gt _ _ _ E) as Hgt. simpl.
          destruct fuel as [|fuel]; simpl.
          -- destruct (N.leb_spec (me_end e') a); [lia|]. simpl.
             rewrite (next_vma_lookup es a a e' Hd E) by lia.
             destruct (N.leb_spec (me_start e') a); destruct (N.ltb_spec a (me_start e')); try lia; simpl.
             ++ destruct (ent a e' h); simpl; auto. apply IH with (p := a); auto; lia.
             ++ apply IH with (p := a); auto; lia.
          -- destruct (N.leb_spec (me_end e') a); [lia|]. simpl.
             rewrite (next_vma_lookup es a a e' Hd E) by lia.
             destruct (N.leb_spec (me_start e') a); destruct (N.ltb_spec a (me_start e')); try lia; simpl.
             ++ destruct (ent a e' h); simpl; auto. apply IH with (p := a); auto; lia.
             ++ apply IH with (p := a); auto; lia.
        * simpl. rewrite next_vma_none by auto. simpl. apply IH with (p := p); auto; lia.
      + simpl. rewrite (next_vma_lookup es p a e Hd He) by lia.
        destruct (N.leb_spec (me_start e) a); destruct (N.ltb_spec a (me_start e)); try lia; simpl.
        * destruct (ent a e h); simpl; auto. apply IH with (p := p); auto; lia.
        * apply IH with (p := p); auto; lia.
  Qed.

  Lemma normalize_sorted_query : forall query es addrs fuel h,
    disjoint es -> (forall a, query a = Ok (next_vma es a)) -> (0 < fuel)%nat ->
    normalize_sorted (query_next query) unk ent fuel addrs tt h =
    match next_vma es (hd 0 addrs) with
    | None => Err EUnexpectedEof
    | Some _ => fold_checked (lookup es) (hd 0 addrs) addrs h
    end.
  Proof.
    intros query es addrs fuel h Hd Hq Hfuel. unfold normalize_sorted, query_next at 1.
    replace (match addrs with [] => 0 | a :: _ => a end) with (hd 0 addrs) by (destruct addrs; auto).
    rewrite Hq. destruct (next_vma es (hd 0 addrs)) as [e|] eqn:E; auto. simpl.
    destruct fuel as [|fuel]; [lia|]. eapply main_loop_query; eauto. lia.
  Qed.

End PassProofs.

Lemma collect_ok : forall A (l : list A), collect (map Ok l) = Ok l.
Proof. induction l as [|x l IH]; simpl; auto. now rewrite IH. Qed.

(** ** Extensions *)
Lemma after_last_none : forall c l, after_last c l = None <-> ~ In c l.
Proof.
  intros c. induction l as [|b l IH]; simpl; [split; auto|].
  destruct (after_last c l) as [r|] eqn:E.
  - split; [discriminate|]. intros Hn. exfalso. apply Hn. right.
    destruct (in_dec N.eq_dec c l) as [Hi|Hi]; auto. apply IH in Hi. discriminate.
  - destruct (N.eqb_spec b c) as [->|Hb]; split; intros H; try discriminate; auto.
    + exfalso. auto.
    + intros [Hc|Hc]; [congruence|]. apply IH in Hc; auto.
Qed.
Lemma after_last_some : forall c l r, after_last c l = Some r <-> (exists q, l = q ++ c :: r) /\ ~ In c r.
Proof.
  intros c. induction l as [|b l IH]; intros r; simpl.
  - split; [discriminate|]. intros [[q Hq] _]. destruct q; discriminate.
  - destruct (after_last c l) as [r'|] eqn:E.
    + pose proof (proj1 (IH r') eq_refl) as [[q Hq] Hr]. split.
      * intros H. injection H as <-. split; auto. exists (b :: q). simpl. congruence.
      * intros [[q' Hq'] Hr']. f_equal. destruct q' as [|b' q']; simpl in Hq'.
        -- injection Hq' as -> ->. exfalso. apply Hr'. rewrite Hq. apply in_or_app. right. now left.
        -- injection Hq' as -> Hq'. assert (E2 : Some r' = Some r) by (apply IH; split; eauto).
           congruence.
    + apply after_last_none in E. destruct (N.eqb_spec b c) as [->|Hb]; split; intros H.
      * injection H as <-. split; auto. now exists [].
      * destruct H as [[[|b' q] Hq] Hr]; simpl in Hq; injection Hq; intros; subst; auto.
        exfalso. apply E. apply in_or_app. right. now left.
      * discriminate.
      * destruct H as [[[|b' q] Hq] Hr]; simpl in Hq; injection Hq; intros; subst; try congruence.
        exfalso. apply E. apply in_or_app. right. now left.
Qed.

(** The extension is [ext]: a dot preceded by something other than a slash. *)
Lemma extension_iff : forall path ext, ext <> [] -> ~ In 46 ext -> ~ In 47 ext ->
  extension path = ext <-> exists q c, path = q ++ [c; 46] ++ ext /\ c <> 47.
Proof.
  intros path ext Hne Hdot Hsl. unfold extension, file_name.
  assert (Hname : forall name, ~ In 47 name ->
    match name with
    | [] => []
    | _ :: name' => match after_last 46 name' with Some e => e | None => [] end
    end = ext <-> exists q c, name = q ++ [c; 46] ++ ext).
  { intros name Hn. destruct name as [|b name].
    - split; [congruence|]. intros (q & c & E). destruct q; discriminate.
    - destruct (after_last 46 name) as [e|] eqn:E.
      + apply after_last_some in E. destruct E as [[q Hq] He]. split.
        * intros <-. subst name. destruct (exists_last (l := b :: q)) as (q' & c & E); [discriminate|].
          exists q', c. rewrite app_comm_cons, E, <- app_assoc. reflexivity.
        * intros (q' & c & E). assert (Hx : Some e = Some ext); [|congruence].
          rewrite <- (proj2 (after_last_some 46 (b :: name) e)).
          -- apply after_last_some. split; auto. exists (q' ++ [c]). rewrite E, <- app_assoc. reflexivity.
          -- split; auto. exists (b :: q). simpl. congruence.
      + apply after_last_none in E. split; [congruence|]. intros (q & c & E2). exfalso. apply E.
        destruct q as [|b' q]; simpl in E2; injection E2; intros; subst.
        * now left.
        * apply in_or_app. right. right. now left. }
  destruct (after_last 47 path) as [name|] eqn:E.
  - apply after_last_some in E. destruct E as [[d Hd] Hn]. rewrite (Hname name Hn). split.
    + intros (q & c & ->). exists (d ++ 47 :: q), c. split.
      * rewrite Hd, <- app_assoc. reflexivity.
      * intros ->. apply Hn. apply in_or_app. right. now left.
    + intros (q & c & E & Hc).
      assert (Hs : after_last 47 path = Some name) by (apply after_last_some; split; eauto).
      destruct (after_last 47 q) as [r|] eqn:Eq.
      * apply after_last_some in Eq. destruct Eq as [[q' Hq'] Hr].
        assert (Hs2 : after_last 47 path = Some (r ++ [c; 46] ++ ext)).
        { apply after_last_some. split.
          - exists q'. rewrite E, Hq', <- app_assoc. reflexivity.
          - intros Hi. apply in_app_or in Hi. destruct Hi as [Hi|[Hi|[Hi|Hi]]]; auto; try congruence. }
        exists r, c. congruence.
      * apply after_last_none in Eq. exfalso.
        assert (Hi : In 47 path) by (rewrite Hd; apply in_or_app; right; now left).
        rewrite E in Hi. apply in_app_or in Hi. destruct Hi as [Hi|[Hi|[Hi|Hi]]]; auto; congruence.
  - apply after_last_none in E. rewrite (Hname path E). split.
    + intros (q & c & ->). exists q, c. split; auto. intros ->. apply E. apply in_or_app. right. now left.
    + intros (q & c & ? & _). eauto.
Qed.

(** ** Reordering permutes *)
Lemma set_nth_perm : forall A (l : list A) j y a, nth_error l j = Some y ->
  Permutation (a :: l) (y :: set_nth j a l).
Proof.
  induction l as [|b l IH]; intros j y a E; [destruct j; discriminate|].
  destruct j as [|j]; simpl in *.
  - injection E as ->. apply perm_swap.
  - etransitivity; [apply perm_swap|]. etransitivity; [apply perm_skip, (IH j y a E)|]. apply perm_swap.
Qed.
Lemma swap_perm : forall A (l : list A) i j l', swap l i j = Ok l' -> Permutation l l'.
Proof.
  intros A l i j l' E. unfold swap in E.
  destruct (nth_error l i) as [x|] eqn:Ei; [|discriminate].
  destruct (nth_error l j) as [y|] eqn:Ej; [|discriminate]. injection E as <-.
  revert i j Ei Ej. induction l as [|a l IH]; intros i j Ei Ej; [destruct i; discriminate|].
  destruct i as [|i], j as [|j]; simpl in *.
  - replace x with a by congruence. reflexivity.
  - injection Ei as <-. now apply set_nth_perm.
  - injection Ej as <-. now apply set_nth_perm.
  - constructor. auto.
Qed.
Lemma reorder_while_perm : forall A fuel i (arr : list A) idx arr' idx',
  reorder_while fuel i arr idx = Ok (arr', idx') -> Permutation arr arr'.
Proof.
  intros A. induction fuel as [|fuel IH]; intros i arr idx arr' idx' E; simpl in E;
    (destruct (nth_error idx i) as [t|]; [|discriminate]);
    (destruct (Nat.eqb t i); [injection E as <- <-; reflexivity|]); [discriminate|].
  ib E a1 E1. ib E i1 E2. apply swap_perm in E1. apply IH in E. etransitivity; eauto.
Qed.
Lemma reorder_perm : forall A (arr : list A) idx arr', reorder arr idx = Ok arr' -> Permutation arr arr'.
Proof.
  intros A arr idx arr' E. unfold reorder in E. revert E. generalize (length idx) (length arr) 0%nat.
  intros fuel n. revert arr idx. induction n as [|n IH]; intros arr idx i E; simpl in E.
  - injection E as <-. reflexivity.
  - ib E [a1 i1] E1. apply reorder_while_perm in E1. apply IH in E. etransitivity; eauto.
Qed.

(** ** Handler state *)
Section HandlerProofs.
  Context {Sym : Type}.

  Definition key_of (mt : umeta Sym) : option (list N) :=
    match mt with
    | UApk p => Some p
    | UElf p _ => Some p
    | _ => None
    end.
  Record ns_inv (s : nstate Sym) : Prop := NsInv {
    nsi_lookup : forall k i, aget beq k (ns_meta_lookup s) = Some i <->
      exists mt, nth_error (ns_meta s) i = Some mt /\ key_of mt = Some k;
    nsi_unknown : forall r i, aget reason_eqb r (ns_unknown_cache s) = Some i <->
      nth_error (ns_meta s) i = Some (UUnknown r);
    nsi_range : Forall (fun '(x, i) => (i < length (ns_meta s))%nat) (ns_outputs s);
    nsi_used : forall i, (i < length (ns_meta s))%nat -> In i (map snd (ns_outputs s))
  }.
  Lemma ns_inv_new : ns_inv nstate_new.
  Proof.
    split; simpl.
    - intros k i. split; [discriminate|]. intros (mt & H & _). destruct i; discriminate.
    - intros r i. split; [discriminate|]. intros H. destruct i; discriminate.
    - constructor.
    - intros i Hi. lia.
  Qed.

  Lemma nth_error_snoc : forall A (l : list A) x i y,
    nth_error (l ++ [x]) i = Some y <-> nth_error l i = Some y \/ (i = length l /\ y = x).
  Proof.
    intros A l x i y. destruct (Nat.lt_ge_cases i (length l)) as [Hl|Hl].
    - rewrite nth_error_app1 by lia. split; auto. intros [H|[H _]]; auto; lia.
    - rewrite nth_error_app2 by lia. split.
      + destruct (i - length l)%nat as [|n] eqn:E; simpl.
        * intros H. right. split; [lia|congruence].
        * destruct n; discriminate.
      + intros [H|[-> ->]]; [apply nth_error_lt in H; lia|]. now rewrite Nat.sub_diag.
  Qed.

  (** A step appends one output, and at most one meta entry. *)
  Definition extends (s s' : nstate Sym) (x : N) (mt : umeta Sym) : Prop :=
    ns_inv s' /\
    exists i, ns_outputs s' = ns_outputs s ++ [(x, i)] /\ nth_error (ns_meta s') i = Some mt /\
      (ns_meta s' = ns_meta s \/ ns_meta s' = ns_meta s ++ [mt]).

  Lemma ns_inv_same : forall s x i, ns_inv s -> (i < length (ns_meta s))%nat ->
    ns_inv (NState (ns_outputs s ++ [(x, i)]) (ns_meta s) (ns_meta_lookup s) (ns_unknown_cache s)).
  Proof.
    intros s x i [H1 H2 H3 H4] Hi. split; simpl; auto.
    - apply Forall_app. split; auto.
    - intros j Hj. rewrite map_app. apply in_or_app. left. auto.
  Qed.
  Lemma ns_inv_grow : forall s x mt lk uc, ns_inv s ->
    (forall k i, aget beq k lk = Some i <-> aget beq k (ns_meta_lookup s) = Some i \/
       (i = length (ns_meta s) /\ key_of mt = Some k)) ->
    (forall r i, aget reason_eqb r uc = Some i <-> aget reason_eqb r (ns_unknown_cache s) = Some i \/
       (i = length (ns_meta s) /\ mt = UUnknown r)) ->
    ns_inv (NState (ns_outputs s ++ [(x, length (ns_meta s))]) (ns_meta s ++ [mt]) lk uc).
  Proof.
    intros s x mt lk uc [H1 H2 H3 H4] Hl Hu. split; simpl.
    - intros k i. rewrite Hl, H1. split.
      + intros [(mt' & E1 & E2)|[-> E]].
        * exists mt'. split; auto. apply nth_error_snoc. auto.
        * exists mt. split; auto. apply nth_error_snoc. auto.
      + intros (mt' & E1 & E2). apply nth_error_snoc in E1. destruct E1 as [E1|[-> ->]]; eauto.
    - intros r i. rewrite Hu, H2, nth_error_snoc. split; intros [E|[E1 E2]]; auto.
    - rewrite app_length. simpl. apply Forall_app. split.
      + eapply Forall_impl; [|exact H3]. intros [y j] Hj. lia.
      + constructor; auto. lia.
    - intros j Hj. rewrite app_length in Hj. simpl in Hj. rewrite map_app. apply in_or_app. simpl.
      destruct (Nat.eq_dec j (length (ns_meta s))) as [->|]; auto. left. apply H4. lia.
  Qed.

  Lemma add_unknown_addr_spec : forall a r (s : nstate Sym), ns_inv s ->
    extends s (add_unknown_addr a r s) a (UUnknown r).
  Proof.
    intros a r s Hi. unfold add_unknown_addr, extends.
    destruct (aget reason_eqb r (ns_unknown_cache s)) as [idx|] eqn:E.
    - pose proof (proj1 (nsi_unknown s Hi r idx) E) as En. split.
      + apply ns_inv_same; auto. eapply nth_error_lt; eauto.
      + exists idx. simpl. auto.
    - split.
      + apply ns_inv_grow; auto.
        * intros k i. simpl. split; auto. intros [H|[_ H]]; [auto|discriminate].
        * intros r' i. destruct (reason_eqb_spec r' r) as [Er|Hne]; subst.
          -- rewrite aget_aset_eq by apply reason_eqb_spec. rewrite E. split.
             ++ intros H. injection H as <-. auto.
             ++ intros [H|[-> _]]; [discriminate|auto].
          -- rewrite aget_aset_neq by (auto || apply reason_eqb_spec). split; auto.
             intros [H|[_ H]]; [auto|congruence].
      + exists (length (ns_meta s)). simpl. split; auto. split; auto.
        apply nth_error_snoc. auto.
  Qed.

  Lemma add_normalized_offset_spec : forall x key mt (s : nstate Sym), ns_inv s -> key_of mt = Some key ->
    exists mt', extends s (add_normalized_offset x key mt s) x mt' /\ key_of mt' = Some key /\
      (mt' = mt \/ In mt' (ns_meta s)).
  Proof.
    intros x key mt s Hi Hk. unfold add_normalized_offset, extends.
    destruct (aget beq key (ns_meta_lookup s)) as [idx|] eqn:E.
    - destruct (proj1 (nsi_lookup s Hi key idx) E) as (mt' & En & Ek). exists mt'. split; [|split; auto].
      + split.
        * apply ns_inv_same; auto. eapply nth_error_lt; eauto.
        * exists idx. simpl. auto.
      + right. eapply nth_error_In; eauto.
    - exists mt. split; [|split; auto]. split.
      + apply ns_inv_grow; auto.
        * intros k i. destruct (beq_spec k key) as [Ek|Hne]; subst.
          -- rewrite aget_aset_eq by apply beq_spec. rewrite E. split.
             ++ intros H. injection H as <-. auto.
             ++ intros [H|[-> _]]; [discriminate|auto].
          -- rewrite aget_aset_neq by (auto || apply beq_spec). split; auto.
             intros [H|[_ H]]; [auto|congruence].
        * intros r i. split; auto. intros [H|[_ H]]; [auto|]. subst mt. discriminate.
      + exists (length (ns_meta s)). simpl. split; auto. split; auto. apply nth_error_snoc. auto.
  Qed.

  Lemma add_sym_spec : forall x sym (s : nstate Sym), ns_inv s ->
    extends s (NState (ns_outputs s ++ [(x, length (ns_meta s))]) (ns_meta s ++ [USym sym])
                 (ns_meta_lookup s) (ns_unknown_cache s)) x (USym sym).
  Proof.
    intros x sym s Hi. split.
    - apply ns_inv_grow; auto.
      + intros k i. split; auto. intros [H|[_ H]]; [auto|discriminate].
      + intros r i. split; auto. intros [H|[_ H]]; [auto|discriminate].
    - exists (length (ns_meta s)). simpl. split; auto. split; auto. apply nth_error_snoc. auto.
  Qed.

  (** What runs of the pass preserve. [P] relates an address to its output
      and meta entry, [Q] is a property of all meta entries. *)
  Lemma fold_addrs_spec : forall unk (ent : N -> maps_entry -> nstate Sym -> res (nstate Sym)) lk
      (P : N -> N -> umeta Sym -> Prop) (Q : umeta Sym -> Prop),
    (forall a s s', ns_inv s -> Forall Q (ns_meta s) -> step unk ent lk a s = Ok s' ->
       exists x mt, extends s s' x mt /\ P a x mt /\ Q mt) ->
    forall addrs s s' done, ns_inv s -> Forall Q (ns_meta s) ->
      Forall2 (fun a '(x, i) => exists mt, nth_error (ns_meta s) i = Some mt /\ P a x mt) done (ns_outputs s) ->
      fold_addrs unk ent lk addrs s = Ok s' ->
      ns_inv s' /\ Forall Q (ns_meta s') /\
      Forall2 (fun a '(x, i) => exists mt, nth_error (ns_meta s') i = Some mt /\ P a x mt)
        (done ++ addrs) (ns_outputs s').
  Proof.
    intros unk ent lk P Q Hstep. induction addrs as [|a addrs IH]; intros s s' done Hi HQ HP E.
    - simpl in E. injection E as <-. rewrite app_nil_r. auto.
    - simpl in E. ib E s1 E1. destruct (Hstep a s s1 Hi HQ E1) as (x & mt & (Hi1 & i & Ho & Hn & Hm) & HPa & HQm).
      replace (done ++ a :: addrs) with ((done ++ [a]) ++ addrs) by (now rewrite <- app_assoc).
      apply (IH s1 s'); auto.
      + destruct Hm as [->| ->]; auto. apply Forall_app. auto.
      + rewrite Ho. apply Forall2_app.
        * eapply Forall2_impl; [|exact HP]. intros b [y j] (mt' & Hj & HPb). exists mt'. split; auto.
          destruct Hm as [->| ->]; auto. apply nth_error_snoc. auto.
        * constructor; auto. exists mt. auto.
  Qed.
  Lemma fold_addrs_total : forall unk (ent : N -> maps_entry -> nstate Sym -> res (nstate Sym)) lk,
    forall addrs, (forall a s, In a addrs -> exists s', step unk ent lk a s = Ok s') ->
    forall s, exists s', fold_addrs unk ent lk addrs s = Ok s'.
  Proof.
    intros unk ent lk. induction addrs as [|a addrs IH]; intros Ht s; simpl; eauto.
    destruct (Ht a s (or_introl eq_refl)) as [s1 ->]. simpl. apply IH. intros. apply Ht. now right.
  Qed.
End HandlerProofs.
