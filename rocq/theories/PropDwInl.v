(** * C39: inlined calls *)

From Verif Require Import Base Util UtilProofs Search Depmod Dwarf DwarfSpec Lists Sym Nom PropDwLines PropDwUnits PropDwNames PropDwFns.
From Coq Require Import Permutation Sorted.
Local Open Scope N_scope.

(** ** Calls in a list of entries *)
Inductive lcalls (x : tree) : list tree -> Prop :=
| LHere : forall l, In x l -> t_tag x = TInlined -> lcalls x l
| LBelow : forall l c, In c l -> t_tag c = TOther -> lcalls x (t_children c) -> lcalls x l.
Lemma lcalls_calls : forall x l, lcalls x l -> forall t, t_children t = l -> calls x t.
Proof.
  intros x l H. induction H as [l H1 H2|l c H1 H2 H IH]; intros t Et; subst l.
  - now apply CallHere.
  - apply CallBelow with (c := c); auto.
Qed.
Lemma calls_lcalls : forall x t, calls x t -> lcalls x (t_children t).
Proof.
  intros x t H. induction H as [t H1 H2|t c H1 H2 H IH].
  - now apply LHere.
  - now apply LBelow with (c := c).
Qed.
(** ... at a depth *)
Inductive lcall_at : N -> tree -> list tree -> Prop :=
| LFirst : forall x l, lcalls x l -> lcall_at 0 x l
| LNext : forall d x y l, lcalls y l -> lcall_at d x (t_children y) -> lcall_at (d + 1) x l.
Lemma lcall_at_iff : forall t d x, lcall_at d x (t_children t) <-> call_at d x t.
Proof.
  intros t d x. split.
  - intros H. remember (t_children t) as l eqn:E. revert t E. induction H as [x l H|d x y l H1 H2 IH]; intros t E.
    + apply CallFirst. eapply lcalls_calls; eauto.
    + apply CallNext with (y := y); [eapply lcalls_calls; eauto|]. now apply IH.
  - intros H. induction H as [x t H|d x y t H1 H2 IH].
    + apply LFirst. now apply calls_lcalls.
    + apply LNext with (y := y); auto. now apply calls_lcalls.
Qed.
Lemma lcalls_app : forall x l1 l2, lcalls x (l1 ++ l2) <-> lcalls x l1 \/ lcalls x l2.
Proof.
  intros x l1 l2. split.
  - intros H. inversion H; subst.
    + apply in_app_iff in H0. destruct H0; [left|right]; now apply LHere.
    + apply in_app_iff in H0. destruct H0; [left|right]; now apply LBelow with (c := c).
  - intros [H|H]; inversion H; subst; try (apply LHere; auto; apply in_app_iff; auto);
      (apply LBelow with (c := c); auto; apply in_app_iff; auto).
Qed.
Lemma lcall_at_app : forall d x l1 l2, lcall_at d x (l1 ++ l2) <-> lcall_at d x l1 \/ lcall_at d x l2.
Proof.
  intros d x l1 l2. split.
  - intros H. inversion H; subst.
    + apply lcalls_app in H0. destruct H0; [left|right]; now apply LFirst.
    + apply lcalls_app in H0. destruct H0; [left|right]; apply LNext with (y := y); auto.
  - intros [H|H]; inversion H; subst; try (apply LFirst; apply lcalls_app; auto);
      (apply LNext with (y := y); auto; apply lcalls_app; auto).
Qed.
Lemma lcalls_nil : forall x, ~ lcalls x [].
Proof. intros x H. inversion H; subst; destruct H0. Qed.
Lemma lcall_at_nil : forall d x, ~ lcall_at d x [].
Proof. intros d x H. inversion H; subst; eapply lcalls_nil; eauto. Qed.
Lemma lcalls_one : forall x t, lcalls x [t] <->
  match t_tag t with TInlined => x = t | TOther => lcalls x (t_children t) | TSubprogram => False end.
Proof.
  intros x t. split.
  - intros H. inversion H; subst.
    + destruct H0 as [<-|[]]. now rewrite H1.
    + destruct H0 as [<-|[]]. now rewrite H1.
  - destruct (t_tag t) eqn:E; [intros []|intros ->|intros H].
    + apply LHere; auto. now left.
    + apply LBelow with (c := t); auto. now left.
Qed.

(** ** Attributes of calls *)
Lemma call_attr_file : forall b c a, a_name a <> ACallFile -> fst (fst (call_attr b c a)) = fst (fst c).
Proof. intros b [[f l] col] [n v] H. cbn [call_attr a_name a_value] in *. destruct n; try reflexivity. congruence. Qed.
Lemma call_attr_line : forall b c a, a_name a <> ACallLine -> snd (fst (call_attr b c a)) = snd (fst c).
Proof.
  intros b [[f l] col] [n v] H. cbn [call_attr a_name a_value] in *. destruct n; try reflexivity; [|congruence].
  destruct v; try reflexivity. now destruct ((0 <? i) || (5 <=? b_version b)).
Qed.
Lemma call_attr_column : forall b c a, a_name a <> ACallColumn -> snd (call_attr b c a) = snd c.
Proof.
  intros b [[f l] col] [n v] H. cbn [call_attr a_name a_value] in *. destruct n; try reflexivity; [|congruence].
  destruct v; try reflexivity. now destruct ((0 <? i) || (5 <=? b_version b)).
Qed.
Fixpoint call_attrs (b : body) (l : list (option attr)) (c : option N * N * N) : option N * N * N :=
  match l with
  | [] => c
  | Some a :: l => call_attrs b l (call_attr b c a)
  | None :: l => call_attrs b l c
  end.
Lemma inl_attrs_calls : forall pick us b l name ra c r ra' c', inl_attrs pick us b l name ra c = Ok (r, ra', c') -> c' = call_attrs b l c.
Proof.
  intros pick us b. induction l as [|a l IH]; intros name ra c r ra' c' H; cbn [inl_attrs call_attrs] in *.
  - now injection H as _ _ <-.
  - ib H x Ex. apply g_ok in Ex. subst a. ib H n En. ib H ra1 E1. eapply IH; eauto.
Qed.
Lemma call_attrs_keep : forall A b (p : option N * N * N -> A) n, (forall c a, a_name a <> n -> p (call_attr b c a) = p c) ->
  forall l c, (forall v, ~ has l n v) -> p (call_attrs b l c) = p c.
Proof.
  intros A b p n Hp. induction l as [|a l IH]; intros c Hn; cbn [call_attrs]; [reflexivity|].
  assert (Hn' : forall v, ~ has l n v) by (intros v Hv; apply (Hn v); now right).
  destruct a as [[an av]|]; rewrite IH; auto. apply Hp. cbn [a_name]. intros ->. apply (Hn av). now left.
Qed.
Lemma call_attrs_app : forall b l1 l2 c, call_attrs b (l1 ++ l2) c = call_attrs b l2 (call_attrs b l1 c).
Proof. intros b. induction l1 as [|[a|] l1 IH]; intros l2 c; cbn [app call_attrs]; auto. Qed.
Lemma call_attrs_at : forall A b (p : option N * N * N -> A) n v l c, (forall c a, a_name a <> n -> p (call_attr b c a) = p c) ->
  unique l n -> has l n v -> exists c', p c' = p c /\ p (call_attrs b l c) = p (call_attr b c' (Attr n v)).
Proof.
  intros A b p n v l c Hp Hu Hv. destruct (has_split l n Hu) as [Hn|(l1 & v1 & l2 & -> & H1 & H2 & Hx)]; [exfalso; now apply (Hn v)|].
  rewrite (Hx v Hv). rewrite call_attrs_app. cbn [call_attrs]. exists (call_attrs b l1 c). split.
  - now apply (call_attrs_keep _ _ _ _ Hp).
  - now apply (call_attrs_keep _ _ _ _ Hp).
Qed.
Lemma call_attrs_nofile : forall b l c, (forall i, ~ has l ACallFile (VFileIndex i)) -> fst (fst (call_attrs b l c)) = fst (fst c).
Proof.
  intros b. induction l as [|a l IH]; intros c Hn; cbn [call_attrs]; [reflexivity|].
  assert (Hn' : forall i, ~ has l ACallFile (VFileIndex i)) by (intros v Hv; apply (Hn v); now right).
  destruct a as [[an av]|]; rewrite IH; auto. destruct (aname_dec an ACallFile) as [->|Hne]; [|now apply call_attr_file].
  destruct c as [[f l0] col]. cbn [call_attr a_name a_value]. destruct av; try reflexivity. exfalso. apply (Hn i). now left.
Qed.
Lemma call_ok : forall pick us b x name ra file line column, units_ordered us -> headers_wf us ->
  inl_attrs pick us b (t_attrs x) None no_rattrs (None, 0, 0) = Ok (name, ra, (file, line, column)) ->
  call_of us name_limit b x (InlFn name file line column).
Proof.
  intros pick us b x name ra file line column Ho Hh H. pose proof (inl_attrs_calls _ _ _ _ _ _ _ _ _ _ H) as Hc.
  apply inl_attrs_names in H. destruct H as [Hn _].
  assert (Ef : file = fst (fst (call_attrs b (t_attrs x) (None, 0, 0)))) by now rewrite <- Hc.
  assert (El : line = snd (fst (call_attrs b (t_attrs x) (None, 0, 0)))) by now rewrite <- Hc.
  assert (Ec : column = snd (call_attrs b (t_attrs x) (None, 0, 0))) by now rewrite <- Hc.
  unfold call_of. cbn [in_name in_file in_line in_column]. repeat split.
  - intros s Hwf Hs. eapply fn_names_ok; eauto.
  - intros Hu i Hi. destruct (call_attrs_at _ b (fun c => fst (fst c)) ACallFile (VFileIndex i) (t_attrs x) (None, 0, 0)) as (c' & E1 & E2); auto.
    { intros c a Ha. now apply call_attr_file. }
    rewrite Ef, E2. destruct c' as [[f l] col]. cbn [fst snd] in E1. subst f. cbn [call_attr a_name a_value].
    destruct (N.ltb_spec 0 i), (N.leb_spec 5 (b_version b)), (N.eqb_spec i 0), (N.ltb_spec (b_version b) 5); cbn [orb andb fst snd]; auto; lia.
  - intros Hno. rewrite Ef, call_attrs_nofile; auto.
  - intros Hu n Hi Hlt. destruct (call_attrs_at _ b (fun c => snd (fst c)) ACallLine (VUdata n) (t_attrs x) (None, 0, 0)) as (c' & E1 & E2); auto.
    { intros c a Ha. now apply call_attr_line. }
    rewrite El, E2. destruct c' as [[f l] col]. cbn [call_attr a_name a_value udata_value fst snd]. now apply N.mod_small.
  - intros Hu n Hi Hlt. destruct (call_attrs_at _ b (fun c => snd c) ACallColumn (VUdata n) (t_attrs x) (None, 0, 0)) as (c' & E1 & E2); auto.
    { intros c a Ha. now apply call_attr_column. }
    rewrite Ec, E2. destruct c' as [[f l] col]. cbn [call_attr a_name a_value udata_value fst snd]. now apply N.mod_small.
  - intros Hno. rewrite El. apply (call_attrs_keep _ b (fun c => snd (fst c)) ACallLine); auto. intros c a Ha. now apply call_attr_line.
  - intros Hno. rewrite Ec. apply (call_attrs_keep _ b (fun c => snd c) ACallColumn); auto. intros c a Ha. now apply call_attr_column.
Qed.

(** ** Reading calls *)

(** What reading a list of entries adds *)
Definition adds (us : units) (b : body) (idepth : N) (l : list tree) (fns : list inl_fn) (addrs : list inl_addr)
    (fns' : list inl_fn) (addrs' : list inl_addr) : Prop :=
  (exists nf, fns' = nf ++ fns) /\ exists na, addrs' = na ++ addrs /\
  (forall a, In a na -> exists x d f, lcall_at d x l /\ ia_depth a = idepth + d /\ declares b (t_attrs x) (ia_range a) /\
     r_begin (ia_range a) < r_end (ia_range a) /\ nnth (ia_fn a) (rev fns') = Some f /\ call_of us name_limit b x f) /\
  (forall x d r, lcall_at d x l -> declares b (t_attrs x) r -> r_begin r < r_end r ->
     exists a f, In a na /\ ia_depth a = idepth + d /\ ia_range a = r /\ nnth (ia_fn a) (rev fns') = Some f /\ call_of us name_limit b x f).
Lemma nnth_app_old : forall A (l l2 : list A) i y, nnth i l = Some y -> nnth i (l ++ l2) = Some y.
Proof.
  intros A l l2 i y. rewrite !nnth_nth. intros H. rewrite nth_error_app1; auto. eapply nth_error_lt; eauto.
Qed.
Lemma adds_nothing : forall us b idepth l fns addrs, (forall x d, ~ lcall_at d x l) -> adds us b idepth l fns addrs fns addrs.
Proof.
  intros us b idepth l fns addrs Hn. split; [exists []; reflexivity|]. exists []. split; [reflexivity|]. split.
  - intros a [].
  - intros x d r H. exfalso. eapply Hn; eauto.
Qed.
Lemma adds_app : forall us b idepth l1 l2 fns addrs fns1 addrs1 fns2 addrs2,
  adds us b idepth l1 fns addrs fns1 addrs1 -> adds us b idepth l2 fns1 addrs1 fns2 addrs2 ->
  adds us b idepth (l1 ++ l2) fns addrs fns2 addrs2.
Proof.
  intros us b idepth l1 l2 fns addrs fns1 addrs1 fns2 addrs2 [[nf1 ->] (na1 & -> & S1 & C1)] [[nf2 ->] (na2 & -> & S2 & C2)].
  split; [exists (nf2 ++ nf1); now rewrite app_assoc|]. exists (na2 ++ na1). split; [now rewrite app_assoc|].
  assert (Hold : forall i f, nnth i (rev (nf1 ++ fns)) = Some f -> nnth i (rev (nf2 ++ nf1 ++ fns)) = Some f).
  { intros i f H. rewrite rev_app_distr. now apply nnth_app_old. }
  split.
  - intros a Ha. apply in_app_iff in Ha. destruct Ha as [Ha|Ha].
    + destruct (S2 a Ha) as (x & d & f & H1 & H2). exists x, d, f. split; auto. apply lcall_at_app. now right.
    + destruct (S1 a Ha) as (x & d & f & H1 & H2 & H3 & H4 & H5 & H6). exists x, d, f. split; [apply lcall_at_app; now left|].
      repeat (split; auto).
  - intros x d r Hx Hd Hr. apply lcall_at_app in Hx. destruct Hx as [Hx|Hx].
    + destruct (C1 x d r Hx Hd Hr) as (a & f & H1 & H2 & H3 & H4 & H5). exists a, f. split; [apply in_app_iff; now right|].
      repeat (split; auto).
    + destruct (C2 x d r Hx Hd Hr) as (a & f & H1 & H2). exists a, f. split; [apply in_app_iff; now left|]. auto.
Qed.
(** A call and what is below it *)
Lemma adds_call : forall us b idepth x f rs fns addrs fns1 addrs1, t_tag x = TInlined -> call_of us name_limit b x f ->
  (forall r, In r rs <-> declares b (t_attrs x) r /\ r_begin r < r_end r) ->
  adds us b (idepth + 1) (t_children x) (f :: fns) (rev (map (fun r => InlAddr r idepth (nlen fns)) rs) ++ addrs) fns1 addrs1 ->
  adds us b idepth [x] fns addrs fns1 addrs1.
Proof.
  intros us b idepth x f rs fns addrs fns1 addrs1 Ht Hf Hrs [[nf ->] (na & -> & S1 & C1)].
  split; [exists (nf ++ [f]); now rewrite <- app_assoc|].
  exists (na ++ rev (map (fun r => InlAddr r idepth (nlen fns)) rs)). split; [now rewrite app_assoc|].
  assert (Hnew : nnth (nlen fns) (rev (nf ++ f :: fns)) = Some f).
  { rewrite rev_app_distr. apply nnth_app_old. cbn [rev]. rewrite <- (nlen_rev _ fns). apply nnth_snoc_new. }
  assert (Hx : lcalls x [x]) by (apply lcalls_one; now rewrite Ht).
  split.
  - intros a Ha. apply in_app_iff in Ha. destruct Ha as [Ha|Ha].
    + destruct (S1 a Ha) as (y & d & f' & H1 & H2 & H3). exists y, (d + 1), f'. split; [now apply LNext with (y := x)|].
      split; [lia|auto].
    + apply in_rev in Ha. apply in_map_iff in Ha. destruct Ha as (r & <- & Hr). apply Hrs in Hr. destruct Hr as [Hr Hne].
      cbn [ia_depth ia_range ia_fn]. exists x, 0, f. split; [now apply LFirst|]. split; [lia|]. auto.
  - intros y d r Hy Hd Hr. inversion Hy; subst.
    + apply lcalls_one in H. rewrite Ht in H. subst y. exists (InlAddr r idepth (nlen fns)), f. cbn [ia_depth ia_range ia_fn].
      split; [|split; [lia|auto]]. apply in_app_iff. right. apply -> in_rev. apply in_map_iff. exists r. split; auto. now apply Hrs.
    + apply lcalls_one in H. rewrite Ht in H. subst y0. destruct (C1 y d0 r H0 Hd Hr) as (a & f' & H1 & H2 & H3).
      exists a, f'. split; [apply in_app_iff; now left|]. split; [lia|auto].
Qed.
Lemma adds_below : forall us b idepth x fns addrs fns1 addrs1, t_tag x = TOther ->
  adds us b idepth (t_children x) fns addrs fns1 addrs1 -> adds us b idepth [x] fns addrs fns1 addrs1.
Proof.
  intros us b idepth x fns addrs fns1 addrs1 Ht [H1 (na & E & S1 & C1)].
  assert (Hiff : forall d y, lcall_at d y [x] <-> lcall_at d y (t_children x)).
  { intros d y. split; intros H; inversion H; subst.
    - apply LFirst. apply lcalls_one in H0. now rewrite Ht in H0.
    - apply LNext with (y := y0); auto. apply lcalls_one in H0. now rewrite Ht in H0.
    - apply LFirst. apply lcalls_one. now rewrite Ht.
    - apply LNext with (y := y0); auto. apply lcalls_one. now rewrite Ht. }
  split; auto. exists na. split; auto. split.
  - intros a Ha. destruct (S1 a Ha) as (y & d & f & K1 & K2). exists y, d, f. split; auto. now apply Hiff.
  - intros y d r Hy. apply Hiff in Hy. auto.
Qed.
Lemma adds_function : forall us b idepth x fns addrs, t_tag x = TSubprogram -> adds us b idepth [x] fns addrs fns addrs.
Proof.
  intros us b idepth x fns addrs Ht. apply adds_nothing. intros y d H. inversion H; subst; apply lcalls_one in H0; now rewrite Ht in H0.
Qed.

(** Skipping *)
Lemma skip_stored :
  (forall t s, stored t s -> forall rest cur depth r, (depth < cur)%Z -> skip_children (s ++ rest) cur depth = Ok r -> skip_children rest cur depth = Ok r) /\
  (forall l s, stored_list l s -> forall rest cur depth r, (depth < cur)%Z -> skip_children (s ++ rest) cur depth = Ok r -> skip_children rest cur depth = Ok r).
Proof.
  apply stored_both.
  - intros off tag attrs rest cur depth r Hlt H. cbn [app skip_children] in H.
    destruct (Z.leb_spec cur depth); [lia|]. ib H u Eu. exact H.
  - intros off tag attrs l s o Hs IH rest cur depth r Hlt H. cbn [app skip_children] in H.
    destruct (Z.leb_spec cur depth); [lia|]. ib H u Eu. cbn [d_children] in H. rewrite <- app_assoc in H. apply IH in H; [|lia].
    cbn [app skip_children] in H. destruct (Z.leb_spec (cur + 1) depth); [lia|]. now replace (cur + 1 - 1)%Z with cur in H by lia.
  - intros rest cur depth r _ H. exact H.
  - intros t l s1 s2 H1 IH1 H2 IH2 rest cur depth r Hlt H. rewrite <- app_assoc in H. apply IH1 in H; auto.
Qed.

(** Reading *)
Lemma parse_step : forall m pick us b fuel s cur fns addrs depth idepth st, (depth < cur)%Z ->
  parse_children m pick us b fuel (s, cur, fns, addrs) depth idepth = Ok st ->
  exists fuel', fuel = S fuel' /\
    (let* '(d, s, cur') := read_abbreviation s cur in
     match d with
     | None => parse_children m pick us b fuel' (s, cur', fns, addrs) depth idepth
     | Some d =>
         match d_tag d with
         | TSubprogram =>
             let* _ := skip_attributes (d_attrs d) in
             let* '(s, cur') := skip_children s cur' cur in
             parse_children m pick us b fuel' (s, cur', fns, addrs) depth idepth
         | TInlined =>
             let* '(name, ra, (file, line, column)) :=
               inl_attrs pick us b (d_attrs d) None no_rattrs (None, 0, 0) in
             let idx := nlen fns in
             let* rs := for_each_range m b ra in
             let addrs := rev (map (fun r => InlAddr r idepth idx) rs) ++ addrs in
             let fns := InlFn name file line column :: fns in
             let* st := parse_children m pick us b fuel' (s, cur', fns, addrs) cur (idepth + 1) in
             parse_children m pick us b fuel' st depth idepth
         | TOther =>
             let* _ := skip_attributes (d_attrs d) in
             parse_children m pick us b fuel' (s, cur', fns, addrs) depth idepth
         end
     end) = Ok st.
Proof.
  intros m pick us b [|fuel] s cur fns addrs depth idepth st Hlt H; cbn [parse_children] in H; [discriminate|].
  exists fuel. split; auto. destruct (Z.leb_spec cur depth); [lia|]. exact H.
Qed.
Lemma parse_done : forall m pick us b fuel s cur fns addrs depth idepth st, (cur <= depth)%Z ->
  parse_children m pick us b fuel (s, cur, fns, addrs) depth idepth = Ok st -> st = (s, cur, fns, addrs).
Proof.
  intros m pick us b [|fuel] s cur fns addrs depth idepth st Hle H; cbn [parse_children] in H; [discriminate|].
  destruct (Z.leb_spec cur depth); [congruence|lia].
Qed.
Lemma parse_end : forall m pick us b fuel o s cur fns addrs depth idepth st, (depth < cur)%Z ->
  parse_children m pick us b fuel ((o, INull) :: s, cur, fns, addrs) depth idepth = Ok st ->
  exists fuel', parse_children m pick us b fuel' (s, (cur - 1)%Z, fns, addrs) depth idepth = Ok st.
Proof.
  intros m pick us b fuel o s cur fns addrs depth idepth st Hlt H. destruct (parse_step _ _ _ _ _ _ _ _ _ _ _ _ Hlt H) as (fuel' & _ & H').
  exists fuel'. exact H'.
Qed.

Definition reads (m : mode) (pick : N -> N) (us : units) (b : body) (l : list tree) (s : stream) : Prop :=
  forall fuel rest cur fns addrs depth idepth st, (depth < cur)%Z ->
    parse_children m pick us b fuel (s ++ rest, cur, fns, addrs) depth idepth = Ok st ->
    exists fuel' fns' addrs', parse_children m pick us b fuel' (rest, cur, fns', addrs') depth idepth = Ok st /\
      adds us b idepth l fns addrs fns' addrs'.
Definition inl_wf (b : body) (l : list tree) : Prop :=
  forall t x, In t l -> in_tree x t -> t_tag x = TInlined -> ranges_wf b (t_attrs x).
Lemma reads_ok : forall m pick us b, units_ordered us -> headers_wf us ->
  (forall t s, stored t s -> inl_wf b [t] -> reads m pick us b [t] s) /\
  (forall l s, stored_list l s -> inl_wf b l -> reads m pick us b l s).
Proof.
  intros m pick us b Ho Hh. apply stored_both.
  - intros off tag attrs Hwf fuel rest cur fns addrs depth idepth st Hlt H.
    destruct (parse_step _ _ _ _ _ _ _ _ _ _ _ _ Hlt H) as (fuel' & _ & H'). clear H. cbn [app read_abbreviation bind d_tag d_attrs d_children] in H'.
    destruct tag.
    + ib H' u Eu. ib H' x Ex. destruct x as [s' cur'].
      assert (s' = rest /\ cur' = cur).
      { destruct rest as [|[o' i'] rest]; cbn [skip_children] in Ex; (destruct (Z.leb_spec cur cur); [|lia]); now injection Ex as <- <-. }
      destruct H as [-> ->]. exists fuel', fns, addrs. split; auto. now apply adds_function.
    + ib H' x Ex. destruct x as [[name ra] [[file line] column]]. ib H' rs Ers.
      ib H' st1 Est. apply parse_done in Est; [|lia]. subst st1.
      exists fuel'. eexists. eexists. split; [exact H'|].
      apply (adds_call us b idepth (Node off TInlined attrs None) (InlFn name file line column) rs); auto.
      * eapply call_ok; eauto.
      * apply inl_attrs_names in Ex. destruct Ex as [_ Era]. apply (ranges_declared m b attrs ra rs); auto.
        apply (Hwf (Node off TInlined attrs None) (Node off TInlined attrs None)); [now left|apply InHere|reflexivity].
      * apply adds_nothing. intros x d. apply lcall_at_nil.
    + ib H' u Eu. exists fuel', fns, addrs. split; auto. apply adds_below; auto. apply adds_nothing. intros x d. apply lcall_at_nil.
  - intros off tag attrs l s o Hs IH Hwf fuel rest cur fns addrs depth idepth st Hlt H.
    assert (Hwf' : inl_wf b l).
    { intros t x Ht Hx. apply (Hwf (Node off tag attrs (Some l))); [now left|]. apply InChild with (c := t); auto. }
    specialize (IH Hwf').
    destruct (parse_step _ _ _ _ _ _ _ _ _ _ _ _ Hlt H) as (fuel' & _ & H'). clear H. cbn [app read_abbreviation bind d_tag d_attrs d_children] in H'.
    rewrite <- app_assoc in H'. cbn [app] in H'.
    destruct tag.
    + ib H' u Eu. ib H' x Ex. destruct x as [s' cur'].
      apply (proj2 skip_stored _ _ Hs) in Ex; [|lia]. cbn [skip_children] in Ex. destruct (Z.leb_spec (cur + 1) cur); [lia|].
      replace (cur + 1 - 1)%Z with cur in Ex by lia.
      assert (s' = rest /\ cur' = cur).
      { destruct rest as [|[o' i'] rest]; cbn [skip_children] in Ex; (destruct (Z.leb_spec cur cur); [|lia]); now injection Ex as <- <-. }
      destruct H0 as [-> ->]. exists fuel', fns, addrs. split; auto. now apply adds_function.
    + ib H' x Ex. destruct x as [[name ra] [[file line] column]]. ib H' rs Ers. ib H' st1 Est.
      apply IH in Est; [|lia]. destruct Est as (fuel1 & fns1 & addrs1 & Est & Hadds).
      apply parse_end in Est; [|lia]. destruct Est as (fuel2 & Est). replace (cur + 1 - 1)%Z with cur in Est by lia.
      apply parse_done in Est; [|lia]. subst st1. exists fuel', fns1, addrs1. split; [exact H'|].
      apply (adds_call us b idepth (Node off TInlined attrs (Some l)) (InlFn name file line column) rs); auto.
      * eapply call_ok; eauto.
      * apply inl_attrs_names in Ex. destruct Ex as [_ Era]. apply (ranges_declared m b attrs ra rs); auto.
        apply (Hwf (Node off TInlined attrs (Some l)) (Node off TInlined attrs (Some l))); [now left|apply InHere|reflexivity].
    + ib H' u Eu. apply IH in H'; [|lia]. destruct H' as (fuel1 & fns1 & addrs1 & H' & Hadds).
      apply parse_end in H'; [|lia]. destruct H' as (fuel2 & H'). replace (cur + 1 - 1)%Z with cur in H' by lia.
      exists fuel2, fns1, addrs1. split; auto. apply adds_below; auto.
  - intros _ fuel rest cur fns addrs depth idepth st Hlt H. exists fuel, fns, addrs. split; auto.
    apply adds_nothing. intros x d. apply lcall_at_nil.
  - intros t l s1 s2 H1 IH1 H2 IH2 Hwf fuel rest cur fns addrs depth idepth st Hlt H. rewrite <- app_assoc in H.
    apply IH1 in H; auto.
    + destruct H as (fuel1 & fns1 & addrs1 & H & A1). apply IH2 in H; auto.
      * destruct H as (fuel2 & fns2 & addrs2 & H & A2). exists fuel2, fns2, addrs2. split; auto.
        apply (adds_app us b idepth [t] l fns addrs fns1 addrs1); auto.
      * intros t' x Ht. apply Hwf. now right.
    + intros t' x [<-|[]]. apply Hwf. now left.
Qed.

(** ** Finding calls *)
Lemma call_at_zero : forall x t, call_at 0 x t -> calls x t.
Proof. intros x t H. inversion H; subst; auto. lia. Qed.
Lemma call_at_last : forall d x t, call_at (d + 1) x t -> exists y, call_at d y t /\ calls x y.
Proof.
  intros d x t H. remember (d + 1) as e eqn:E. revert d E. induction H as [x t H|e x y t H1 H2 IH]; intros d E; [lia|].
  assert (e = d) by lia. subst e. destruct (N.eq_dec d 0) as [->|Hd].
  - exists y. split; [now apply CallFirst|]. now apply call_at_zero.
  - destruct (IH (d - 1)) as (z & Z1 & Z2); [lia|]. exists z. split; auto. replace d with (d - 1 + 1) by lia. now apply CallNext with (y := y).
Qed.
Lemma call_at_snoc : forall d x y t, call_at d y t -> calls x y -> call_at (d + 1) x t.
Proof.
  intros d x y t H. induction H as [y t H|d y z t H1 H2 IH]; intros Hx.
  - apply CallNext with (y := y); auto. now apply CallFirst.
  - apply CallNext with (y := z); auto.
Qed.

Lemma inl_leb_total : forall a b, inl_leb a b = true \/ inl_leb b a = true.
Proof.
  intros a b. unfold inl_leb.
  destruct (N.ltb_spec (ia_depth a) (ia_depth b)), (N.ltb_spec (ia_depth b) (ia_depth a)), (N.eqb_spec (ia_depth a) (ia_depth b)),
    (N.eqb_spec (ia_depth b) (ia_depth a)), (N.leb_spec (r_begin (ia_range a)) (r_begin (ia_range b))),
    (N.leb_spec (r_begin (ia_range b)) (r_begin (ia_range a))); cbn [orb andb]; auto; lia.
Qed.
Lemma inl_leb_spec : forall a b, inl_leb a b = true <->
  ia_depth a < ia_depth b \/ (ia_depth a = ia_depth b /\ r_begin (ia_range a) <= r_begin (ia_range b)).
Proof. intros a b. unfold inl_leb. rewrite orb_true_iff, andb_true_iff, N.ltb_lt, N.eqb_eq, N.leb_le. reflexivity. Qed.
Lemma inl_leb_trans : forall a b c, inl_leb a b = true -> inl_leb b c = true -> inl_leb a c = true.
Proof. intros a b c. rewrite !inl_leb_spec. lia. Qed.

Lemma inl_cmp_eq : forall depth probe a, inl_cmp depth probe a = Eq <-> ia_depth a = depth /\ covers (ia_range a) probe.
Proof.
  intros depth probe a. unfold inl_cmp, covers.
  destruct (N.ltb_spec depth (ia_depth a)), (N.ltb_spec (ia_depth a) depth), (N.ltb_spec probe (r_begin (ia_range a))),
    (N.leb_spec (r_end (ia_range a)) probe); split; intros K; try discriminate; try lia; auto.
Qed.
Lemma inl_cmp_gt : forall depth probe a, inl_cmp depth probe a = Gt <->
  depth < ia_depth a \/ (ia_depth a = depth /\ probe < r_begin (ia_range a)).
Proof.
  intros depth probe a. unfold inl_cmp.
  destruct (N.ltb_spec depth (ia_depth a)), (N.ltb_spec (ia_depth a) depth), (N.ltb_spec probe (r_begin (ia_range a))),
    (N.leb_spec (r_end (ia_range a)) probe); split; intros K; try discriminate; try lia; auto.
Qed.
Lemma inl_cmp_lt : forall depth probe a, r_begin (ia_range a) < r_end (ia_range a) -> (inl_cmp depth probe a = Lt <->
  ia_depth a < depth \/ (ia_depth a = depth /\ r_end (ia_range a) <= probe)).
Proof.
  intros depth probe a Hne. unfold inl_cmp.
  destruct (N.ltb_spec depth (ia_depth a)), (N.ltb_spec (ia_depth a) depth), (N.ltb_spec probe (r_begin (ia_range a))),
    (N.leb_spec (r_end (ia_range a)) probe); split; intros K; try discriminate; try lia; auto.
Qed.
Definition apart (l : list inl_addr) : Prop :=
  forall a b, In a l -> In b l -> ia_depth a = ia_depth b -> ia_range a = ia_range b \/ disjoint (ia_range a) (ia_range b).
Definition nonempties (l : list inl_addr) : Prop := forall a, In a l -> r_begin (ia_range a) < r_end (ia_range a).
Lemma inl_cmp_sorted : forall depth probe l, sorted inl_leb l -> nonempties l -> apart l -> cmp_sorted (inl_cmp depth probe) l.
Proof.
  intros depth probe l Hs Hne Hap i j a b Hij Ha Hb.
  destruct (Nat.eq_dec i j) as [->|Hd]; [rewrite Ha in Hb; injection Hb as <-; auto|].
  assert (Hle : inl_leb a b = true) by (apply (StronglySorted_nth _ _ l i j a b Hs); auto; lia).
  apply inl_leb_spec in Hle. pose proof (nth_error_In _ _ Ha) as Ia. pose proof (nth_error_In _ _ Hb) as Ib.
  pose proof (Hne a Ia) as Na. pose proof (Hne b Ib) as Nb.
  rewrite !inl_cmp_gt, !inl_cmp_lt by auto. split.
  - intros [H|[H1 H2]]; [left; lia|]. destruct Hle as [Hle|[Hle Hb']]; [left; lia|]. right. split; [lia|].
    destruct (Hap a b Ia Ib Hle) as [E|E]; [rewrite E; exact H2|].
    destruct (N.le_gt_cases (r_end (ia_range a)) (r_begin (ia_range b))) as [K|K]; [lia|].
    exfalso. apply (E (r_begin (ia_range b))); unfold covers; lia.
  - intros [H|[H1 H2]]; [left; lia|]. destruct Hle as [Hle|[Hle Hb']]; [left; lia|]. right. lia.
Qed.
Lemma skipn_twice : forall A (l : list A) n k, skipn k (skipn n l) = skipn (n + k) l.
Proof.
  intros A. induction l as [|a l IH]; intros [|n] k; cbn [skipn plus]; auto; now rewrite ?skipn_nil.
Qed.
Lemma sorted_skipn : forall A (leb : A -> A -> bool) n l, sorted leb l -> sorted leb (skipn n l).
Proof.
  intros A leb n l H. unfold sorted in *. revert n. induction H as [|a l H IH Hf]; intros [|n]; cbn [skipn]; try constructor; auto.
Qed.

(** The calls of [x] and where they are *)
Definition calls_index (us : units) (b : body) (x : tree) (fns : list inl_fn) (l : list inl_addr) : Prop :=
  (forall a, In a l -> exists y f, call_at (ia_depth a) y x /\ declares b (t_attrs y) (ia_range a) /\
     r_begin (ia_range a) < r_end (ia_range a) /\ nnth (ia_fn a) fns = Some f /\ call_of us name_limit b y f) /\
  (forall y d r, call_at d y x -> declares b (t_attrs y) r -> r_begin r < r_end r -> exists a, In a l /\ ia_depth a = d /\ ia_range a = r).
Lemma index_apart : forall us b x fns l, calls_wf b x -> calls_index us b x fns l -> apart l.
Proof.
  intros us b x fns l (W1 & W2 & _) [H1 _] a1 a2 I1 I2 E.
  destruct (H1 a1 I1) as (y1 & _ & C1 & D1 & N1 & _), (H1 a2 I2) as (y2 & _ & C2 & D2 & N2 & _). rewrite <- E in C2.
  set (p := N.max (r_begin (ia_range a1)) (r_begin (ia_range a2))).
  destruct (N.lt_ge_cases p (r_end (ia_range a1))) as [K1|K1], (N.lt_ge_cases p (r_end (ia_range a2))) as [K2|K2];
    try (right; intros a A1 A2; unfold covers in A1, A2; lia).
  assert (y1 = y2).
  { apply (W1 (ia_depth a1) y1 y2 p); auto; [exists (ia_range a1)|exists (ia_range a2)]; split; auto; unfold covers; lia. }
  subst y2. apply (W2 (ia_depth a1) y1); auto.
Qed.
Lemma find_loop_ok : forall us b x fns all probe pick, calls_wf b x -> calls_index us b x fns all -> sorted inl_leb all ->
  forall fuel l d y, (length l < fuel)%nat -> (exists n, l = skipn n all) -> (forall a, In a all -> d <= ia_depth a -> In a l) ->
    (forall z, calls z y -> call_at d z x) -> (forall z, call_at d z x -> entry_covers b z probe -> calls z y) ->
    exists r chain, find_inlined_loop fuel pick fns l probe d = Ok r /\ active b probe y chain /\ Forall2 (call_of us name_limit b) chain r.
Proof.
  intros us b x fns all probe pick Hwf Hi Hs. induction fuel as [|fuel IH]; intros l d y Hf [n ->] Hin Hc1 Hc2; [lia|].
  cbn [find_inlined_loop]. pose proof Hi as [I1 I2]. pose proof Hwf as (W1 & W2 & W3).
  assert (Hsub : forall a, In a (skipn n all) -> In a all).
  { intros a Ha. rewrite <- (firstn_skipn n all). apply in_app_iff. now right. }
  assert (Hcmp : cmp_sorted (inl_cmp d probe) (skipn n all)).
  { apply inl_cmp_sorted.
    - now apply sorted_skipn.
    - intros a Ha. destruct (I1 a (Hsub a Ha)) as (_ & _ & _ & _ & K & _). exact K.
    - intros a1 a2 A1 A2. apply (index_apart us b x fns all); auto. }
  pose proof (bsearch_spec _ pick (skipn n all) (inl_cmp d probe) Hcmp) as B.
  destruct (binary_search_by pick (skipn n all) (inl_cmp d probe)) as [i|k].
  - destruct B as (a & Ha & Ea). apply inl_cmp_eq in Ea. destruct Ea as [Ed Ec]. rewrite Ha. cbn [unwrap bind].
    pose proof (nth_error_In _ _ Ha) as Ia. destruct (I1 a (Hsub a Ia)) as (z & f & Z1 & Z2 & Z3 & Z4 & Z5). rewrite Ed in Z1.
    rewrite Z4. cbn [unwrap bind].
    assert (Zc : entry_covers b z probe) by (exists (ia_range a); split; auto).
    destruct (IH (skipn (S i) (skipn n all)) (d + 1) z) as (r & chain & R1 & R2 & R3).
    + pose proof (nth_error_lt _ _ _ _ Ha). rewrite skipn_length. lia.
    + exists (n + S i)%nat. apply skipn_twice.
    + intros a' Ha' Hd'. assert (Hl : In a' (skipn n all)) by (apply Hin; auto; lia).
      apply In_nth_error in Hl. destruct Hl as [j Hj]. destruct (Nat.lt_ge_cases i j) as [Hij|Hij].
      * apply nth_error_In with (n := (j - S i)%nat). rewrite skipn_nth. rewrite <- Hj. f_equal. lia.
      * exfalso. destruct (Nat.eq_dec i j) as [<-|Hne]; [rewrite Ha in Hj; injection Hj as <-; lia|].
        assert (Hle : inl_leb a' a = true).
        { apply (StronglySorted_nth _ (fun a b => inl_leb a b = true) (skipn n all) j i a' a); auto; [now apply sorted_skipn|lia]. }
        apply inl_leb_spec in Hle. lia.
    + intros w Hw. now apply call_at_snoc with (y := z).
    + intros w Hw Hcw. apply call_at_last in Hw. destruct Hw as (z' & K1 & K2).
      assert (z' = z); [|now subst z'].
      apply (W1 d z' z probe); auto. apply (W3 d z' w probe); auto.
    + rewrite R1. cbn [bind]. exists (f :: r), (z :: chain). split; auto. split; [|now constructor].
      apply ActiveCall; auto.
  - exists [], []. split; auto. split; [|constructor]. apply ActiveNone. intros z Hz (r & R1 & R2).
    destruct (I2 z d r (Hc1 z Hz) R1) as (a & A1 & A2 & A3); [unfold covers in R2; lia|].
    assert (Hl : In a (skipn n all)) by (apply Hin; auto; lia). apply In_nth_error in Hl. destruct Hl as [j Hj].
    assert (Ea : inl_cmp d probe a = Eq) by (apply inl_cmp_eq; split; auto; now rewrite A3).
    destruct B as (_ & B1 & B2). destruct (Nat.lt_ge_cases j k) as [H|H]; [specialize (B1 _ _ Hj H)|specialize (B2 _ _ Hj H)]; congruence.
Qed.

(** ** C39, inlined calls *)
Lemma parse_index : forall m srt pick us b t x i, sorter_ok srt -> units_ordered us -> headers_wf us ->
  unit_tree b t -> in_tree x t -> inl_wf b (t_children x) ->
  inlined_parse m srt pick us b (t_off x) = Ok i -> calls_index us b x (i_fns i) (i_addrs i) /\ sorted inl_leb (i_addrs i).
Proof.
  intros m srt pick us b t x i Hsrt Ho Hh Ht Hx Hwf H. unfold inlined_parse in H.
  destruct (unit_tree_at b t x Ht Hx) as (sx & post & Hst & Hat). rewrite Hat in H. cbn [g of_option bind] in H.
  assert (Hadds : exists fns addrs, adds us b 0 (t_children x) [] [] fns addrs /\ i = Inlined (rev fns) (srt _ inl_leb (rev addrs))).
  { inversion Hst; subst.
    - cbn [app read_abbreviation bind unwrap d_attrs d_children] in H. ib H u Eu. ib H y Ey. destruct y as [[[s' c'] fns] addrs].
      injection H as <-. apply parse_done in Ey; [|lia]. injection Ey as -> -> -> ->. exists [], []. split; auto.
      apply adds_nothing. intros z d. apply lcall_at_nil.
    - cbn [app read_abbreviation bind unwrap d_attrs d_children] in H. ib H u Eu. ib H y Ey. destruct y as [[[s' c'] fns] addrs].
      injection H as <-. rewrite <- app_assoc in Ey. apply (proj2 (reads_ok m pick us b Ho Hh) _ _ H0) in Ey; auto; [|lia].
      destruct Ey as (fuel' & fns' & addrs' & E & A). cbn [app] in E. apply parse_end in E; [|lia]. destruct E as (fuel2 & E).
      apply parse_done in E; [|lia]. injection E as -> -> -> ->. exists fns', addrs'. split; auto. }
  destruct Hadds as (fns & addrs & [_ (na & Ena & S1 & C1)] & ->). rewrite app_nil_r in Ena. subst na. cbn [i_fns i_addrs].
  destruct (Hsrt _ inl_leb (rev addrs) inl_leb_total inl_leb_trans) as [Hp Hs]. split; auto. split.
  - intros a Ha. apply (Permutation_in _ (Permutation_sym Hp)) in Ha. apply in_rev in Ha.
    destruct (S1 a Ha) as (y & d & f & K1 & K2 & K3 & K4 & K5 & K6). exists y, f. apply lcall_at_iff in K1.
    replace (ia_depth a) with d by lia. auto.
  - intros y d r Hy Hd Hr. apply lcall_at_iff in Hy. destruct (C1 y d r Hy Hd Hr) as (a & f & K1 & K2 & K3 & _). exists a.
    split; [|split; [lia|auto]]. apply (Permutation_in _ Hp). now apply -> in_rev.
Qed.
Theorem C39_inlined : forall m srt pick us u b t x f i probe, sorter_ok srt -> units_ordered us -> headers_wf us ->
  unit_body u b -> unit_tree b t -> in_tree x t -> inl_wf b (t_children x) -> calls_wf b x -> f_off f = t_off x ->
  inlined_parse m srt pick us b (t_off x) = Ok i ->
  exists chain l, find_inlined_functions m srt pick us u f probe = Ok l /\ active b probe x chain /\
    Forall2 (call_of us name_limit b) chain l.
Proof.
  intros m srt pick us u b t x f i probe Hsrt Ho Hh Hu Ht Hx Hiw Hcw Ef Hi.
  destruct (parse_index m srt pick us b t x i Hsrt Ho Hh Ht Hx Hiw Hi) as [Hidx Hs].
  destruct (find_loop_ok us b x (i_fns i) (i_addrs i) probe pick Hcw Hidx Hs (S (length (i_addrs i))) (i_addrs i) 0 x) as (r & chain & R1 & R2 & R3).
  - lia.
  - now exists 0%nat.
  - auto.
  - intros z Hz. now apply CallFirst.
  - intros z Hz _. now apply call_at_zero.
  - exists chain, r. split; [|split; auto]. unfold find_inlined_functions. apply unit_ref_body in Hu. rewrite Hu. cbn [bind].
    rewrite Ef, Hi. exact R1.
Qed.
(** The chain is unique: at most one. *)
Lemma active_unique : forall b probe x l1, active b probe x l1 ->
  (forall d y z, call_at d y x -> call_at d z x -> entry_covers b y probe -> entry_covers b z probe -> y = z) ->
  forall l2, active b probe x l2 -> l1 = l2.
Proof.
  intros b probe x l1 H. induction H as [t Hn|t x l H1 H2 H IH]; intros Hu l2 H'; inversion H'; subst; auto.
  - exfalso. eapply Hn; eauto.
  - exfalso. eapply H0; eauto.
  - assert (x0 = x) by (apply (Hu 0); auto; now apply CallFirst). subst x0. f_equal. apply IH; auto.
    intros d y z Hy Hz. apply (Hu (d + 1)); now apply CallNext with (y := x).
Qed.
Print Assumptions C39_inlined.
