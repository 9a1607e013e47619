(** * Proofs about Breakpad lookups *)

From Verif Require Import Base Util UtilProofs ByName Amap Text Sym Frames Nom Breakpad.
Local Open Scope N_scope.

(** ** Covering ranges *)
Section Covering.
  Context {A : Type} (m : mode) (start size : A -> N).

  (** [e] contains [addr]; something without a size contains its start. *)
  Definition contains (addr : N) (e : A) : Prop :=
    start e <= addr < start e + size e \/ (start e = addr /\ size e = 0).
  (** No element starting at or before [addr] starts after [e]. *)
  Definition closest (l : list A) (addr : N) (e : A) : Prop :=
    In e l /\ start e <= addr /\ forall e', In e' l -> start e' <= addr -> start e' <= start e.
  Definition in_space (l : list A) : Prop := Forall (fun e => start e + size e < 2 ^ 64) l.
  Definition lex_sorted (l : list A) : Prop :=
    StronglySorted (fun a b => start a < start b \/ (start a = start b /\ size a <= size b)) l.

  Lemma lex_sorted_start : forall l, lex_sorted l -> StronglySorted (fun a b => start a <= start b) l.
  Proof.
    induction 1 as [|x l Hs IH HF]; constructor; auto.
    eapply Forall_impl; [|exact HF]. cbn. lia.
  Qed.

  (** Whatever is found contains the address. *)
  Lemma first_covering_sound : forall addr l e,
    first_covering m start size addr l = Ok (Some e) -> In e l /\ contains addr e.
  Proof.
    intros addr l e. induction l as [|x l IH]; cbn [first_covering]; [discriminate|].
    destruct (N.ltb_spec addr (start x)); [discriminate|]. intros Hh. ib Hh hit E.
    destruct hit; [|apply IH in Hh; destruct Hh; split; [now right|auto]]. injection Hh as <-.
    split; [now left|]. unfold contains.
    destruct ((start x =? addr) && (size x =? 0)) eqn:Ez.
    - apply andb_prop in Ez. destruct Ez as [E1 E2]. apply N.eqb_eq in E1, E2. auto.
    - destruct (N.leb_spec (start x) addr); [|discriminate]. ib E e0 E0. injection E as E.
      apply N.ltb_lt in E. left. split; [auto|]. unfold add64, uadd, wrap in E0.
      destruct (start x + size x <? two64) eqn:E1; [injection E0 as <-; auto|].
      destruct m; [discriminate|]. injection E0 as <-.
      pose proof (N.mod_le (start x + size x) two64 ltac:(discriminate)). lia.
  Qed.

  Lemma first_covering_spec : forall addr l, in_space l ->
    StronglySorted (fun a b => start a <= start b) l ->
    exists r, first_covering m start size addr l = Ok r /\
      (r = None -> forall e, In e l -> ~ contains addr e).
  Proof.
    intros addr l Hf Hs. induction Hs as [|x l Hs IH HF]; cbn [first_covering].
    - exists None. split; auto.
    - inversion Hf as [|? ? Hx Hf']; subst. destruct (IH Hf') as (r & E & Hr).
      destruct (N.ltb_spec addr (start x)) as [Hlt|Hle].
      + exists None. split; auto. intros _ e [<-|Hin] Hc; unfold contains in Hc; [lia|].
        rewrite Forall_forall in HF. apply HF in Hin. lia.
      + destruct ((start x =? addr) && (size x =? 0)) eqn:Ez; cbn [bind].
        * exists (Some x). split; auto. discriminate.
        * destruct (N.leb_spec (start x) addr); [|lia]. unfold add64.
          rewrite uadd_small by (exact Hx). cbn [bind].
          destruct (N.ltb_spec addr (start x + size x)) as [Hin|Hout].
          -- exists (Some x). split; auto. discriminate.
          -- exists r. split; auto. intros Hn e [<-|Hin]; [|now apply Hr].
             unfold contains. intros [Hc|[H1 H2]]; [lia|].
             rewrite (proj2 (N.eqb_eq _ _) H1), (proj2 (N.eqb_eq _ _) H2) in Ez. discriminate.
  Qed.

  Lemma in_skipn : forall (l : list A) n e, In e (skipn n l) -> In e l.
  Proof.
    intros l n e H. rewrite <- (firstn_skipn n l). apply in_or_app. now right.
  Qed.
  Lemma skipn_nth : forall (l : list A) n i, nth_error (skipn n l) i = nth_error l (n + i).
  Proof.
    induction l as [|x l IH]; intros [|n] i; cbn [skipn]; auto.
    - destruct i; reflexivity.
    - rewrite IH. reflexivity.
  Qed.
  Lemma skipn_sorted : forall (R : A -> A -> Prop) l n, StronglySorted R l -> StronglySorted R (skipn n l).
  Proof.
    intros R l. induction l as [|x l IH]; intros [|n] H; cbn [skipn]; auto.
    apply IH. now inversion H.
  Qed.

  Lemma find_covering_sound : forall addr l e,
    find_covering m start size addr l = Ok (Some e) -> In e l /\ contains addr e.
  Proof.
    intros addr l e H. unfold find_covering in H.
    destruct (find_match_or_lower_bound_by_key l addr start) as [i|]; [|discriminate].
    apply first_covering_sound in H. destruct H as [H1 H2]. split; auto. now apply in_skipn in H1.
  Qed.

  Lemma find_covering_spec : forall addr l, in_space l -> lex_sorted l ->
    exists r, find_covering m start size addr l = Ok r /\
      (forall e, r = Some e -> closest l addr e /\ contains addr e) /\
      (r = None -> forall e, closest l addr e -> ~ contains addr e).
  Proof.
    intros addr l Hf Hs. pose proof (lex_sorted_start _ Hs) as Hs'.
    pose proof (StronglySorted_ksorted _ _ _ Hs') as Hk.
    unfold find_covering.
    destruct (flb_cases start l addr Hk) as [[E H]|Hcase].
    - rewrite E. exists None. split; auto. split; [discriminate|]. intros _ e (Hin & Hle & _) _.
      apply H in Hin. lia.
    - assert (Hi : exists i e, find_match_or_lower_bound_by_key l addr start = Some i /\
        nth_error l i = Some e /\ start e <= addr /\ (forall y, In y l -> start y <= addr -> start y <= start e) /\
        (first_of_run start l i \/ (start e < addr /\ last_of_run start l i))).
      { destruct Hcase as [(i & e & E & Hn & Hx & Hr)|(i & e & E & Hn & Hx & Hmax & Hr)].
        - exists i, e. repeat split; auto; try lia.
        - exists i, e. repeat split; auto; try lia. destruct Hr as [[_ Hr]|[_ Hr]]; auto. }
      clear Hcase. destruct Hi as (i & e & E & Hn & Hle & Hmax & Hrun). rewrite E.
      destruct (first_covering_spec addr (skipn i l)) as (r & Er & Hr).
      { unfold in_space in *. rewrite Forall_forall in *. intros x Hx. apply Hf. now apply in_skipn in Hx. }
      { now apply skipn_sorted. }
      exists r. split; auto. split.
      + intros e0 ->. apply first_covering_sound in Er. destruct Er as [Hin Hc]. split; auto.
        pose proof (in_skipn _ _ _ Hin) as Hin'. unfold contains in Hc.
        assert (Hle0 : start e0 <= addr) by lia.
        split; [auto|]. split; auto. intros e' He' Hle'. specialize (Hmax e' He' Hle').
        assert (start e <= start e0); [|lia].
        apply In_nth_error in Hin. destruct Hin as [j Hj]. rewrite skipn_nth in Hj.
        apply (Hk i (i + j)%nat); auto. lia.
      + intros Hrn e0 (Hin & Hle0 & Hmax0) Hc. specialize (Hr Hrn).
        assert (Hse : start e0 = start e).
        { pose proof (Hmax e0 Hin Hle0). pose proof (Hmax0 e (nth_error_In _ _ Hn) Hle). lia. }
        apply In_nth_error in Hin. destruct Hin as [j Hj].
        destruct (le_lt_dec i j) as [Hij|Hij].
        * apply (Hr e0); auto. apply (nth_error_In _ (j - i)). rewrite skipn_nth.
          replace (i + (j - i))%nat with j by lia. auto.
        * destruct Hrun as [Hfirst|[Hlt Hlast]].
          -- unfold first_of_run in Hfirst. eapply Hfirst; eauto.
          -- apply (Hr e).
             { apply (nth_error_In _ 0). rewrite skipn_nth. rewrite Nat.add_0_r. auto. }
             pose proof (StronglySorted_nth _ _ l j i e0 e Hs Hij Hj Hn) as Hord. cbn in Hord.
             unfold contains in *. left. lia.
  Qed.

  (** Nothing overlaps: whatever contains the address is found. *)
  Definition disjoint (l : list A) : Prop :=
    forall i j a b addr, nth_error l i = Some a -> nth_error l j = Some b ->
      contains addr a -> contains addr b -> i = j.
  Lemma find_covering_disjoint : forall addr l e, in_space l -> lex_sorted l -> disjoint l ->
    In e l -> contains addr e -> find_covering m start size addr l = Ok (Some e).
  Proof.
    intros addr l e Hf Hs Hd Hin Hc.
    destruct (find_covering_spec addr l Hf Hs) as (r & E & Hsome & Hnone).
    assert (Hcl : closest l addr e).
    { split; auto. assert (Hle : start e <= addr) by (unfold contains in Hc; lia). split; auto.
      intros e' Hin' Hle'. destruct (N.le_gt_cases (start e') (start e)) as [|Hgt]; auto. exfalso.
      apply In_nth_error in Hin, Hin'. destruct Hin as [i Hi]. destruct Hin' as [j Hj].
      assert (i = j).
      { apply (Hd i j e e' (start e')); auto; unfold contains in *; lia. }
      subst j. assert (e = e') by congruence. subst e'. lia. }
    destruct r as [e'|]; [|exfalso; now apply (Hnone eq_refl e)].
    destruct (Hsome e' eq_refl) as [[Hin' _] Hc'].
    apply In_nth_error in Hin, Hin'. destruct Hin as [i Hi]. destruct Hin' as [j Hj].
    assert (i = j) by (apply (Hd i j e e' addr); auto). subst j. rewrite E. congruence.
  Qed.
End Covering.

(** ** Inlinees *)
Definition inl_sorted (l : list inlinee) : Prop :=
  StronglySorted (fun a b => in_depth a < in_depth b \/ (in_depth a = in_depth b /\ in_addr a <= in_addr b)) l.
(** The record covers the address at the depth. *)
Definition inl_covers (depth addr : N) (i : inlinee) : Prop :=
  in_depth i = depth /\ in_addr i <= addr < in_addr i + in_size i.
(** No record starts inside of another one of the same depth. *)
Definition inl_disjoint (l : list inlinee) : Prop :=
  forall i j a b, nth_error l i = Some a -> nth_error l j = Some b ->
    in_depth a = in_depth b -> in_addr a <= in_addr b < in_addr a + in_size a -> i = j.

Lemma inl_sorted_nth : forall l i j a b, inl_sorted l -> (i <= j)%nat ->
  nth_error l i = Some a -> nth_error l j = Some b ->
  in_depth a < in_depth b \/ (in_depth a = in_depth b /\ in_addr a <= in_addr b).
Proof.
  intros l i j a b Hs Hij Ha Hb. destruct (Nat.eq_dec i j) as [->|].
  - assert (a = b) by congruence. subst. right. lia.
  - apply (StronglySorted_nth _ _ l i j a b Hs); auto. lia.
Qed.
Lemma key_lt_spec : forall d a i, key_lt d a i = true <->
  in_depth i < d \/ (in_depth i = d /\ in_addr i < a).
Proof.
  intros. unfold key_lt. rewrite orb_true_iff, andb_true_iff, !N.ltb_lt, N.eqb_eq. tauto.
Qed.
Lemma key_le_spec : forall d a i, key_le d a i = true <->
  in_depth i < d \/ (in_depth i = d /\ in_addr i <= a).
Proof.
  intros. unfold key_le. rewrite orb_true_iff, andb_true_iff, N.ltb_lt, N.leb_le, N.eqb_eq. tauto.
Qed.
Lemma key_lt_part : forall l d a, inl_sorted l -> partitioned (key_lt d a) l.
Proof.
  intros l d a Hs i j x y Hij Hx Hy H. rewrite key_lt_spec in *.
  pose proof (inl_sorted_nth l i j x y Hs Hij Hx Hy). lia.
Qed.
Lemma key_le_part : forall l d a, inl_sorted l -> partitioned (key_le d a) l.
Proof.
  intros l d a Hs i j x y Hij Hx Hy H. rewrite key_le_spec in *.
  pose proof (inl_sorted_nth l i j x y Hs Hij Hx Hy). lia.
Qed.

(** The candidate: a record with the key searched for, or else the last one
    with a smaller key. *)
Lemma search_candidate : forall pick l depth addr, inl_sorted l ->
  (exists i x, binary_search pick l depth addr = inl i /\ nth_error l i = Some x /\
     in_depth x = depth /\ in_addr x = addr) \/
  (exists i, binary_search pick l depth addr = inr i /\ (i <= length l)%nat /\
     (forall j x, nth_error l j = Some x -> (j < i)%nat -> key_lt depth addr x = true) /\
     (forall j x, nth_error l j = Some x -> key_le depth addr x = true -> (j < i)%nat)).
Proof.
  intros pick l depth addr Hs. unfold binary_search.
  pose proof (key_lt_part l depth addr Hs) as Hlt. pose proof (key_le_part l depth addr Hs) as Hle.
  rewrite (partition_point_cnt _ _ _ Hlt), (partition_point_cnt _ _ _ Hle).
  pose proof (partitioned_cnt _ _ _ Hlt) as Clt. pose proof (partitioned_cnt _ _ _ Hle) as Cle.
  pose proof (cnt_lt_le _ (key_lt depth addr) l) as Llt. pose proof (cnt_lt_le _ (key_le depth addr) l) as Lle.
  set (lo := cnt_lt (key_lt depth addr) l) in *. set (hi := cnt_lt (key_le depth addr) l) in *.
  destruct (Nat.ltb_spec lo hi) as [H|H].
  - left. set (k := N.to_nat (pick depth addr mod N.of_nat (hi - lo))).
    assert (Hk : (k < hi - lo)%nat).
    { assert (Hm : pick depth addr mod N.of_nat (hi - lo) < N.of_nat (hi - lo)) by (apply N.mod_lt; lia).
      subst k. lia. }
    destruct (nth_error_lt_some _ l (lo + k)) as [x Hx]; [lia|]. exists (lo + k)%nat, x.
    split; auto. split; auto.
    specialize (Clt _ _ Hx). specialize (Cle _ _ Hx).
    destruct (Nat.ltb_spec (lo + k) lo); [lia|]. destruct (Nat.ltb_spec (lo + k) hi); [|lia].
    rewrite key_le_spec in Cle. assert (~ (in_depth x < depth \/ (in_depth x = depth /\ in_addr x < addr))).
    { rewrite <- key_lt_spec. congruence. }
    lia.
  - right. exists lo. split; auto. split; auto. split.
    + intros j x Hj Hjl. rewrite (Clt _ _ Hj). now apply Nat.ltb_lt.
    + intros j x Hj Hx. rewrite (Cle _ _ Hj) in Hx. apply Nat.ltb_lt in Hx. lia.
Qed.

Lemma at_depth_sound : forall pick f depth addr i, inl_sorted (fn_inlinees f) ->
  find_inlinee_at_depth pick f depth addr = Some i ->
  In i (fn_inlinees f) /\ inl_covers depth addr i.
Proof.
  intros pick f depth addr i Hs H. unfold find_inlinee_at_depth in H.
  destruct (search_candidate pick (fn_inlinees f) depth addr Hs)
    as [(n & x & E & Hx & Hd & Ha)|(n & E & Hn & Hlt & Hle)]; rewrite E in H.
  - rewrite Hx in H. destruct (N.eqb_spec (in_depth x) depth); [cbn [negb] in H|lia].
    unfold chk_add in H. destruct (in_addr x + in_size x <? two64); [|discriminate].
    destruct (N.ltb_spec addr (in_addr x + in_size x)); [|discriminate]. injection H as <-.
    split; [now apply nth_error_In in Hx|]. unfold inl_covers. lia.
  - destruct n as [|n]; [discriminate|].
    destruct (nth_error (fn_inlinees f) n) as [x|] eqn:Hx; [|discriminate].
    assert (Hk : key_lt depth addr x = true) by (apply (Hlt n x); auto).
    rewrite key_lt_spec in Hk.
    destruct (N.eqb_spec (in_depth x) depth); cbn [negb] in H; [|discriminate].
    unfold chk_add in H. destruct (in_addr x + in_size x <? two64); [|discriminate].
    destruct (N.ltb_spec addr (in_addr x + in_size x)); [|discriminate]. injection H as <-.
    split; [now apply nth_error_In in Hx|]. unfold inl_covers. lia.
Qed.
Lemma at_depth_complete : forall pick f depth addr i, inl_sorted (fn_inlinees f) ->
  Forall (fun i => in_addr i + in_size i < 2 ^ 64) (fn_inlinees f) ->
  inl_disjoint (fn_inlinees f) ->
  In i (fn_inlinees f) -> inl_covers depth addr i ->
  find_inlinee_at_depth pick f depth addr = Some i.
Proof.
  intros pick f depth addr i Hs Hf Hd Hin (Hdep & Hc). unfold find_inlinee_at_depth.
  rewrite Forall_forall in Hf. pose proof (Hf i Hin) as Hfi.
  apply In_nth_error in Hin. destruct Hin as [p Hp].
  assert (Hfin : negb (in_depth i =? depth) = false /\ chk_add two64 (in_addr i) (in_size i) = Some (in_addr i + in_size i)
     /\ (addr <? in_addr i + in_size i) = true).
  { destruct (N.eqb_spec (in_depth i) depth); [|lia]. split; auto. unfold chk_add, two64.
    destruct (N.ltb_spec (in_addr i + in_size i) (2 ^ 64)); [|lia]. split; auto. apply N.ltb_lt. lia. }
  destruct Hfin as (F1 & F2 & F3).
  destruct (search_candidate pick (fn_inlinees f) depth addr Hs)
    as [(n & x & E & Hx & Hxd & Hxa)|(n & E & Hn & Hlt & Hle)]; rewrite E.
  - assert (p = n) by (apply (Hd p n i x); auto; lia). subst n.
    assert (x = i) by congruence. subst x. now rewrite Hx, F1, F2, F3.
  - assert (Hpn : (p < n)%nat) by (apply (Hle p i Hp), key_le_spec; lia).
    destruct n as [|n]; [lia|].
    destruct (nth_error_lt_some _ (fn_inlinees f) n) as [x Hx]; [lia|].
    assert (Hk : key_lt depth addr x = true) by (apply (Hlt n x); auto).
    rewrite key_lt_spec in Hk.
    pose proof (inl_sorted_nth _ p n i x Hs ltac:(lia) Hp Hx) as Hord.
    assert (p = n) by (apply (Hd p n i x); auto; lia). subst n.
    assert (x = i) by congruence. subst x. now rewrite Hx, F1, F2, F3.
Qed.

(** The inlinees found are consecutive from depth zero, and the next depth
    has none. *)
Lemma from_depth : forall pick f addr fuel d l,
  find_inlinees_from fuel pick f d addr = Ok l ->
  (forall k i, nth_error l k = Some i -> find_inlinee_at_depth pick f ((d + N.of_nat k) mod two32) addr = Some i) /\
  find_inlinee_at_depth pick f ((d + nlen l) mod two32) addr = None.
Proof.
  intros pick f addr. induction fuel as [|fuel IH]; intros d l H; cbn [find_inlinees_from] in H; [discriminate|].
  destruct (find_inlinee_at_depth pick f (d mod two32) addr) as [i|] eqn:E.
  - ib H l' E'. injection H as <-. apply IH in E'. destruct E' as [H1 H2]. split.
    + intros [|k] x Hx; cbn in Hx.
      * injection Hx as <-. now rewrite N.add_0_r.
      * apply H1 in Hx. rewrite <- Hx. f_equal. f_equal. lia.
    + rewrite nlen_cons. replace (d + (nlen l' + 1)) with (d + 1 + nlen l') by lia. auto.
  - injection H as <-. split; [intros [|k] x Hx; discriminate|]. now rewrite nlen_nil, N.add_0_r.
Qed.
Lemma inlinees_terminate : forall pick f addr, inl_sorted (fn_inlinees f) ->
  nlen (fn_inlinees f) < two32 ->
  exists l, find_inlinees pick f addr = Ok l.
Proof.
  intros pick f addr Hs Hlen.
  assert (Haux : forall fuel d seen, (length (fn_inlinees f) < fuel + length seen)%nat ->
    N.of_nat (length seen) = d -> NoDup seen -> incl seen (map in_depth (fn_inlinees f)) ->
    (forall x, In x seen -> x < d) ->
    exists l, find_inlinees_from fuel pick f d addr = Ok l).
  { induction fuel as [|fuel IH]; intros d seen Hf Hd Hnd Hincl Hbound.
    - exfalso. pose proof (NoDup_incl_length Hnd Hincl) as Hle. rewrite map_length in Hle. lia.
    - cbn [find_inlinees_from].
      assert (Hdl : d <= nlen (fn_inlinees f)).
      { pose proof (NoDup_incl_length Hnd Hincl) as Hle. rewrite map_length in Hle. unfold nlen. lia. }
      rewrite (N.mod_small d) by lia.
      destruct (find_inlinee_at_depth pick f d addr) as [i|] eqn:E; [|now exists []].
      apply at_depth_sound in E; auto. destruct E as (Hin & Hdep & _).
      destruct (IH (d + 1) (d :: seen)) as [l ->].
      + cbn [length]. lia.
      + cbn [length]. lia.
      + constructor; auto. intros Hc. apply Hbound in Hc. lia.
      + intros x [<-|Hx]; [|auto]. apply in_map_iff. exists i. auto.
      + intros x [<-|Hx]; [lia|]. apply Hbound in Hx. lia.
      + eexists. reflexivity. }
  unfold find_inlinees. apply (Haux _ 0 []); cbn; try lia; try constructor; try easy.
Qed.

(** ** Frames *)
Lemma add_inlinees_spec : forall sf stack names cis,
  Forall2 (fun i n => find_inlinee_name sf (in_origin i) = Ok n) stack names ->
  Forall2 (fun i c => location sf (in_file i) (in_line i) = Ok c) stack cis ->
  forall li inl x loc,
  add_inlinees sf stack li (inl ++ [InlinedFn x (Some loc)])
  = Ok (li, inl ++ [InlinedFn x (Some (match cis with [] => loc | c :: _ => c end))]
        ++ shift names cis loc).
Proof.
  intros sf stack names cis Hn. revert cis.
  induction Hn as [|i n stack names Hi Hn IH]; intros cis Hc li inl x loc.
  - inversion Hc; subst. reflexivity.
  - inversion Hc as [|? c ? cs Hq Hc']; subst. cbn [add_inlinees]. rewrite Hi. cbn [bind].
    rewrite Hq. cbn [bind]. rewrite last_code_app. cbn [if_code_info]. rewrite set_last_app. cbn [if_name].
    rewrite IH with (cis := cs) by auto. cbn [shift]. rewrite <- app_assoc. reflexivity.
Qed.
Lemma add_inlinees_all : forall sf stack names cis,
  Forall2 (fun i n => find_inlinee_name sf (in_origin i) = Ok n) stack names ->
  Forall2 (fun i c => location sf (in_file i) (in_line i) = Ok c) stack cis ->
  forall loc,
  add_inlinees sf stack loc []
  = Ok (match cis with [] => loc | c :: _ => c end, shift names cis loc).
Proof.
  intros sf stack names cis Hn Hc loc. destruct Hn as [|i n stack names Hi Hn].
  - inversion Hc; subst. reflexivity.
  - inversion Hc as [|? c ? cs Hq Hc']; subst. cbn [add_inlinees]. rewrite Hi. cbn [bind].
    rewrite Hq. cbn [bind last_code].
    rewrite (add_inlinees_spec sf stack names cs) with (inl := []) by auto.
    cbn [app shift]. reflexivity.
Qed.

(** ** The chain of inlinees *)
Lemma chain_found : forall pick f addr is, inl_sorted (fn_inlinees f) ->
  nlen (fn_inlinees f) < two32 ->
  Forall (fun i => in_addr i + in_size i < 2 ^ 64) (fn_inlinees f) ->
  inl_disjoint (fn_inlinees f) ->
  (forall k i, nth_error is k = Some i -> In i (fn_inlinees f) /\ inl_covers (N.of_nat k) addr i) ->
  (forall i, In i (fn_inlinees f) -> ~ inl_covers (nlen is) addr i) ->
  find_inlinees pick f addr = Ok is.
Proof.
  intros pick f addr is Hs Hlen Hfit Hd Hin Hend.
  assert (Haux : forall fuel d, (length (skipn d is) < fuel)%nat -> (d <= length is)%nat ->
    (length is <= length (fn_inlinees f))%nat ->
    find_inlinees_from fuel pick f (N.of_nat d) addr = Ok (skipn d is)).
  { induction fuel as [|fuel IH]; intros d Hf Hdl Hll; [lia|]. cbn [find_inlinees_from].
    rewrite N.mod_small by (unfold nlen in *; lia).
    destruct (le_lt_dec (length is) d) as [Hge|Hlt].
    - assert (d = length is) by lia. subst d. rewrite skipn_all.
      destruct (find_inlinee_at_depth pick f (N.of_nat (length is)) addr) as [i|] eqn:E; auto.
      apply at_depth_sound in E; auto. destruct E as [H1 H2]. exfalso. eapply Hend; eauto.
    - destruct (nth_error_lt_some _ is d Hlt) as [i Hi]. destruct (Hin d i Hi) as [H1 H2].
      rewrite (at_depth_complete pick f _ addr i) by auto.
      replace (N.of_nat d + 1) with (N.of_nat (S d)) by lia.
      assert (Esk : skipn d is = i :: skipn (S d) is).
      { clear -Hi. revert d Hi. induction is as [|x is IH]; intros [|d] Hi; cbn in *; try discriminate.
        - now injection Hi as ->.
        - now apply IH. }
      rewrite Esk in *. rewrite IH; [reflexivity| |lia|auto]. cbn [length] in Hf. lia. }
  assert (Hll : (length is <= length (fn_inlinees f))%nat).
  { assert (Hnd : NoDup is).
    { apply NoDup_nth_error. intros i j Hi E.
      destruct (nth_error_lt_some _ is i Hi) as [x Hx]. rewrite Hx in E. symmetry in E.
      destruct (Hin _ _ Hx) as [_ [Hi1 _]]. destruct (Hin _ _ E) as [_ [Hj1 _]]. lia. }
    apply NoDup_incl_length; auto. intros x Hx. apply In_nth_error in Hx. destruct Hx as [k Hk].
    now apply Hin in Hk. }
  unfold find_inlinees. apply (Haux _ 0%nat); auto; [|lia]. cbn [skipn]. lia.
Qed.

(** ** Names *)
Lemma take_named_key : forall name l, take_named name l = take_key fn_name name l.
Proof. induction l as [|f l IH]; cbn; rewrite ?IH; auto. Qed.
Lemma name_leb_spec : forall a b, name_leb a b = true <->
  bcmp (fn_name a) (fn_name b) = Lt \/ (fn_name a = fn_name b /\ fn_addr a <= fn_addr b).
Proof.
  intros a b. unfold name_leb. destruct (bcmp (fn_name a) (fn_name b)) eqn:E.
  - apply bcmp_eq in E. rewrite N.leb_le. intuition congruence.
  - intuition.
  - split; [discriminate|]. intros [H|[H _]]; [discriminate|]. rewrite H, bcmp_refl in E. discriminate.
Qed.
Lemma name_leb_total : forall a b, name_leb a b = true \/ name_leb b a = true.
Proof.
  intros a b. unfold name_leb. rewrite (bcmp_antisym (fn_name a) (fn_name b)).
  destruct (bcmp (fn_name a) (fn_name b)); cbn; auto. rewrite !N.leb_le. lia.
Qed.
Lemma name_leb_trans : forall a b c, name_leb a b = true -> name_leb b c = true -> name_leb a c = true.
Proof.
  intros a b c. rewrite !name_leb_spec. intros [H1|[H1 H2]] [H3|[H3 H4]].
  - left. eapply bcmp_lt_trans; eauto.
  - left. now rewrite <- H3.
  - left. now rewrite H1.
  - right. split; [congruence|lia].
Qed.
Lemma find_addr_filter : forall sf name,
  find_addr sf name = filter (fun f => beq (fn_name f) name) (isort name_leb (sf_funcs sf)).
Proof.
  intros sf name. unfold find_addr.
  assert (Hs : name_sorted fn_name (isort name_leb (sf_funcs sf))).
  { pose proof (isort_sorted name_leb name_leb_total name_leb_trans (sf_funcs sf)) as H.
    induction H as [|x l H IH HF]; constructor; auto.
    eapply Forall_impl; [|exact HF]. intros y Hy. cbn in Hy. rewrite name_leb_spec in Hy.
    destruct Hy as [Hy|[Hy _]]; [rewrite Hy|rewrite Hy, bcmp_refl]; discriminate. }
  rewrite <- (named_filter fn_name name _ Hs). unfold named.
  destruct (find_lowest_match_by _ _); rewrite ?take_named_key; auto.
Qed.
Lemma filter_perm : forall A (p : A -> bool) l l', Permutation l l' -> Permutation (filter p l) (filter p l').
Proof.
  intros A p l l' H. induction H; cbn [filter]; auto.
  - destruct (p x); auto.
  - destruct (p x), (p y); auto. constructor.
  - etransitivity; eauto.
Qed.
Lemma find_addr_spec : forall sf name,
  Permutation (find_addr sf name) (filter (fun f => beq (fn_name f) name) (sf_funcs sf)) /\
  StronglySorted (fun a b => fn_addr a <= fn_addr b) (find_addr sf name).
Proof.
  intros sf name. rewrite find_addr_filter. split.
  - symmetry. apply filter_perm, isort_perm.
  - pose proof (isort_sorted name_leb name_leb_total name_leb_trans (sf_funcs sf)) as H.
    induction H as [|x l H IH HF]; cbn [filter]; [constructor|].
    destruct (beq (fn_name x) name) eqn:Ex; auto. constructor; auto.
    rewrite Forall_forall in *. intros y Hy. apply filter_In in Hy. destruct Hy as [Hy Ey].
    apply HF in Hy. cbn in Hy. rewrite name_leb_spec in Hy. apply beq_eq in Ex, Ey.
    destruct Hy as [Hy|[_ Hy]]; auto. rewrite Ex, Ey, bcmp_refl in Hy. discriminate.
Qed.

(** ** Paths *)
Definition clean_end (rb : list N) : Prop :=
  match rb with
  | 47 :: _ => False
  | [46] => False
  | 46 :: 47 :: _ => False
  | _ => True
  end.
Lemma trim_clean : forall fuel rb, clean_end rb -> trim_body fuel rb = rb.
Proof.
  intros [|fuel] rb H; [reflexivity|]. cbn [trim_body].
  unfold clean_end in H.
  repeat match goal with
  | |- context [match ?x with _ => _ end] => destruct x; try contradiction; try reflexivity
  end.
Qed.
Lemma rev_span_app : forall f a r, Forall (fun b => f b = true) a ->
  match r with [] => True | b :: _ => f b = false end -> rev_span f (a ++ r) = (a, r).
Proof.
  intros f a r Ha Hr. induction Ha as [|b a Hb Ha IH]; cbn [app rev_span].
  - destruct r as [|b r]; [reflexivity|]. cbn [rev_span]. now rewrite Hr.
  - now rewrite Hb, IH.
Qed.
(** A path's last component; [d] is what comes before the separator. *)
Lemma len_before_le : forall p, (len_before_body p <= 1)%nat.
Proof.
  intros p. unfold len_before_body.
  repeat match goal with |- context [match ?x with _ => _ end] => destruct x; try lia end.
Qed.
Lemma clean_app : forall a b, a <> [] -> (forall c, a = [c] -> c <> 46 /\ c <> 47) ->
  (forall d a', a = 46 :: d :: a' -> d <> 47) -> (forall c a', a = c :: a' -> c <> 47) -> clean_end (a ++ b).
Proof.
  intros [|c [|d a]] b Hne H1 H2 H3; [easy| |].
  - destruct (H1 c eq_refl) as [H4 H5]. cbn [app]. unfold clean_end.
    destruct (N.eq_dec c 47); [easy|]. destruct (N.eq_dec c 46); [easy|].
    repeat match goal with |- match ?x with _ => _ end => destruct x; try exact I; try lia end.
  - assert (H2' : c = 46 -> d <> 47) by (intros ->; eapply H2; reflexivity).
    specialize (H3 c _ eq_refl). cbn [app]. unfold clean_end.
    destruct (N.eq_dec c 46) as [->|]; [specialize (H2' eq_refl)|clear H2'];
    repeat match goal with |- match ?x with _ => _ end => destruct x; try exact I; try lia end.
Qed.
Lemma split_file : forall file, file <> [] -> ~ In 47 file -> file <> [46] ->
  split_path file = Some ([], file).
Proof.
  intros file Hne Hns Hdot. unfold split_path.
  assert (E : len_before_body file = 0%nat).
  { unfold len_before_body.
    repeat match goal with |- context [match ?x with _ => _ end] => destruct x; try reflexivity; try congruence end;
    exfalso; apply Hns; cbn; auto. }
  rewrite E. cbn [firstn skipn].
  assert (Hc : clean_end (rev file)).
  { rewrite <- (app_nil_r (rev file)). apply clean_app.
    - intros H. apply Hne. rewrite <- (rev_involutive file), H. reflexivity.
    - intros c H. assert (Ef : file = [c]) by (rewrite <- (rev_involutive file), H; reflexivity).
      subst file. split; intros ->; [easy|apply Hns; now left].
    - intros d a H ->. apply Hns, in_rev. rewrite H. right. now left.
    - intros c a H ->. apply Hns, in_rev. rewrite H. now left. }
  unfold trimmed. rewrite trim_clean by auto.
  destruct (rev file) as [|x l] eqn:Er.
  { exfalso. apply Hne. rewrite <- (rev_involutive file), Er. reflexivity. }
  rewrite <- Er. rewrite <- (app_nil_r (rev file)) at 1. rewrite rev_span_app; [|apply Forall_forall|exact I].
  - cbn. now rewrite rev_involutive.
  - intros b Hb. apply in_rev in Hb. destruct (N.eqb_spec b 47); [subst; contradiction|reflexivity].
Qed.
Lemma split_dir : forall d file, file <> [] -> ~ In 47 file -> file <> [46] ->
  d <> [] -> (forall x, d <> x ++ [47]) -> (forall x, d <> x ++ [47; 46]) ->
  split_path (d ++ [47] ++ file) = Some (d, file).
Proof.
  intros d file Hne Hns Hdot Hdne Hd1 Hd2. unfold split_path.
  set (n := len_before_body (d ++ [47] ++ file)).
  assert (Hn : (n <= length d)%nat).
  { pose proof (len_before_le (d ++ [47] ++ file)). destruct d; [easy|]. cbn [length]. lia. }
  rewrite (skipn_app n), (firstn_app n).
  replace (n - length d)%nat with 0%nat by lia. cbn [skipn firstn].
  rewrite app_nil_r.
  set (t := skipn n d). rewrite !rev_app_distr. rewrite <- app_assoc.
  assert (Hc : clean_end (rev file ++ rev [47] ++ rev t)).
  { destruct (rev file) as [|c l] eqn:Er.
    { exfalso. apply Hne. rewrite <- (rev_involutive file), Er. reflexivity. }
    assert (Hnr : forall b, In b (c :: l) -> b <> 47).
    { intros b Hb ->. apply Hns, in_rev. now rewrite Er. }
    apply clean_app; [easy| | |].
    - intros c' H. injection H as <- ->. split; [|apply Hnr; now left].
      intros ->. apply Hdot. rewrite <- (rev_involutive file), Er. reflexivity.
    - intros d' a H. injection H as -> ->. apply Hnr. right. now left.
    - intros c' a H. injection H as <- ->. apply Hnr. now left. }
  unfold trimmed at 1. rewrite trim_clean by auto.
  destruct (rev file ++ rev [47] ++ rev t) as [|x l] eqn:Er.
  { exfalso. apply (f_equal (@length N)) in Er. rewrite !app_length in Er. cbn in Er. lia. }
  rewrite <- Er. cbn [rev app].
  rewrite rev_span_app; [|apply Forall_forall|reflexivity].
  2:{ intros b Hb. apply in_rev in Hb. destruct (N.eqb_spec b 47); [subst; contradiction|reflexivity]. }
  rewrite rev_involutive. f_equal. f_equal.
  assert (Ht : trimmed (47 :: rev t) = rev t).
  { unfold trimmed. cbn [length trim_body]. apply trim_clean.
    destruct (rev t) as [|c1 l1] eqn:Et; [exact I|].
    assert (Etd : d = firstn n d ++ rev l1 ++ [c1]).
    { rewrite <- (firstn_skipn n d) at 1. fold t. rewrite <- (rev_involutive t), Et. reflexivity. }
    rewrite <- (app_nil_r (c1 :: l1)). apply clean_app; [easy| | |].
    - intros c H. injection H as <- ->. split.
      + intros ->. cbn in Etd.
        (* [t] is "." *)
        pose proof (len_before_le (d ++ [47] ++ file)) as Hle. fold n in Hle.
        destruct n as [|[|n']] eqn:En; [| |lia].
        * cbn in Etd. subst d. vm_compute in En. discriminate.
        * destruct d as [|c2 d2]; [easy|]. cbn in Etd. injection Etd as ->.
          unfold n in En. cbn in En.
          destruct (N.eq_dec c2 47) as [->|].
          -- apply (Hd2 []). reflexivity.
          -- destruct (N.eq_dec c2 46) as [->|]; [discriminate|].
             repeat match type of En with (match ?x with _ => _ end) = _ => destruct x; try discriminate; try lia end.
      + intros ->. apply (Hd1 (firstn n d)). exact Etd.
    - intros d' a H ->. injection H as -> ->.
      apply (Hd2 (firstn n d ++ rev a)). rewrite Etd at 1. cbn [rev]. rewrite <- !app_assoc. reflexivity.
    - intros c a H ->. injection H as -> ->. apply (Hd1 (firstn n d ++ rev a)).
      rewrite Etd at 1. rewrite <- app_assoc. reflexivity. }
  rewrite Ht, rev_involutive. apply firstn_skipn.
Qed.
Lemma split_root : forall file, file <> [] -> ~ In 47 file -> file <> [46] ->
  split_path (47 :: file) = Some ([47], file).
Proof.
  intros file Hne Hns Hdot. unfold split_path. cbn [len_before_body firstn skipn].
  assert (Hc : clean_end (rev file)).
  { rewrite <- (app_nil_r (rev file)). apply clean_app.
    - intros H. apply Hne. rewrite <- (rev_involutive file), H. reflexivity.
    - intros c H. assert (Ef : file = [c]) by (rewrite <- (rev_involutive file), H; reflexivity).
      subst file. split; intros ->; [easy|apply Hns; now left].
    - intros d a H ->. apply Hns, in_rev. rewrite H. right. now left.
    - intros c a H ->. apply Hns, in_rev. rewrite H. now left. }
  unfold trimmed. rewrite trim_clean by auto.
  destruct (rev file) as [|x l] eqn:Er.
  { exfalso. apply Hne. rewrite <- (rev_involutive file), Er. reflexivity. }
  rewrite <- Er. rewrite <- (app_nil_r (rev file)) at 1. rewrite rev_span_app; [|apply Forall_forall|exact I].
  - cbn. now rewrite rev_involutive.
  - intros b Hb. apply in_rev in Hb. destruct (N.eqb_spec b 47); [subst; contradiction|reflexivity].
Qed.
