(** * Looking up ELF symbols *)

From Verif Require Import Base Lists Util UtilProofs Bytes Text Sym Inspect ByName Elf ElfSpec ElfFormat.
Local Open Scope N_scope.

(** ** Types of symbols *)
Lemma st_type_kind : forall s, st_type s = kind_of s.
Proof.
  intros s. unfold st_type, kind_of. change 15 with (N.ones 4). rewrite N.land_ones. reflexivity.
Qed.
Lemma matches_spec : forall t s, matches t s = true <-> of_type t s.
Proof.
  intros t s. unfold matches, elf_type_matches, of_type, is_function, is_object, is_untyped.
  rewrite st_type_kind. destruct t; rewrite ?orb_true_iff, ?N.eqb_eq; tauto.
Qed.
Lemma of_type_supported : forall t s, of_type t s -> supported s.
Proof. intros [] s; unfold supported, of_type; tauto. Qed.
Lemma type_of_elf_spec : forall s, supported s ->
  exists t, type_of_elf (st_type s) = Some t /\ type_is s t.
Proof.
  intros s H. rewrite st_type_kind. unfold supported, of_type, type_is, is_function, is_object, is_untyped in *.
  unfold type_of_elf.
  destruct H as [[H|H]|[H|H]]; rewrite H; cbn; eexists; split; eauto; tauto.
Qed.

(** ** Order by address *)
Lemma addr_leb_total : forall a b, addr_leb a b = true \/ addr_leb b a = true.
Proof.
  intros a b. unfold addr_leb. rewrite (N.compare_antisym (st_value a) (st_value b)).
  destruct (N.compare_spec (st_value a) (st_value b)); cbn; auto. lia.
Qed.
Lemma addr_leb_le : forall a b, addr_leb a b = true <->
  st_value a < st_value b \/ (st_value a = st_value b /\ st_size b <= st_size a).
Proof.
  intros a b. unfold addr_leb. destruct (N.compare_spec (st_value a) (st_value b)).
  - rewrite N.leb_le. lia.
  - split; auto.
  - split; [discriminate|lia].
Qed.
Lemma addr_leb_trans : forall a b c, addr_leb a b = true -> addr_leb b c = true -> addr_leb a c = true.
Proof. intros a b c. rewrite !addr_leb_le. lia. Qed.

Lemma addr_sorted_ksorted : forall l, sorted addr_leb l -> ksorted st_value l.
Proof.
  intros l H. apply StronglySorted_ksorted. unfold sorted in H.
  induction H as [|a l H IH HF]; constructor; auto. eapply Forall_impl; [|exact HF].
  intros b Hb. apply addr_leb_le in Hb. lia.
Qed.

Section ByAddr.
  Variables (x : ext) (t : symtab).
  Hypothesis Hx : sorts x.
  Lemma by_addr_perm : Permutation (filter (matches TUndefined) (t_syms t)) (by_addr x t).
  Proof. apply Hx; [exact addr_leb_total|exact addr_leb_trans]. Qed.
  Lemma by_addr_sorted : sorted addr_leb (by_addr x t).
  Proof. apply Hx; [exact addr_leb_total|exact addr_leb_trans]. Qed.
  Lemma by_addr_in : forall s, In s (by_addr x t) <-> In s (t_syms t) /\ supported s.
  Proof.
    intros s. unfold supported. rewrite <- matches_spec, <- filter_In.
    split; apply Permutation_in; [symmetry|]; apply by_addr_perm.
  Qed.
End ByAddr.

(** ** The search *)
Definition describe (module : option (list N)) (strs : list N) (s : esym) : res (option resolved_sym) :=
  let* n := symbol_name strs s in
  Ok (Some (ResolvedSym n module (st_value s)
        (if st_size s =? 0 then None else Some (st_size s)) LangUnknown None [])).

Definition cand (kind : table_kind) (type : sym_type) (addr : N) (s : esym) : Prop :=
  of_type type s /\ defined s /\ covers kind s addr.

Section Loop.
  Variables (m : mode) (module : option (list N)) (strs : list N) (kind : table_kind)
            (addr : N) (type : sym_type).
  Let loop := find_sym_loop m module strs kind addr type.

  Lemma loop_spec : forall l, sorted addr_leb l ->
    Forall (fun s => st_value s + st_size s < two64) l ->
    (exists s, In s l /\ cand kind type addr s /\ loop l = describe module strs s /\
       forall z, In z l -> cand kind type addr z -> st_value z = st_value s -> st_size z <= st_size s) \/
    (loop l = Ok None /\ forall z, In z l -> ~ cand kind type addr z).
  Proof.
    induction l as [|s l IH]; intros Hs Hsp; [right; split; [reflexivity|intros z []]|].
    apply StronglySorted_inv in Hs. destruct Hs as [Hs HF]. inversion Hsp as [|? ? Hs0 Hsp']; subst.
    rewrite Forall_forall in HF.
    assert (Hge : forall z, In z l -> st_value s <= st_value z).
    { intros z Hz. apply HF in Hz. apply addr_leb_le in Hz. lia. }
    unfold loop. cbn [find_sym_loop]. fold loop.
    destruct (N.ltb_spec addr (st_value s)) as [Hlt|Hle].
    - right. split; auto. intros z Hz (_ & _ & Hc & _). destruct Hz as [->|Hz]; [lia|].
      apply Hge in Hz. lia.
    - assert (Ema : (if st_size s =? 0
         then Ok match kind with Symtab => true | Dynsym => addr =? st_value s end
         else let* limit := add64 m (st_value s) (st_size s) in Ok (addr <? limit))
         = Ok (if st_size s =? 0 then match kind with Symtab => true | Dynsym => addr =? st_value s end
               else addr <? st_value s + st_size s)).
      { destruct (st_size s =? 0); auto. unfold add64. rewrite uadd_small by exact Hs0. reflexivity. }
      rewrite Ema. cbn [bind].
      set (ma := if st_size s =? 0 then _ else _).
      assert (Hma : ma = true <-> covers kind s addr).
      { unfold ma, covers. destruct (N.eqb_spec (st_size s) 0) as [E|E].
        - destruct kind.
          + split; [intros _; split; auto|auto].
          + rewrite N.eqb_eq. split; [auto|]. intros (_ & [[? _]|[_ [?|?]]]); congruence.
        - rewrite N.ltb_lt. split; [auto|]. intros (_ & [[_ ?]|[? _]]); [auto|congruence]. }
      destruct (matches type s && negb (st_shndx s =? SHN_UNDEF) && ma) eqn:E.
      + left. exists s. apply andb_true_iff in E. destruct E as [E E3]. apply andb_true_iff in E.
        destruct E as [E1 E2]. split; [now left|]. split.
        { split; [now apply matches_spec|]. split; [|now apply Hma].
          unfold defined. apply negb_true_iff in E2. now apply N.eqb_neq in E2. }
        split; [reflexivity|]. intros z [->|Hz] _ Hv; [lia|]. apply HF in Hz. apply addr_leb_le in Hz. lia.
      + assert (Hno : ~ cand kind type addr s).
        { intros (H1 & H2 & H3). apply matches_spec in H1. apply Hma in H3. rewrite H1, H3 in E.
          unfold defined in H2. apply N.eqb_neq in H2. unfold SHN_UNDEF in E. rewrite H2 in E. discriminate. }
        destruct (IH Hs Hsp') as [(s' & Hin & Hc & Hl & Hmax)|[Hl Hn]].
        * left. exists s'. split; [now right|]. split; auto. split; auto.
          intros z [->|Hz] Hcz; [contradiction|]. now apply Hmax.
        * right. split; auto. intros z [->|Hz]; auto.
  Qed.
End Loop.


Lemma find_sym_spec : forall x m module t kind addr type, sorts x -> in_space t ->
  let r := find_sym m module (by_addr x t) (t_strs t) kind addr type in
  (exists s, closest_symbol kind t type addr s /\ r = describe module (t_strs t) s /\
     (~ lowest t s \/ st_value s = addr -> largest kind t type addr s)) \/
  (r = Ok None /\ forall s, closest_symbol kind t type addr s ->
     lowest t s /\ st_value s <> addr /\
     exists z, In z (t_syms t) /\ supported z /\ st_value z = st_value s /\ st_size z <= st_size s /\
       ~ closest_symbol kind t type addr z).
Proof.
  intros x m module t kind addr type Hx Hsp r. unfold r, find_sym. clear r.
  set (idx := by_addr x t).
  assert (Hin : forall s, In s idx <-> In s (t_syms t) /\ supported s) by (intros; now apply by_addr_in).
  pose proof (by_addr_sorted x t Hx) as Hs. fold idx in Hs.
  assert (Hsp' : Forall (fun s => st_value s + st_size s < two64) idx).
  { rewrite Forall_forall. intros s Hi. unfold in_space in Hsp. rewrite Forall_forall in Hsp. apply Hsp. now apply Hin. }
  assert (Hks := addr_sorted_ksorted _ Hs).
  assert (Hloop : forall i,
    let r := find_sym_loop m module (t_strs t) kind addr type (skipn i idx) in
    (exists s, In s (skipn i idx) /\ cand kind type addr s /\ r = describe module (t_strs t) s /\
       forall z, In z (skipn i idx) -> cand kind type addr z -> st_value z = st_value s -> st_size z <= st_size s) \/
    (r = Ok None /\ forall z, In z (skipn i idx) -> ~ cand kind type addr z)).
  { intros i. apply loop_spec.
    - now apply skipn_sorted.
    - rewrite Forall_forall in *. intros s H. apply Hsp'. now apply in_skipn in H. }
  assert (Hcc : forall s, closest_symbol kind t type addr s -> In s idx /\ cand kind type addr s).
  { intros s (H1 & H2 & H3 & H4 & H5 & _). split; [now apply Hin|]. split; [|split]; assumption. }
  assert (Hccv : forall s e, closest_symbol kind t type addr s -> In e idx -> st_value e <= addr ->
    (forall y, In y idx -> st_value y <= addr -> st_value y <= st_value e) -> st_value s = st_value e).
  { intros s e Hc He Hle Hmax. pose proof (Hcc _ Hc) as [Hi (_ & _ & Hcov)].
    destruct Hc as (_ & _ & _ & _ & _ & Hcl). apply Hin in He. specialize (Hcl e (proj1 He) (proj2 He) Hle).
    specialize (Hmax s Hi (proj1 Hcov)). lia. }
  destruct (flb_cases st_value idx addr Hks) as
    [[-> Hall]|[(i & e & -> & He & Hee & Hfirst)|(i & e & -> & He & Hlt & Hmax & Hrun)]].
  - right. split; auto. intros s Hc. apply Hcc in Hc. destruct Hc as [Hi (_ & _ & Hv & _)].
    specialize (Hall s Hi). lia.
  - (* exact match *)
    assert (Hei : In e idx) by (eapply nth_error_In, He).
    assert (Hge : forall z, In z (skipn i idx) -> st_value e <= st_value z).
    { intros z Hz. apply skipn_in_nth in Hz. destruct Hz as (j & Hj & Hz). apply (Hks i j e z Hj He Hz). }
    assert (Hrunin : forall z, In z idx -> st_value z = st_value e -> In z (skipn i idx)).
    { intros z Hz Ev. apply In_nth_error in Hz. destruct Hz as [j Hj].
      apply nth_in_skipn with j; auto. destruct (Nat.le_gt_cases i j); auto.
      exfalso. apply (Hfirst j e z); auto. }
    destruct (Hloop i) as [(s & Hsi & Hc & Hr & Hbig)|[Hr Hn]].
    + left. exists s. assert (Hsi' := in_skipn _ _ _ _ Hsi).
      assert (Hsv : st_value s = addr).
      { specialize (Hge s Hsi). destruct Hc as (_ & _ & Hv & _). lia. }
      split; [|split; auto].
      * destruct Hc as (H1 & H2 & H3). apply Hin in Hsi'. repeat split; try apply Hsi'; auto; try apply H3. intros; lia.
      * intros _ z Hz. apply Hbig.
        -- apply Hrunin; [now apply Hcc|]. apply (Hccv z e Hz Hei); [lia|intros; lia].
        -- now apply Hcc.
        -- rewrite (Hccv z e Hz Hei); [lia|lia|intros; lia].
    + right. split; auto. intros s Hc. exfalso. apply (Hn s); [|now apply Hcc].
      apply Hrunin; [now apply Hcc|]. apply (Hccv s e); auto; intros; lia.
  - (* lower bound *)
    assert (Hei : In e idx) by (eapply nth_error_In, He).
    assert (Hge : forall z, In z (skipn i idx) -> st_value e <= st_value z).
    { intros z Hz. apply skipn_in_nth in Hz. destruct Hz as (j & Hj & Hz). apply (Hks i j e z Hj He Hz). }
    assert (Hval : forall s, In s (skipn i idx) -> cand kind type addr s -> st_value s = st_value e).
    { intros s Hsi (_ & _ & Hv & _). specialize (Hge s Hsi). specialize (Hmax s (in_skipn _ _ _ _ Hsi) Hv). lia. }
    assert (Hclosest : forall s, In s (skipn i idx) -> cand kind type addr s -> closest_symbol kind t type addr s).
    { intros s Hsi Hc. pose proof (Hval s Hsi Hc) as Hsv. assert (Hsi' := in_skipn _ _ _ _ Hsi).
      destruct Hc as (H1 & H2 & H3). apply Hin in Hsi'. repeat split; try apply Hsi'; auto; try apply H3.
      intros z Hz1 Hz2 Hz3. rewrite Hsv. apply Hmax; auto. now apply Hin. }
    destruct Hrun as [[(hd & Hhd & Hne) Hfirst]|[(hd & Hhd & Heq) Hlast]].
    + assert (Hrunin : forall z, In z idx -> st_value z = st_value e -> In z (skipn i idx)).
      { intros z Hz Ev. apply In_nth_error in Hz. destruct Hz as [j Hj].
        apply nth_in_skipn with j; auto. destruct (Nat.le_gt_cases i j); auto.
        exfalso. apply (Hfirst j e z); auto. }
      destruct (Hloop i) as [(s & Hsi & Hc & Hr & Hbig)|[Hr Hn]].
      * left. exists s. pose proof (Hval s Hsi Hc) as Hsv.
        split; [now apply Hclosest|split; auto].
        intros _ z Hz. apply Hbig.
        -- apply Hrunin; [now apply Hcc|]. apply (Hccv z e Hz Hei); [lia|auto].
        -- now apply Hcc.
        -- rewrite (Hccv z e Hz Hei); [lia|lia|auto].
      * right. split; auto. intros s Hc. exfalso. apply (Hn s); [|now apply Hcc].
        apply Hrunin; [now apply Hcc|]. apply (Hccv s e); auto; lia.
    + assert (Hlow : forall s, st_value s = st_value e -> lowest t s).
      { intros s Hsv z Hz1 Hz2. rewrite Hsv, <- Heq. assert (Hz : In z idx) by now apply Hin.
        apply In_nth_error in Hz. destruct Hz as [j Hj]. apply (Hks O j hd z); auto. lia. }
      assert (Honly : forall s, In s (skipn i idx) -> st_value s = st_value e -> s = e).
      { intros s Hsi Hsv. apply skipn_in_nth in Hsi. destruct Hsi as (j & Hj & Hsj).
        destruct (Nat.eq_dec i j) as [->|]; [congruence|]. exfalso. apply (Hlast j e s); auto. lia. }
      destruct (Hloop i) as [(s & Hsi & Hc & Hr & Hbig)|[Hr Hn]].
      * left. exists s. pose proof (Hval s Hsi Hc) as Hsv.
        split; [now apply Hclosest|split; auto]. intros [Hnl|Hsa]; [|lia]. destruct Hnl. now apply Hlow.
      * right. split; auto. intros s Hc. pose proof (Hccv s e Hc Hei ltac:(lia) Hmax) as Hsv.
        split; [now apply Hlow|]. split; [lia|]. exists e.
        pose proof (proj1 (Hin e) Hei) as [He1 He2]. split; auto. split; auto. split; auto. split.
        -- pose proof (Hcc s Hc) as [Hsi _]. apply In_nth_error in Hsi. destruct Hsi as [j Hj].
           destruct (Nat.lt_trichotomy j i) as [Hji|[->|Hij]].
           ++ pose proof (StronglySorted_nth _ _ idx j i s e Hs Hji Hj He) as Hle. cbv beta in Hle.
              apply addr_leb_le in Hle. lia.
           ++ assert (s = e) by congruence. subst. lia.
           ++ exfalso. apply (Hlast j e s); auto.
        -- intros Hce. apply (Hn e).
           ++ apply nth_in_skipn with i; auto.
           ++ now apply Hcc.
Qed.

Lemma describe_ok : forall module t s r, describe module (t_strs t) s = Ok (Some r) -> reported module t s r.
Proof.
  intros module t s r H. unfold describe, symbol_name in H. ib H n E. ib E n' E'.
  apply to_str_inv in E. destruct E as [-> _]. apply str_at_inv in E'.
  injection H as <-. repeat split; auto; apply E'.
Qed.
Lemma describe_named : forall module t s, names_ok t -> In s (t_syms t) -> supported s ->
  exists r, describe module (t_strs t) s = Ok (Some r) /\ reported module t s r.
Proof.
  intros module t s Hn Hi Hs. destruct (Hn s Hi Hs) as (name & H1 & H2).
  unfold describe, symbol_name. pose proof (str_at_ok _ _ _ H1) as ->. cbn [bind].
  rewrite (to_str_ok _ H2). cbn [bind]. eexists. split; [reflexivity|]. repeat split; try reflexivity; apply H1.
Qed.
Lemma describe_not_none : forall module strs s, describe module strs s <> Ok None.
Proof. intros module strs s H. unfold describe in H. ib H n E. discriminate. Qed.

(** ** Names *)
Lemma name_leb_total : forall a b, name_leb a b = true \/ name_leb b a = true.
Proof.
  intros a b. unfold name_leb. rewrite (bcmp_antisym (fst a) (fst b)). destruct (bcmp (fst a) (fst b)); cbn; auto.
Qed.
Lemma name_leb_le : forall a b, name_leb a b = true <-> bcmp (fst a) (fst b) <> Gt.
Proof. intros a b. unfold name_leb. destruct (bcmp (fst a) (fst b)); split; congruence. Qed.
Lemma name_leb_trans : forall a b c, name_leb a b = true -> name_leb b c = true -> name_leb a c = true.
Proof.
  intros a b c. rewrite !name_leb_le. intros H1 H2 H3.
  destruct (bcmp (fst a) (fst b)) eqn:E1; try congruence.
  - apply bcmp_eq in E1. rewrite E1 in H3. contradiction.
  - destruct (bcmp (fst b) (fst c)) eqn:E2; try congruence.
    + apply bcmp_eq in E2. rewrite <- E2, E1 in H3. discriminate.
    + rewrite (bcmp_lt_trans _ _ _ E1 E2) in H3. discriminate.
Qed.

(** [find_name_or_lower_bound] finds the first of the name, or another name *)
Lemma flb_scan_name_spec : forall A (f : A -> list N) l c n idx r,
  flb_scan_name f l c n idx = Some r ->
  (r = idx \/ exists i y, r = S i /\ nth_error l i = Some y /\ (S i <= n)%nat /\
     forall j, (i < j < n)%nat -> exists z, nth_error l j = Some z /\ f z = c).
Proof.
  intros A f l c. induction n as [|n IH]; intros idx r H; cbn [flb_scan_name] in H; [left; congruence|].
  destruct (nth_error l n) as [e|] eqn:E; [|discriminate].
  destruct (beq (f e) c) eqn:Eb.
  - apply IH in H. destruct H as [->|(i & y & -> & Hy & Hi & Hj)]; [now left|].
    right. exists i, y. repeat split; auto. intros j Hij.
    destruct (Nat.eq_dec j n) as [->|]; [|apply Hj; lia]. exists e. split; auto. now apply beq_eq.
  - injection H as <-. right. exists n, e. repeat split; auto. intros; lia.
Qed.

Lemma find_name_spec : forall A (f : A -> list N) l name,
  name_sorted f l ->
  match find_name_or_lower_bound l name f with
  | Some i =>
      find_lowest_match_by l (fun e => bcmp (f e) name) = Some i \/
      (find_lowest_match_by l (fun e => bcmp (f e) name) = None /\
       (skipn i l = [] \/ exists e, nth_error l i = Some e /\ f e <> name))
  | None => find_lowest_match_by l (fun e => bcmp (f e) name) = None
  end.
Proof.
  intros A f l name Hs. unfold find_name_or_lower_bound, find_lowest_match_by.
  pose proof (name_cmp_sorted f l name Hs) as Hc.
  set (p := fun e => is_lt (bcmp (f e) name)).
  assert (Hpart : partitioned p l).
  { intros i j a b Hij Ha Hb Hlt. unfold p in *. destruct (Hc i j a b Hij Ha Hb) as [H1 _].
    unfold is_lt in *. destruct (bcmp (f b) name) eqn:Eb; try discriminate. now rewrite H1. }
  set (k := partition_point p l).
  assert (Hk : k = cnt_lt p l) by now apply partition_point_cnt.
  assert (Heq : forall e, is_eq (bcmp (f e) name) = beq (f e) name).
  { intros e. unfold is_eq. destruct (bcmp (f e) name) eqn:E.
    - apply bcmp_eq in E. rewrite E. symmetry. now apply beq_eq.
    - destruct (beq (f e) name) eqn:Eb; auto. apply beq_eq in Eb. rewrite Eb, bcmp_refl in E. discriminate.
    - destruct (beq (f e) name) eqn:Eb; auto. apply beq_eq in Eb. rewrite Eb, bcmp_refl in E. discriminate. }
  assert (Hlow : forall r,
    match k with O => None | S k' => match nth_error l k' with None => None | Some e => flb_scan_name f l (f e) k' k' end end = Some r ->
    exists e, nth_error l r = Some e /\ f e <> name).
  { intros r Hr. destruct k as [|k'] eqn:Ek; [discriminate|].
    destruct (nth_error l k') as [e0|] eqn:E0; [|discriminate].
    apply flb_scan_name_spec in Hr.
    assert (Hlt : exists e, nth_error l r = Some e /\ (r < S k')%nat).
    { destruct Hr as [->|(i & y & -> & Hy & Hi & _)]; [exists e0; split; auto|].
      destruct (nth_error_lt_some _ l (S i)) as [z Hz].
      { apply nth_error_lt in E0. lia. }
      exists z. split; auto. lia. }
    destruct Hlt as (e & He & Hrk). exists e. split; auto. intros En.
    pose proof (partitioned_cnt _ _ _ Hpart _ _ He) as Hp. rewrite <- Hk in Hp.
    replace (Nat.ltb r (S k')) with true in Hp by (symmetry; now apply Nat.ltb_lt).
    unfold p in Hp. rewrite En, bcmp_refl in Hp. discriminate. }
  destruct (nth_error l k) as [e|] eqn:Ek.
  - rewrite Heq. destruct (beq (f e) name) eqn:Eb; [now left|].
    destruct (match k with O => None | S _ => _ end) as [r|] eqn:El; auto.
  - destruct (match k with O => None | S _ => _ end) as [r|] eqn:El; auto.
Qed.

(** Information about the symbols of a list *)
Fixpoint infos (m : mode) (opts : find_addr_opts) (shdrs : list shdr)
    (module : option (list N)) (l : list (list N * esym)) : res (list sym_info) :=
  match l with
  | [] => Ok []
  | (n, s) :: l =>
      let* i := make_info m opts shdrs module n s in
      let* r := infos m opts shdrs module l in
      Ok (i :: r)
  end.
Definition is_defined (s : esym) : bool := negb (st_shndx s =? SHN_UNDEF).

Lemma find_addr_loop_infos : forall m opts shdrs module name l,
  find_addr_loop m opts shdrs module name l =
  infos m opts shdrs module (filter (fun p => is_defined (snd p)) (take_key fst name l)).
Proof.
  intros m opts shdrs module name. induction l as [|[n s] l IH]; [reflexivity|].
  cbn [find_addr_loop take_key fst]. destruct (beq n name); [|reflexivity]. cbn [negb filter snd].
  unfold is_defined at 1. destruct (negb (st_shndx s =? SHN_UNDEF)); [|exact IH].
  cbn [infos]. now rewrite IH.
Qed.
Lemma find_addr_impl_infos : forall m opts shdrs module name idx, name_sorted fst idx ->
  find_addr_impl m opts shdrs module name idx =
  infos m opts shdrs module
    (filter (fun p => is_defined (snd p)) (filter (fun p => beq (fst p) name) idx)).
Proof.
  intros m opts shdrs module name idx Hs. rewrite <- (named_filter fst name idx Hs).
  unfold find_addr_impl, named. pose proof (find_name_spec _ fst idx name Hs) as H.
  destruct (find_name_or_lower_bound idx name fst) as [i|].
  - rewrite find_addr_loop_infos. destruct H as [->|[-> [Hsk|(e & He & Hne)]]]; [reflexivity| |].
    + now rewrite Hsk.
    + f_equal. destruct (skipn i idx) as [|e' l] eqn:E; [reflexivity|].
      assert (e' = e).
      { pose proof (skipn_nth _ idx i 0) as H. rewrite E in H. cbn in H. rewrite Nat.add_0_r in H. congruence. }
      subst e'. cbn [take_key]. destruct (beq (fst e) name) eqn:Eb; [|reflexivity].
      apply beq_eq in Eb. contradiction.
  - now rewrite H.
Qed.

(** ** The index by name *)
Lemma filter_split : forall A (p : A -> bool) l, Permutation l (filter p l ++ filter (fun a => negb (p a)) l).
Proof.
  intros A p. induction l as [|a l IH]; [reflexivity|]. cbn [filter]. destruct (p a); cbn [negb app].
  - now constructor.
  - etransitivity; [apply perm_skip, IH|]. apply Permutation_middle.
Qed.
Lemma name_leb_sorted : forall l, sorted name_leb l -> name_sorted fst l.
Proof.
  intros l H. unfold sorted in H. induction H as [|a l H IH HF]; constructor; auto.
  eapply Forall_impl; [|exact HF]. intros b Hb. now apply name_leb_le in Hb.
Qed.

Definition kept (keep : esym -> res bool) (s : esym) : bool :=
  match keep s with Ok b => b | _ => false end.

Lemma name_syms_ok : forall strs keep l,
  (forall s, In s l -> exists n, string_at strs (st_name s) n) ->
  (forall s, In s l -> exists b, keep s = Ok b) ->
  exists r, name_syms strs keep l = Ok r /\ map snd r = filter (kept keep) l /\
    Forall (fun p => string_at strs (st_name (snd p)) (fst p)) r.
Proof.
  intros strs keep. induction l as [|s l IH]; intros Hn Hk; [exists []; repeat split; constructor|].
  destruct IH as (r & Hr & Hm & Hf); [intros; apply Hn; now right|intros; apply Hk; now right|].
  destruct (Hk s (or_introl eq_refl)) as [b Hb]. destruct (Hn s (or_introl eq_refl)) as [n Hs].
  cbn [name_syms filter]. unfold kept at 1. rewrite Hb. cbn [bind]. destruct b.
  - rewrite (str_at_ok _ _ _ Hs). cbn [bind]. rewrite Hr. cbn [bind].
    eexists. split; [reflexivity|]. cbn [map snd fst]. split; [now f_equal|]. now constructor.
  - exists r. auto.
Qed.

Lemma str2sym_ok : forall x t keep, sorts x ->
  (forall s, In s (t_syms t) -> supported s -> exists n, has_name t s n) ->
  (forall s, In s (t_syms t) -> supported s -> exists b, keep s = Ok b) ->
  exists r, str2sym x t keep = Ok r /\ name_sorted fst r /\
    Forall (fun p => has_name t (snd p) (fst p) /\ In (snd p) (t_syms t) /\ supported (snd p)) r /\
    forall tb, picks
      (fun s => supported s /\ kept keep s = true /\ exists n, has_name t s n /\ tb (n, s) = true)
      (fun s => supported s -> kept keep s = true -> exists n, has_name t s n /\ tb (n, s) = false)
      (t_syms t) (map snd (filter tb r)).
Proof.
  intros x t keep Hx Hn Hk. unfold str2sym.
  destruct (name_syms_ok (t_strs t) keep (by_addr x t)) as (r0 & Hr & Hm & Hf).
  { intros s Hs. apply by_addr_in in Hs; auto. now apply Hn. }
  { intros s Hs. apply by_addr_in in Hs; auto. now apply Hk. }
  rewrite Hr. cbn [bind]. destruct (Hx _ name_leb r0 name_leb_total name_leb_trans) as [Hp Hs].
  set (r := x_sort x _ name_leb r0) in *. exists r. split; [reflexivity|]. split; [now apply name_leb_sorted|].
  assert (Hm' : Permutation (filter (kept keep) (by_addr x t)) (map snd r)).
  { rewrite <- Hm. now apply Permutation_map. }
  assert (Hall : Forall (fun p => has_name t (snd p) (fst p) /\ In (snd p) (t_syms t) /\ supported (snd p) /\
                          kept keep (snd p) = true) r).
  { apply Forall_forall. intros p Hi. split.
    - rewrite Forall_forall in Hf. apply Hf. eapply Permutation_in; [symmetry; exact Hp|exact Hi].
    - assert (H : In (snd p) (filter (kept keep) (by_addr x t))).
      { eapply Permutation_in; [symmetry; exact Hm'|]. now apply in_map. }
      apply filter_In in H. destruct H as [H1 H2]. apply by_addr_in in H1; auto. tauto. }
  split.
  { eapply Forall_impl; [|exact Hall]. cbv beta. tauto. }
  intros tb.
  exists (map snd (filter (fun p => negb (tb p)) r) ++
          filter (fun s => negb (kept keep s)) (by_addr x t) ++
          filter (fun s => negb (matches TUndefined s)) (t_syms t)).
  split.
  - etransitivity; [apply (filter_split _ (matches TUndefined))|]. rewrite !app_assoc.
    apply Permutation_app_tail. etransitivity; [apply (by_addr_perm x t Hx)|].
    etransitivity; [apply (filter_split _ (kept keep))|]. apply Permutation_app_tail.
    etransitivity; [exact Hm'|]. rewrite <- map_app. apply Permutation_map, filter_split.
  - rewrite Forall_forall in Hall. split.
    + apply Forall_forall. intros s H. apply in_map_iff in H. destruct H as ([n s'] & E & H). cbn in E. subst s'.
      apply filter_In in H. destruct H as [H1 H2]. apply Hall in H1. cbn [fst snd] in H1.
      split; [tauto|]. split; [tauto|]. exists n. tauto.
    + apply Forall_app. split; [|apply Forall_app; split].
      * apply Forall_forall. intros s H _ _. apply in_map_iff in H. destruct H as ([n s'] & E & H). cbn in E. subst s'.
        apply filter_In in H. destruct H as [H1 H2]. apply Hall in H1. cbn [fst snd] in H1.
        exists n. split; [tauto|]. now apply negb_true_iff in H2.
      * apply Forall_forall. intros s H _ Hke. apply filter_In in H. rewrite Hke in H. now destruct H.
      * apply Forall_forall. intros s H Hsu _. apply filter_In in H. destruct H as [_ H].
        apply (matches_spec TUndefined) in Hsu. rewrite Hsu in H. discriminate.
Qed.

(** ** What is reported *)
Lemma nnth_map : forall A B (f : A -> B) l i, nnth i (map f l) = option_map f (nnth i l).
Proof. intros. rewrite !nnth_nth_error. apply nth_error_map. Qed.

Lemma file_offset_ok : forall m e t s, sections_ok e t -> In s (t_syms t) ->
  exists o, file_offset m (map s_hdr (i_sections e)) s = Ok o /\ symbol_offset e s o.
Proof.
  intros m e t s Hok Hi. unfold file_offset, symbol_offset, SHN_LORESERVE.
  destruct (N.leb_spec 65280 (st_shndx s)) as [|Hlt]; [eauto|].
  destruct (Hok s Hi Hlt) as (sec & Hn & Hsz). rewrite nnth_map, Hn. cbn [option_map of_option bind].
  destruct (sh_type (s_hdr sec) =? SHT_NOBITS) eqn:En.
  - eexists. split; [reflexivity|]. right. split; auto. exists sec. rewrite En. auto.
  - unfold add64. rewrite uadd_small by exact Hsz. cbn [bind].
    set (h := s_hdr sec) in *.
    set (off := ((st_value s + (two64 - sh_addr h)) mod two64 + sh_offset h) mod two64).
    exists (if (off <? sh_offset h + sh_size h) || (off =? sh_offset h + sh_size h) && (st_size s =? 0)
            then Some off else None).
    split; [now destruct (_ || _)|]. right. split; auto. exists sec. split; auto. fold h. rewrite En.
    intros Ha Ho.
    assert (Eoff : off = st_value s - sh_addr h + sh_offset h).
    { unfold off. replace (st_value s + (two64 - sh_addr h)) with (st_value s - sh_addr h + 1 * two64) by lia.
      rewrite N.mod_add by discriminate. rewrite (N.mod_small (st_value s - sh_addr h)) by lia.
      apply N.mod_small. lia. }
    rewrite Eoff.
    replace (st_value s - sh_addr h + sh_offset h <? sh_offset h + sh_size h)
      with (st_value s <? sh_addr h + sh_size h).
    2: { apply eq_true_iff_eq. rewrite !N.ltb_lt. lia. }
    replace (st_value s - sh_addr h + sh_offset h =? sh_offset h + sh_size h)
      with (st_value s =? sh_addr h + sh_size h).
    2: { apply eq_true_iff_eq. rewrite !N.eqb_eq. lia. }
    now destruct (_ || _).
Qed.

Lemma make_info_ok : forall m opts e module t n s,
  In s (t_syms t) -> supported s -> has_name t s n -> utf8_valid n = true ->
  (fa_file_offset opts = true -> sections_ok e t) ->
  exists i, make_info m opts (map s_hdr (i_sections e)) module n s = Ok i /\ info_of e opts module t s i.
Proof.
  intros m opts e module t n s Hi Hs Hn Hu Hok. unfold make_info. rewrite (to_str_ok _ Hu). cbn [bind].
  destruct (type_of_elf_spec s Hs) as (ty & -> & Hty). cbn [unwrap bind].
  destruct (fa_file_offset opts) eqn:Ef.
  - destruct (file_offset_ok m e t s (Hok eq_refl) Hi) as (o & -> & Ho). cbn [bind].
    eexists. split; [reflexivity|]. unfold info_of. cbn. rewrite Ef. auto 10.
  - cbn [bind]. eexists. split; [reflexivity|]. unfold info_of. cbn. rewrite Ef. auto 10.
Qed.

Lemma names_ok_utf8 : forall t s n, names_ok t -> In s (t_syms t) -> supported s -> has_name t s n ->
  utf8_valid n = true.
Proof.
  intros t s n H Hi Hs Hn. destruct (H s Hi Hs) as (n' & Hn' & Hu).
  now rewrite (string_at_fun _ _ _ _ Hn Hn').
Qed.

Definition reportable (t : symtab) (p : list N * esym) : Prop :=
  has_name t (snd p) (fst p) /\ In (snd p) (t_syms t) /\ supported (snd p).

Lemma infos_ok : forall m opts e module t l, names_ok t ->
  (fa_file_offset opts = true -> sections_ok e t) ->
  Forall (reportable t) l ->
  exists r, infos m opts (map s_hdr (i_sections e)) module l = Ok r /\
    Forall2 (info_of e opts module t) (map snd l) r.
Proof.
  intros m opts e module t l Hno Hok. induction l as [|[n s] l IH]; intros Hf; [exists []; split; [reflexivity|constructor]|].
  inversion Hf as [|? ? (H1 & H2 & H3) Hf']; subst. cbn [fst snd] in *.
  destruct (IH Hf') as (r & Hr & Hr2).
  destruct (make_info_ok m opts e module t n s H2 H3 H1 (names_ok_utf8 _ _ _ Hno H2 H3 H1) Hok) as (i & Hi & Hio).
  exists (i :: r). cbn [infos]. rewrite Hi. cbn [bind]. rewrite Hr. split; [reflexivity|]. now constructor.
Qed.

Lemma for_each_loop_ok : forall S m opts e t (f : for_each_fn S) l, names_ok t ->
  (fa_file_offset opts = true -> sections_ok e t) ->
  Forall (reportable t) l ->
  exists r, Forall2 (info_of e opts None t)
      (map snd (filter (fun p => matches (fa_sym_type opts) (snd p) && is_defined (snd p)) l)) r /\
    forall state, for_each_loop m opts (map s_hdr (i_sections e)) f l state = Ok (visit f r state).
Proof.
  intros S m opts e t f l Hno Hok. induction l as [|[n s] l IH]; intros Hf; [exists []; split; [constructor|reflexivity]|].
  inversion Hf as [|? ? (H1 & H2 & H3) Hf']; subst. cbn [fst snd] in *.
  destruct (IH Hf') as (r & Hr & Hr2).
  cbn [for_each_loop filter snd]. fold (is_defined s). destruct (matches (fa_sym_type opts) s && is_defined s); [|eauto].
  destruct (make_info_ok m opts e None t n s H2 H3 H1 (names_ok_utf8 _ _ _ Hno H2 H3 H1) Hok) as (i & Hi & Hio).
  exists (i :: r). split; [now constructor|]. intros state. rewrite Hi. cbn [bind visit].
  destruct (f state i) as [st b]. cbn [fst snd]. destruct b; auto.
Qed.

(** Dynamic symbols not listed in the symbol table *)
Lemma not_in_symtab_ok : forall x m st s, sorts x -> in_space st -> names_ok st -> supported s ->
  exists b, not_in_symtab x m st s = Ok b /\ (b = false -> shadowed st s) /\ (t_syms st = [] -> b = true).
Proof.
  intros x m st s Hx Hsp Hn Hs. unfold not_in_symtab.
  destruct (type_of_elf_spec s Hs) as (ty & -> & Hty). cbn [unwrap bind].
  destruct (find_sym_spec x m None st Symtab (st_value s) ty Hx Hsp) as [(z & Hz & -> & _)|[-> _]].
  - pose proof Hz as (Hz1 & Hz2 & _). destruct (describe_named None st z Hn Hz1 Hz2) as (r & -> & _).
    exists false. split; [reflexivity|]. split.
    + intros _. exists ty, z. auto.
    + intros E. rewrite E in Hz1. destruct Hz1.
  - exists true. repeat split; auto. discriminate.
Qed.

(** ** Segments *)
Section Segments.
  Variables (m : mode) (e : image).
  Hypothesis Hok : segments_ok e.

  Lemma to_virt_loop_ok : forall l off, incl l (i_segments e) ->
    (exists p, loads e p /\ In p l /\ in_file p off /\ to_virt_loop m l off = Ok (Some (off - p_offset p + p_vaddr p))) \/
    (to_virt_loop m l off = Ok None /\ forall p, In p l -> loads e p -> ~ in_file p off).
  Proof.
    induction l as [|p l IH]; intros off Hi; [right; split; [reflexivity|intros ? []]|].
    apply incl_cons_inv in Hi. destruct Hi as [Hp Hi]. specialize (IH off Hi). cbn [to_virt_loop].
    unfold PT_LOAD. destruct (N.eqb_spec (p_type p) 1) as [Et|Et].
    - assert (Hl : loads e p) by (split; auto). destruct (Hok p Hl) as [H1 H2].
      unfold add64, sub64. rewrite uadd_small by exact H1. cbn [bind].
      destruct ((p_offset p <=? off) && (off <? p_offset p + p_filesz p)) eqn:E.
      + left. exists p. apply andb_true_iff in E. rewrite N.leb_le, N.ltb_lt in E. destruct E as [E1 E2].
        rewrite usub_small by exact E1. cbn [bind]. rewrite uadd_small by lia. cbn [bind].
        split; auto. split; [now left|]. split; [split; auto|]. reflexivity.
      + assert (Hn : ~ in_file p off).
        { intros [A B]. apply N.leb_le in A. apply N.ltb_lt in B. now rewrite A, B in E. }
        destruct IH as [(q & Hq & Hqi & Hqf & Hr)|[Hr Hno]]; [left|right].
        * exists q. split; auto. split; [now right|]. auto.
        * split; auto. intros q [<-|Hq]; auto.
    - destruct IH as [(q & Hq & Hqi & Hqf & Hr)|[Hr Hno]]; [left|right].
      + exists q. split; auto. split; [now right|]. auto.
      + split; auto. intros q [<-|Hq]; auto. intros [_ ?]. contradiction.
  Qed.

  (** [ends p addr]: an empty symbol may be at the end of a segment *)
  Lemma find_file_offset_loop_ok : forall l addr size, incl l (i_segments e) ->
    let P p := in_memory p addr \/ (size = 0 /\ addr = p_vaddr p + p_filesz p) in
    (exists p, loads e p /\ In p l /\ P p /\
       find_file_offset_loop m l addr size = Ok (Some (addr - p_vaddr p + p_offset p))) \/
    (find_file_offset_loop m l addr size = Ok None /\ forall p, In p l -> loads e p -> ~ P p).
  Proof.
    induction l as [|p l IH]; intros addr size Hi P; [right; split; [reflexivity|intros ? []]|].
    apply incl_cons_inv in Hi. destruct Hi as [Hp Hi]. specialize (IH addr size Hi). cbv zeta in IH. fold P in IH.
    cbn [find_file_offset_loop].
    unfold PT_LOAD. destruct (N.eqb_spec (p_type p) 1) as [Et|Et].
    - assert (Hl : loads e p) by (split; auto). destruct (Hok p Hl) as [H1 H2].
      unfold add64, sub64. rewrite uadd_small by exact H2. cbn [bind].
      assert (HP : ((p_vaddr p <=? addr) && (addr <? p_vaddr p + p_filesz p)) ||
                   ((addr =? p_vaddr p + p_filesz p) && (size =? 0)) = true <-> P p).
      { unfold P, in_memory. rewrite orb_true_iff, !andb_true_iff, N.leb_le, N.ltb_lt, !N.eqb_eq. tauto. }
      destruct (_ || _) eqn:E.
      + left. exists p. pose proof (proj1 HP eq_refl) as HPp.
        assert (Hle : p_vaddr p <= addr <= p_vaddr p + p_filesz p) by (unfold P, in_memory in HPp; lia).
        rewrite usub_small by lia. cbn [bind]. rewrite uadd_small by lia. cbn [bind].
        split; auto. split; [now left|]. split; auto.
      + assert (Hn : ~ P p) by (intros H; apply HP in H; discriminate).
        destruct IH as [(q & Hq & Hqi & Hqf & Hr)|[Hr Hno]]; [left|right].
        * exists q. split; auto. split; [now right|]. auto.
        * split; auto. intros q [<-|Hq]; auto.
    - destruct IH as [(q & Hq & Hqi & Hqf & Hr)|[Hr Hno]]; [left|right].
      + exists q. split; auto. split; [now right|]. auto.
      + split; auto. intros q [<-|Hq]; auto. intros [_ ?]. contradiction.
  Qed.
End Segments.
