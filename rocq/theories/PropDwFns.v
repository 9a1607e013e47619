(** * C39: functions and inlined calls *)

From Verif Require Import Base Util UtilProofs Search Depmod Dwarf DwarfSpec Lists Sym Nom PropDwLines PropDwUnits PropDwNames.
From Coq Require Import Permutation Sorted.
Local Open Scope N_scope.

(** ** Trees and their storage *)
Scheme stored_mut := Induction for stored Sort Prop
  with stored_list_mut := Induction for stored_list Sort Prop.
Combined Scheme stored_both from stored_mut, stored_list_mut.

Definition holds_in (l : list tree) (off : N) (d : die) : Prop :=
  exists x t, In t l /\ in_tree x t /\ t_off x = off /\ t_tag x = d_tag d /\ t_attrs x = d_attrs d.
(** The entries stored are those of the tree. *)
Lemma stored_entries :
  (forall t s, stored t s -> forall off d, In (off, IDie d) s <->
     exists x, in_tree x t /\ t_off x = off /\ d = Die (t_tag x) (match x with Node _ _ _ (Some _) => true | _ => false end) (t_attrs x)) /\
  (forall l s, stored_list l s -> forall off d, In (off, IDie d) s <->
     exists t x, In t l /\ in_tree x t /\ t_off x = off /\
       d = Die (t_tag x) (match x with Node _ _ _ (Some _) => true | _ => false end) (t_attrs x)).
Proof.
  apply stored_both.
  - intros off tag attrs off' d. split.
    + intros [H|[]]. injection H as <- <-. exists (Node off tag attrs None). repeat split. apply InHere.
    + intros (x & H & E1 & E2). inversion H; subst; [now left|]. destruct H0.
  - intros off tag attrs l s o Hs IH off' d. split.
    + intros [H|H].
      * injection H as <- <-. exists (Node off tag attrs (Some l)). repeat split. apply InHere.
      * apply in_app_iff in H. destruct H as [H|[H|[]]]; [|discriminate]. apply IH in H.
        destruct H as (t & x & H1 & H2 & H3). exists x. split; auto. apply InChild with (c := t); auto.
    + intros (x & H & E1 & E2). inversion H; subst; [now left|]. right. apply in_app_iff. left. apply IH. eauto 6.
  - intros off d. split; [intros []|]. intros (t & x & [] & _).
  - intros t l s1 s2 H1 IH1 H2 IH2 off d. rewrite in_app_iff, IH1, IH2. split.
    + intros [(x & H)|(t' & x & H & H')]; [exists t, x|exists t', x]; split; auto; [now left|now right].
    + intros (t' & x & [<-|H] & H'); [left; eauto|right; eauto].
Qed.
(** Subtrees are stored in one piece. *)
Lemma stored_sub :
  (forall t s, stored t s -> forall x, in_tree x t -> exists pre sx post, s = pre ++ sx ++ post /\ stored x sx) /\
  (forall l s, stored_list l s -> forall t x, In t l -> in_tree x t -> exists pre sx post, s = pre ++ sx ++ post /\ stored x sx).
Proof.
  apply stored_both.
  - intros off tag attrs x H. inversion H; subst; [|destruct H0].
    exists [], [(off, IDie (Die tag false attrs))], []. split; [now rewrite app_nil_r|constructor].
  - intros off tag attrs l s o Hs IH x H. inversion H; subst.
    + exists [], ((off, IDie (Die tag true attrs)) :: s ++ [(o, INull)]), []. split; [now rewrite app_nil_r|now constructor].
    + destruct (IH _ _ H0 H1) as (pre & sx & post & -> & Hx). exists ((off, IDie (Die tag true attrs)) :: pre), sx, (post ++ [(o, INull)]).
      split; auto. cbn [app]. now rewrite <- !app_assoc.
  - intros t x [].
  - intros t l s1 s2 H1 IH1 H2 IH2 t' x [<-|Hin] Hx.
    + destruct (IH1 _ Hx) as (pre & sx & post & -> & Hs). exists pre, sx, (post ++ s2). split; auto. now rewrite <- !app_assoc.
    + destruct (IH2 _ _ Hin Hx) as (pre & sx & post & -> & Hs). exists (s1 ++ pre), sx, post. split; auto. now rewrite <- !app_assoc.
Qed.
Lemma stored_head : forall x sx, stored x sx -> exists i s', sx = (t_off x, i) :: s'.
Proof. intros x sx H. destruct H; cbn [t_off]; eauto. Qed.
(** Reading starts at any entry. *)
Lemma unit_tree_at : forall b t x, unit_tree b t -> in_tree x t -> exists sx post, stored x sx /\ b_at b (t_off x) = Some (sx ++ post).
Proof.
  intros b t x (s & Hs & _ & Hat) Hx. destruct (proj1 stored_sub t s Hs x Hx) as (pre & sx & post & E & Hsx).
  destruct (stored_head _ _ Hsx) as (i & s' & E'). exists sx, post. split; auto. rewrite E'. cbn [app].
  apply (Hat pre). now rewrite E, E'.
Qed.

(** ** Functions of a unit *)
Lemma bounds_ok : forall m b attrs ra rg, ranges_wf b attrs -> range_attrs b attrs no_rattrs = Ok ra -> bounds m ra = Ok rg ->
  (forall lo hi, low_of b attrs lo -> high_of b attrs lo hi -> rg = Some (Range lo hi)) /\
  ((forall lo hi, low_of b attrs lo -> ~ high_of b attrs lo hi) -> rg = None).
Proof.
  intros m b attrs ra rg (U1 & U2 & U3 & Hfit) H Hb.
  pose proof (fold_low _ _ _ U1 H) as Flo. destruct (fold_high _ _ _ U2 H) as [Fhi Fsz]. unfold bounds in Hb.
  assert (Hsz : forall lo n, ra_low ra = Some lo -> ra_size ra = Some n -> low_of b attrs lo /\ high_of b attrs lo (lo + n)).
  { intros lo n H1 H2. apply Flo in H1. apply Fsz in H2. split; auto. exists (VUdata n). split; auto. right. eauto. }
  assert (Hhi : forall lo hi, ra_low ra = Some lo -> ra_high ra = Some hi -> low_of b attrs lo /\ high_of b attrs lo hi).
  { intros lo hi H1 H2. apply Flo in H1. apply Fhi in H2. split; auto. destruct H2 as (v & Hv & Ha). exists v. auto. }
  split.
  - intros lo hi Hl (v & Hv & Hh). apply Flo in Hl. rewrite Hl in Hb.
    destruct Hh as [Ha|(n & -> & ->)].
    + assert (E : ra_high ra = Some hi) by (apply Fhi; eauto). rewrite E in Hb. now injection Hb as <-.
    + pose proof Hv as Hv'. apply Fsz in Hv. rewrite Hv in Hb.
      assert (E : ra_high ra = None).
      { destruct (ra_high ra) as [h|] eqn:Eh; auto. exfalso. destruct (proj1 (Fhi h) eq_refl) as (v' & Hx & Ha').
        destruct (has_split attrs AHigh U2) as [Hn|(l1 & v1 & l2 & _ & _ & _ & Hu)]; [now apply (Hn v')|].
        rewrite (Hu _ Hx) in Ha'. rewrite <- (Hu _ Hv') in Ha'. destruct Ha' as [Ha'|(i & Ha' & _)]; discriminate. }
      rewrite E in Hb. ib Hb x Ex. injection Hb as <-. unfold add64 in Ex. destruct (Hsz _ _ Hl Hv) as [K1 K2].
      rewrite uadd_small in Ex by (eapply Hfit; eauto). now injection Ex as <-.
  - intros Hno. destruct (ra_low ra) as [lo|] eqn:El; [|now injection Hb as <-].
    destruct (ra_high ra) as [hi|] eqn:Eh; [exfalso; destruct (Hhi _ _ eq_refl eq_refl); eapply Hno; eauto|].
    destruct (ra_size ra) as [n|] eqn:Es; [exfalso; destruct (Hsz _ _ eq_refl eq_refl); eapply Hno; eauto|].
    now injection Hb as <-.
Qed.

(** The functions made of entries; here an entry is an offset and attributes. *)
Definition made_of (us : units) (b : body) (off : N) (attrs : list (option attr)) (f : dfn) : Prop :=
  f_off f = off /\
  (forall s, names_wf attrs -> names_function us name_limit b attrs s -> f_fname f = Some s) /\
  (forall lo hi, low_of b attrs lo -> high_of b attrs lo hi -> f_range f = Some (Range lo hi)) /\
  ((forall lo hi, low_of b attrs lo -> ~ high_of b attrs lo hi) -> f_range f = None).
Definition sub_entry (s : stream) (off : N) (attrs : list (option attr)) : Prop :=
  exists d, In (off, IDie d) s /\ d_tag d = TSubprogram /\ d_attrs d = attrs.
Definition fns_ok (us : units) (b : body) (s : stream) (fns : list dfn) (addrs : list fn_addr) : Prop :=
  (forall a, In a addrs -> exists f off attrs, nnth (fa_fn a) fns = Some f /\ sub_entry s off attrs /\ made_of us b off attrs f /\
     declares b attrs (fa_range a) /\ r_begin (fa_range a) < r_end (fa_range a)) /\
  (forall off attrs r, sub_entry s off attrs -> declares b attrs r -> r_begin r < r_end r ->
     exists a f, In a addrs /\ fa_range a = r /\ nnth (fa_fn a) fns = Some f /\ made_of us b off attrs f).

Lemma sub_entry_app : forall s1 s2 off attrs, sub_entry (s1 ++ s2) off attrs <-> sub_entry s1 off attrs \/ sub_entry s2 off attrs.
Proof.
  intros s1 s2 off attrs. unfold sub_entry. split.
  - intros (d & H & H'). apply in_app_iff in H. destruct H; eauto.
  - intros [(d & H & H')|(d & H & H')]; exists d; rewrite in_app_iff; auto.
Qed.
Lemma sub_entry_one : forall o i off attrs, sub_entry [(o, i)] off attrs -> exists d, i = IDie d /\ d_tag d = TSubprogram /\ o = off /\ d_attrs d = attrs.
Proof. intros o i off attrs (d & [H|[]] & H1 & H2). injection H as -> ->. eauto. Qed.

Lemma fns_loop_ok : forall m pick us b s done fns addrs fns' addrs', units_ordered us -> headers_wf us ->
  (forall off attrs, sub_entry s off attrs -> ranges_wf b attrs) ->
  fns_ok us b done (rev fns) (rev addrs) -> fns_loop m pick us b s fns addrs = Ok (fns', addrs') ->
  fns_ok us b (done ++ s) fns' addrs'.
Proof.
  intros m pick us b. induction s as [|[o i] s IH]; intros done fns addrs fns' addrs' Ho Hh Hwf Hok H; cbn [fns_loop] in H.
  - injection H as <- <-. now rewrite app_nil_r.
  - replace (done ++ (o, i) :: s) with ((done ++ [(o, i)]) ++ s) by (rewrite <- app_assoc; reflexivity).
    assert (Hwf' : forall off attrs, sub_entry s off attrs -> ranges_wf b attrs).
    { intros off attrs Hs. apply (Hwf off). change ((o, i) :: s) with ([(o, i)] ++ s). apply sub_entry_app. now right. }
    assert (Hskip : (forall off attrs r, sub_entry [(o, i)] off attrs -> declares b attrs r -> r_begin r < r_end r -> False) ->
      fns_ok us b (done ++ [(o, i)]) (rev fns) (rev addrs)).
    { intros Hno. destruct Hok as [H1 H2]. split.
      - intros a Ha. destruct (H1 a Ha) as (f & off & attrs & E1 & E2 & E3). exists f, off, attrs. split; auto. split; auto.
        apply sub_entry_app. now left.
      - intros off attrs r Hs Hd Hr. apply sub_entry_app in Hs. destruct Hs as [Hs|Hs]; [eauto|]. exfalso. eauto. }
    destruct i as [|d|].
    + eapply IH; [auto|auto|auto| |exact H]. apply Hskip. intros off attrs r Hs. destruct (sub_entry_one _ _ _ _ Hs) as (d & E & _). discriminate.
    + destruct (d_tag d) eqn:Et.
      * ib H x Ex. destruct x as [name ra]. ib H rs Ers. apply fn_attrs_names in Ex. destruct Ex as [En Era].
        assert (Hw : ranges_wf b (d_attrs d)) by (apply (Hwf o); exists d; split; [now left|auto]).
        pose proof (ranges_declared m b (d_attrs d) ra rs Hw Era Ers) as HD.
        destruct rs as [|r0 rs].
        { eapply IH; [auto|auto|auto| |exact H]. apply Hskip. intros off attrs r Hs Hd Hr.
          destruct (sub_entry_one _ _ _ _ Hs) as (d' & E & _ & _ & <-). injection E as <-. apply (HD r). auto. }
        set (rs0 := r0 :: rs) in *. ib H bnd Eb. destruct (bounds_ok m b (d_attrs d) ra bnd Hw Era Eb) as [B1 B2].
        set (f := DFn o name bnd) in *.
        assert (Hmade : made_of us b o (d_attrs d) f).
        { split; [reflexivity|]. split; [|split; auto]. intros str Hnw Hn. cbn [f_fname f].
          eapply fn_names_ok; eauto. }
        eapply IH; [auto|auto|auto| |exact H]. destruct Hok as [H1 H2].
        assert (Hnew : nnth (nlen fns) (rev (f :: fns)) = Some f).
        { cbn [rev]. rewrite <- (nlen_rev _ fns). apply nnth_snoc_new. }
        rewrite rev_app_distr, rev_involutive. split.
        { intros a Ha. apply in_app_iff in Ha. destruct Ha as [Ha|Ha].
          - destruct (H1 a Ha) as (f' & off & attrs & E1 & E2 & E3). exists f', off, attrs. split; [cbn [rev]; now apply nnth_snoc_old|].
            split; auto. apply sub_entry_app. now left.
          - apply in_map_iff in Ha. destruct Ha as (r & <- & Hr). cbn [fa_fn fa_range]. apply HD in Hr.
            exists f, o, (d_attrs d). split; auto. split; [|tauto]. apply sub_entry_app. right. exists d. split; [now left|auto]. }
        { intros off attrs r Hs Hd Hr. apply sub_entry_app in Hs. destruct Hs as [Hs|Hs].
          - destruct (H2 off attrs r Hs Hd Hr) as (a & f' & E1 & E2 & E3 & E4). exists a, f'. split; [apply in_app_iff; now left|].
            split; auto. split; auto. cbn [rev]. now apply nnth_snoc_old.
          - destruct (sub_entry_one _ _ _ _ Hs) as (d' & E & _ & <- & <-). injection E as <-.
            exists (FnAddr r (nlen fns)), f. split; [|split; [reflexivity|split; auto]].
            apply in_app_iff. right. apply in_map_iff. exists r. split; auto. apply HD. auto. }
      * ib H u Eu. eapply IH; [auto|auto|auto| |exact H]. apply Hskip. intros off attrs r Hs.
        destruct (sub_entry_one _ _ _ _ Hs) as (d' & E & Hd & _). injection E as <-. congruence.
      * ib H u Eu. eapply IH; [auto|auto|auto| |exact H]. apply Hskip. intros off attrs r Hs.
        destruct (sub_entry_one _ _ _ _ Hs) as (d' & E & Hd & _). injection E as <-. congruence.
    + discriminate.
Qed.

(** The same in terms of the tree *)
Lemma sub_entry_tree : forall t s, stored t s -> forall off attrs, sub_entry s off attrs <->
  exists x, is_function t x /\ t_off x = off /\ t_attrs x = attrs.
Proof.
  intros t s Hs off attrs. unfold sub_entry, is_function. split.
  - intros (d & H & Ht & Ha). apply (proj1 stored_entries t s Hs) in H. destruct H as (x & Hx & Eo & ->).
    cbn [d_tag d_attrs] in *. exists x. auto.
  - intros (x & [Hx Ht] & Eo & Ea). eexists. split; [apply (proj1 stored_entries t s Hs); exists x; split; [exact Hx|split; [exact Eo|reflexivity]]|].
    cbn [d_tag d_attrs]. auto.
Qed.
Lemma functions_ok : forall m srt pick us b t fs, sorter_ok srt -> units_ordered us -> headers_wf us -> unit_tree b t ->
  (forall x, is_function t x -> ranges_wf b (t_attrs x)) -> functions_parse m srt pick us b = Ok fs ->
  StronglySorted (fun a b => r_begin (fa_range a) <= r_begin (fa_range b)) (fs_addrs fs) /\
  (forall a, In a (fs_addrs fs) -> exists f x, nnth (fa_fn a) (fs_fns fs) = Some f /\ is_function t x /\ fn_of us name_limit b x f /\
     declares b (t_attrs x) (fa_range a) /\ r_begin (fa_range a) < r_end (fa_range a)) /\
  (forall x r, is_function t x -> declares b (t_attrs x) r -> r_begin r < r_end r ->
     exists a f, In a (fs_addrs fs) /\ fa_range a = r /\ nnth (fa_fn a) (fs_fns fs) = Some f /\ fn_of us name_limit b x f).
Proof.
  intros m srt pick us b t fs Hsrt Ho Hh (s & Hs & Hb & _) Hwf H. unfold functions_parse in H. rewrite Hb in H. cbn [g of_option bind] in H.
  ib H x Ex. destruct x as [fns addrs]. injection H as <-. cbn [fs_fns fs_addrs].
  destruct (sorts_by_key srt _ (fun a => r_begin (fa_range a)) addrs Hsrt) as [Hp Hsort]. split; [exact Hsort|].
  assert (Hok : fns_ok us b ([] ++ s) fns addrs).
  { eapply fns_loop_ok; [auto|auto| | |exact Ex].
    - intros off attrs Hse. apply (sub_entry_tree t s Hs) in Hse. destruct Hse as (x & Hx & _ & <-). auto.
    - split; [intros a []|]. intros off attrs r (d & [] & _). }
  cbn [app] in Hok. destruct Hok as [H1 H2]. split.
  - intros a Ha. apply (Permutation_in _ (Permutation_sym Hp)) in Ha. destruct (H1 a Ha) as (f & off & attrs & E1 & E2 & E3 & E4).
    apply (sub_entry_tree t s Hs) in E2. destruct E2 as (x & Hx & Eo & Ea). exists f, x. subst off attrs. split; auto.
  - intros x r Hx Hd Hr. destruct (H2 (t_off x) (t_attrs x) r) as (a & f & E1 & E2 & E3 & E4); auto.
    + apply (sub_entry_tree t s Hs). eauto.
    + exists a, f. split; [now apply (Permutation_in _ Hp)|]. auto.
Qed.

(** ** Looking functions up *)
Lemma fn_cmp_eq : forall probe a, fn_cmp probe a = Eq <-> covers (fa_range a) probe.
Proof.
  intros probe a. unfold fn_cmp, covers. destruct (N.ltb_spec probe (r_begin (fa_range a))); [split; [discriminate|lia]|].
  destruct (N.leb_spec (r_end (fa_range a)) probe); split; auto; try discriminate; lia.
Qed.
Lemma fn_cmp_sorted : forall probe l, StronglySorted (fun a b => r_begin (fa_range a) <= r_begin (fa_range b)) l ->
  (forall a, In a l -> r_begin (fa_range a) < r_end (fa_range a)) ->
  (forall a b, In a l -> In b l -> fa_range a = fa_range b \/ disjoint (fa_range a) (fa_range b)) -> cmp_sorted (fn_cmp probe) l.
Proof.
  intros probe l Hs Hne Hap i j a b Hij Ha Hb.
  assert (Hle : r_begin (fa_range a) <= r_begin (fa_range b)).
  { apply Nat.lt_eq_cases in Hij. destruct Hij as [Hlt|<-]; [|assert (a = b) by congruence; subst; lia].
    now apply (StronglySorted_nth _ _ _ _ _ _ _ Hs Hlt Ha Hb). }
  assert (Ia : In a l) by (eapply nth_error_In; eauto). assert (Ib : In b l) by (eapply nth_error_In; eauto).
  pose proof (Hne a Ia). pose proof (Hne b Ib).
  assert (Hd : fa_range a = fa_range b \/ r_end (fa_range a) <= r_begin (fa_range b)).
  { destruct (Hap a b Ia Ib) as [E|E]; auto. right. destruct (N.le_gt_cases (r_end (fa_range a)) (r_begin (fa_range b))) as [|Hgt]; auto.
    exfalso. apply (E (r_begin (fa_range b))); unfold covers; lia. }
  unfold fn_cmp. destruct (N.ltb_spec probe (r_begin (fa_range a))), (N.ltb_spec probe (r_begin (fa_range b)));
    destruct (N.leb_spec (r_end (fa_range a)) probe), (N.leb_spec (r_end (fa_range b)) probe); split; intros; auto; try discriminate; try lia;
    destruct Hd as [E|E]; try (rewrite E in *); try lia.
Qed.

(** A function that is found contains the address, whatever the ranges are. *)
Theorem C39_sound : forall m srt pick us u b t probe f, sorter_ok srt -> units_ordered us -> headers_wf us ->
  unit_body u b -> unit_tree b t -> (forall x, is_function t x -> ranges_wf b (t_attrs x)) ->
  unit_find_function m srt pick us u probe = Ok (Some f) ->
  exists x, is_function t x /\ fn_of us name_limit b x f /\ entry_covers b x probe.
Proof.
  intros m srt pick us u b t probe f Hsrt Ho Hh Hu Ht Hwf H. unfold unit_find_function, unit_functions in H.
  apply unit_ref_body in Hu. rewrite Hu in H. cbn [bind] in H. ib H fs Efs.
  destruct (functions_ok m srt pick us b t fs Hsrt Ho Hh Ht Hwf Efs) as (_ & H1 & _).
  unfold find_address in H. destruct (binary_search_by pick (fs_addrs fs) (fn_cmp probe)) as [i|n] eqn:Eb; [|discriminate].
  apply bsearch_found in Eb. destruct Eb as (a & Ha & Ea). rewrite Ha in H. cbn [unwrap bind] in H.
  destruct (H1 a (nth_error_In _ _ Ha)) as (f' & x & E1 & E2 & E3 & E4 & E5). rewrite E1 in H. cbn [unwrap bind] in H. injection H as ->.
  exists x. split; auto. split; auto. exists (fa_range a). split; auto. now apply fn_cmp_eq.
Qed.
(** If ranges do not overlap a function that contains the address is found. *)
Theorem C39_found : forall m srt pick us u b t probe x fs, sorter_ok srt -> units_ordered us -> headers_wf us ->
  unit_body u b -> unit_tree b t -> (forall x, is_function t x -> ranges_wf b (t_attrs x)) -> functions_apart b t ->
  functions_parse m srt pick us b = Ok fs -> is_function t x -> entry_covers b x probe ->
  exists f y, unit_find_function m srt pick us u probe = Ok (Some f) /\ is_function t y /\ fn_of us name_limit b y f /\ entry_covers b y probe.
Proof.
  intros m srt pick us u b t probe x fs Hsrt Ho Hh Hu Ht Hwf Hap Efs Hx (r & Hr & Hc).
  destruct (functions_ok m srt pick us b t fs Hsrt Ho Hh Ht Hwf Efs) as (Hs & H1 & H2).
  assert (Hf : exists f, unit_find_function m srt pick us u probe = Ok (Some f)).
  { unfold unit_find_function, unit_functions. pose proof Hu as Hu'. apply unit_ref_body in Hu'. rewrite Hu'. cbn [bind]. rewrite Efs. cbn [bind].
    unfold find_address. destruct (H2 x r Hx Hr) as (a & f & E1 & E2 & E3 & E4); [unfold covers in Hc; lia|].
    assert (Hcmp : cmp_sorted (fn_cmp probe) (fs_addrs fs)).
    { apply fn_cmp_sorted; auto.
      - intros a' Ha'. destruct (H1 a' Ha') as (_ & _ & _ & _ & _ & _ & H). exact H.
      - intros a1 a2 I1 I2. destruct (H1 a1 I1) as (_ & x1 & _ & F1 & _ & D1 & _), (H1 a2 I2) as (_ & x2 & _ & F2 & _ & D2 & _). apply (Hap x1 x2); auto. }
    pose proof (bsearch_spec _ pick (fs_addrs fs) (fn_cmp probe) Hcmp) as B.
    assert (Ea : fn_cmp probe a = Eq) by (apply fn_cmp_eq; now rewrite E2).
    destruct (binary_search_by pick (fs_addrs fs) (fn_cmp probe)) as [i|n].
    - destruct B as (a' & Ha' & _). rewrite Ha'. cbn [unwrap bind]. destruct (H1 a' (nth_error_In _ _ Ha')) as (f' & _ & F & _). rewrite F. cbn [unwrap bind]. eauto.
    - exfalso. destruct B as (_ & Hlt & Hgt). apply In_nth_error in E1. destruct E1 as [j Hj].
      destruct (Nat.lt_ge_cases j n) as [H|H]; [specialize (Hlt _ _ Hj H)|specialize (Hgt _ _ Hj H)]; congruence. }
  destruct Hf as [f Hf]. exists f. destruct (C39_sound m srt pick us u b t probe f Hsrt Ho Hh Hu Ht Hwf Hf) as (y & K1 & K2 & K3). eauto.
Qed.
(** If no function contains the address none is found. *)
Theorem C39_none : forall m srt pick us u b t probe fs, sorter_ok srt -> units_ordered us -> headers_wf us ->
  unit_body u b -> unit_tree b t -> (forall x, is_function t x -> ranges_wf b (t_attrs x)) ->
  functions_parse m srt pick us b = Ok fs -> (forall x, is_function t x -> ~ entry_covers b x probe) ->
  unit_find_function m srt pick us u probe = Ok None.
Proof.
  intros m srt pick us u b t probe fs Hsrt Ho Hh Hu Ht Hwf Efs Hno.
  destruct (functions_ok m srt pick us b t fs Hsrt Ho Hh Ht Hwf Efs) as (Hs & H1 & H2).
  unfold unit_find_function, unit_functions. apply unit_ref_body in Hu. rewrite Hu. cbn [bind]. rewrite Efs. cbn [bind].
  unfold find_address. destruct (binary_search_by pick (fs_addrs fs) (fn_cmp probe)) as [i|n] eqn:Eb; [|reflexivity].
  exfalso. apply bsearch_found in Eb. destruct Eb as (a & Ha & Ea).
  destruct (H1 a (nth_error_In _ _ Ha)) as (f' & x & _ & E2 & _ & E4 & _). apply (Hno x E2). exists (fa_range a). split; auto. now apply fn_cmp_eq.
Qed.
Print Assumptions C39_sound.
Print Assumptions C39_found.
Print Assumptions C39_none.
