(** * C42: names of functions *)

From Verif Require Import Base Util UtilProofs Search Depmod Dwarf DwarfSpec Lists Sym Nom PropDwLines PropDwUnits.
From Coq Require Import Permutation Sorted.
Local Open Scope N_scope.

(** ** Finding the unit of an offset *)
Lemma units_cmp : forall us off, units_ordered us -> cmp_sorted (fun u => u_offset u ?= off) (us_units us).
Proof.
  intros us off Ho i j a b Hij Ha Hb.
  assert (u_offset a <= u_offset b).
  { apply Nat.lt_eq_cases in Hij. destruct Hij as [Hlt|<-]; [|assert (a = b) by congruence; subst; lia].
    pose proof (Ho i j a b Hlt Ha Hb). lia. }
  rewrite !N.compare_lt_iff, !N.compare_gt_iff. lia.
Qed.
Lemma unit_ref_body : forall u b, unit_ref u = Ok b <-> unit_body u b.
Proof.
  intros u b. unfold unit_ref, unit_body. destruct (u_main u) as [mb|]; cbn [g of_option bind].
  2:{ split; [discriminate|]. intros [[x Hx] _]. discriminate. }
  destruct (u_dwo u) as [[d|]|]; cbn [g of_option bind].
  - split; [intros H; injection H as <-; eauto|]. intros [_ [H|[H _]]]; congruence.
  - split; [intros H; injection H as <-; eauto|]. intros [_ [H|[_ H]]]; congruence.
  - split; [discriminate|]. intros [_ [H|[H _]]]; congruence.
Qed.
Lemma find_unit_complete : forall pick us u b off, units_ordered us -> headers_wf us ->
  In u (us_units us) -> unit_body u b -> u_offset u + u_header_size u <= off ->
  off < u_offset u + u_header_size u + u_entries_len u -> find_unit pick us off = Ok (b, off - u_offset u).
Proof.
  intros pick us u b off Ho Hh Hin Hb H1 H2. pose proof (Hh u Hin) as Hpos.
  apply In_nth_error in Hin. destruct Hin as [k Hk]. unfold find_unit.
  pose proof (bsearch_spec _ pick _ _ (units_cmp us off Ho)) as B.
  destruct (binary_search_by pick (us_units us) (fun u0 => u_offset u0 ?= off)) as [i|n].
  - exfalso. destruct B as (x & Hx & E). apply N.compare_eq in E.
    destruct (Nat.lt_trichotomy i k) as [H|[->|H]].
    + pose proof (Ho i k x u H Hx Hk). lia.
    + assert (x = u) by congruence. subst. lia.
    + pose proof (Ho k i u x H Hk Hx). lia.
  - destruct B as (Hn & Hlt & Hgt).
    assert (n = S k).
    { destruct (Nat.lt_trichotomy n (S k)) as [H|[H|H]]; auto; exfalso.
      - specialize (Hgt k u Hk ltac:(lia)). cbv beta in Hgt. rewrite N.compare_gt_iff in Hgt. lia.
      - destruct (nth_error_lt_some _ (us_units us) (S k)) as [x Hx]; [lia|].
        specialize (Hlt (S k) x Hx H). cbv beta in Hlt. rewrite N.compare_lt_iff in Hlt.
        pose proof (Ho k (S k) u x ltac:(lia) Hk Hx). lia. }
    subst n. rewrite Hk. cbn [unwrap bind].
    replace (u_offset u <=? off) with true by (symmetry; apply N.leb_le; lia).
    replace (u_header_size u <=? off - u_offset u) with true by (symmetry; apply N.leb_le; lia).
    replace (off - u_offset u - u_header_size u <? u_entries_len u) with true by (symmetry; apply N.ltb_lt; lia).
    cbn [andb bind]. apply unit_ref_body in Hb. rewrite Hb. reflexivity.
Qed.
Lemma find_unit_sound : forall pick us off b uoff, find_unit pick us off = Ok (b, uoff) ->
  exists u, In u (us_units us) /\ unit_body u b /\ u_offset u + u_header_size u <= off /\
    off < u_offset u + u_header_size u + u_entries_len u /\ uoff = off - u_offset u.
Proof.
  intros pick us off b uoff H. unfold find_unit in H.
  destruct (binary_search_by _ _ _) as [i|[|n]]; try discriminate.
  ib H u Eu. ib H x Ex. ib H y Ey. injection H as <- <-.
  destruct ((u_offset u <=? off) && (u_header_size u <=? off - u_offset u) && (off - u_offset u - u_header_size u <? u_entries_len u)) eqn:E;
    [|discriminate]. injection Ex as <-. apply andb_true_iff in E. destruct E as [E E3]. apply andb_true_iff in E. destruct E as [E1 E2].
  apply N.leb_le in E1. apply N.leb_le in E2. apply N.ltb_lt in E3.
  exists u. split; [|split; [now apply unit_ref_body|repeat split; lia]].
  destruct (nth_error (us_units us) n) as [w|] eqn:En; [|discriminate]. injection Eu as ->. eapply nth_error_In; eauto.
Qed.

(** ** One entry *)
Lemma scan_linkage : forall l n0 nx0, readable l -> (exists s, linkage_name l s) ->
  exists s, linkage_name l s /\ name_scan l n0 nx0 = Ok (Some s, None).
Proof.
  induction l as [|a l IH]; intros n0 nx0 Hr [s (n & Hln & Hs)]; [destruct Hs|].
  inversion Hr as [|x y Ha Hl]; subst. destruct a as [[an av]|]; [|congruence]. cbn [name_scan g of_option bind a_name a_value].
  assert (Hmore : forall s, linkage_name l s -> linkage_name (Some (Attr an av) :: l) s).
  { intros s' (n' & H1 & H2). exists n'. split; auto. now right. }
  assert (Hrest : forall n0 nx0, ~ (is_linkage an /\ exists s, attr_string av = Some s) ->
     exists s, linkage_name (Some (Attr an av) :: l) s /\ name_scan l n0 nx0 = Ok (Some s, None)).
  { intros n1 nx1 Hno. destruct (IH n1 nx1 Hl) as (s' & H1 & H2); [|eauto]. exists s, n. split; auto.
    destruct Hs as [Hs|Hs]; auto. exfalso. injection Hs as -> ->. apply Hno. split; auto. exists s. reflexivity. }
  assert (Hlk : forall s, attr_string av = Some s -> is_linkage an -> linkage_name (Some (Attr an av) :: l) s).
  { intros s' Hav Hn. exists an. split; auto. left. destruct av; try discriminate. cbn [attr_string] in Hav. now subst. }
  destruct an; try (apply Hrest; intros [[E|E] _]; discriminate);
    try (destruct (attr_string av) as [s'|] eqn:Eav;
         [exists s'; split; [apply Hlk; [reflexivity|unfold is_linkage; auto]|reflexivity]
         |apply Hrest; intros [_ [s' E]]; discriminate]).
  destruct (attr_string av); apply Hrest; intros [[E|E] _]; discriminate.
Qed.
Lemma scan_other : forall l n0 nx0, readable l -> (forall s, ~ linkage_name l s) ->
  exists n nx, name_scan l n0 nx0 = Ok (n, nx) /\
    ((forall s, ~ plain_name l s) /\ n = n0 \/ exists s, plain_name l s /\ n = Some s) /\
    ((forall v, ~ refers_on l v) /\ nx = nx0 \/ exists v, refers_on l v /\ nx = Some v).
Proof.
  induction l as [|a l IH]; intros n0 nx0 Hr Hnl.
  { exists n0, nx0. split; [reflexivity|]. split; left; (split; [|reflexivity]).
    - intros s [].
    - intros v (n & _ & []). }
  inversion Hr as [|x y Ha Hl]; subst. destruct a as [[an av]|]; [|congruence]. cbn [name_scan g of_option bind a_name a_value].
  assert (Hnl' : forall s, ~ linkage_name l s) by (intros s (n & H1 & H2); apply (Hnl s); exists n; split; auto; now right).
  (* neither a name nor a reference *)
  assert (Hskip : (forall s, ~ (an = AName /\ attr_string av = Some s)) -> ~ is_ref an ->
    exists n nx, name_scan l n0 nx0 = Ok (n, nx) /\
    ((forall s, ~ plain_name (Some (Attr an av) :: l) s) /\ n = n0 \/ exists s, plain_name (Some (Attr an av) :: l) s /\ n = Some s) /\
    ((forall v, ~ refers_on (Some (Attr an av) :: l) v) /\ nx = nx0 \/ exists v, refers_on (Some (Attr an av) :: l) v /\ nx = Some v)).
  { intros Hp Hf. destruct (IH n0 nx0 Hl Hnl') as (n & nx & E & H1 & H2). exists n, nx. split; [exact E|]. split.
    - destruct H1 as [[H1 ->]|(s & H1 & ->)]; [left|right; exists s; split; auto; now right]. split; auto.
      intros s [Hs|Hs]; [|now apply (H1 s)]. injection Hs as -> ->. now apply (Hp s).
    - destruct H2 as [[H2 ->]|(v & (k & K1 & K2) & ->)].
      + left. split; auto. intros v (k & K1 & [K2|K2]); [injection K2 as -> ->; auto|]. apply (H2 v). exists k. auto.
      + right. exists v. split; auto. exists k. split; auto. now right. }
  assert (Href : is_ref an -> exists n nx, name_scan l n0 (Some av) = Ok (n, nx) /\
    ((forall s, ~ plain_name (Some (Attr an av) :: l) s) /\ n = n0 \/ exists s, plain_name (Some (Attr an av) :: l) s /\ n = Some s) /\
    ((forall v, ~ refers_on (Some (Attr an av) :: l) v) /\ nx = nx0 \/ exists v, refers_on (Some (Attr an av) :: l) v /\ nx = Some v)).
  { intros Hf. destruct (IH n0 (Some av) Hl Hnl') as (n & nx & E & H1 & H2). exists n, nx. split; [exact E|]. split.
    - destruct H1 as [[H1 ->]|(s & H1 & ->)]; [left|right; exists s; split; auto; now right]. split; auto.
      intros s [Hs|Hs]; [|now apply (H1 s)]. injection Hs as -> ->. destruct Hf; discriminate.
    - right. destruct H2 as [[H2 ->]|(v & (k & K1 & K2) & ->)].
      + exists av. split; auto. exists an. split; auto. now left.
      + exists v. split; auto. exists k. split; auto. now right. }
  assert (Hlk : is_linkage an -> attr_string av = None).
  { intros Hn. destruct (attr_string av) as [s|] eqn:E; auto. exfalso. apply (Hnl s). exists an. split; auto. left.
    destruct av; try discriminate. cbn [attr_string] in E. now subst. }
  destruct an; try (apply Hskip; [intros s [E _]; discriminate|intros [E|E]; discriminate]).
  - rewrite (Hlk (or_introl eq_refl)). apply Hskip; [intros s [E _]; discriminate|intros [E|E]; discriminate].
  - rewrite (Hlk (or_intror eq_refl)). apply Hskip; [intros s [E _]; discriminate|intros [E|E]; discriminate].
  - destruct (attr_string av) as [s|] eqn:Eav; [|apply Hskip; [intros s [_ E]; discriminate|intros [E|E]; discriminate]].
    destruct (IH (Some s) nx0 Hl Hnl') as (n & nx & E & H1 & H2). exists n, nx. split; [exact E|]. split.
    + right. destruct H1 as [[H1 ->]|(s' & H1 & ->)].
      * exists s. split; auto. left. destruct av; try discriminate. cbn [attr_string] in Eav. now subst.
      * exists s'. split; auto. now right.
    + destruct H2 as [[H2 ->]|(v & (k & K1 & K2) & ->)].
      * left. split; auto. intros v (k & K1 & [K2|K2]); [injection K2 as <- <-; destruct K1; discriminate|]. apply (H2 v). exists k. auto.
      * right. exists v. split; auto. exists k. split; auto. now right.
  - apply Href. now left.
  - apply Href. now right.
Qed.

(** What is unique *)
Lemma in_attrs_nth : forall (attrs : list (option attr)) n v, has attrs n v -> exists i, nth_error attrs i = Some (Some (Attr n v)).
Proof. intros attrs n v H. now apply In_nth_error in H. Qed.
Lemma wf_linkage : forall attrs s1 s2, names_wf attrs -> linkage_name attrs s1 -> linkage_name attrs s2 -> s1 = s2.
Proof.
  intros attrs s1 s2 [_ H] (n1 & N1 & H1) (n2 & N2 & H2).
  destruct (in_attrs_nth _ _ _ H1) as [i Hi], (in_attrs_nth _ _ _ H2) as [j Hj].
  assert (i = j) by (eapply H; eauto). subst. rewrite Hi in Hj. now injection Hj.
Qed.
Lemma wf_plain : forall attrs s1 s2, names_wf attrs -> plain_name attrs s1 -> plain_name attrs s2 -> s1 = s2.
Proof.
  intros attrs s1 s2 [_ H] H1 H2.
  destruct (in_attrs_nth _ _ _ H1) as [i Hi], (in_attrs_nth _ _ _ H2) as [j Hj].
  assert (i = j) by (eapply H; eauto). subst. rewrite Hi in Hj. now injection Hj.
Qed.
Lemma wf_refers : forall attrs v1 v2, names_wf attrs -> refers_on attrs v1 -> refers_on attrs v2 -> v1 = v2.
Proof.
  intros attrs v1 v2 [_ H] (n1 & N1 & H1) (n2 & N2 & H2).
  destruct (in_attrs_nth _ _ _ H1) as [i Hi], (in_attrs_nth _ _ _ H2) as [j Hj].
  assert (i = j) by (eapply H; eauto 6). subst. rewrite Hi in Hj. now injection Hj.
Qed.
Lemma linkage_dec : forall l, (exists s, linkage_name l s) \/ forall s, ~ linkage_name l s.
Proof.
  induction l as [|a l IH]; [right; intros s (n & _ & [])|].
  destruct IH as [(s & n & H1 & H2)|IH]; [left; exists s, n; split; auto; now right|].
  destruct a as [[an av]|].
  2:{ right. intros s (n & H1 & [H2|H2]); [discriminate|]. apply (IH s). exists n. auto. }
  assert (Hcase : is_linkage an \/ ~ is_linkage an).
  { unfold is_linkage. destruct an; auto; right; intros [E|E]; discriminate. }
  destruct Hcase as [Hln|Hln].
  - destruct (attr_string av) as [s|] eqn:E.
    + left. exists s, an. split; auto. left. destruct av; try discriminate. cbn [attr_string] in E. now subst.
    + right. intros s (n & H & [H'|H']); [injection H' as <- ->; discriminate|]. apply (IH s). exists n. auto.
  - right. intros s (n & H & [H'|H']); [injection H' as <- _; auto|]. apply (IH s). exists n. auto.
Qed.

Lemma scan_own : forall attrs s, names_wf attrs -> own_name attrs s -> exists nx, name_scan attrs None None = Ok (Some s, nx).
Proof.
  intros attrs s Hwf [H|[Hn Hp]].
  - destruct (scan_linkage attrs None None (proj1 Hwf)) as (s' & H1 & H2); [eauto|].
    rewrite (wf_linkage _ _ _ Hwf H H1). eauto.
  - destruct (scan_other attrs None None (proj1 Hwf) Hn) as (n & nx & E & H1 & _). exists nx. rewrite E.
    destruct H1 as [[H1 _]|(s' & H1 & ->)]; [exfalso; now apply (H1 s)|]. now rewrite (wf_plain _ _ _ Hwf Hp H1).
Qed.
Lemma scan_on : forall attrs v, names_wf attrs -> nameless attrs -> refers_on attrs v -> name_scan attrs None None = Ok (None, Some v).
Proof.
  intros attrs v Hwf [Hn Hp] Hv. destruct (scan_other attrs None None (proj1 Hwf) Hn) as (n & nx & E & H1 & H2). rewrite E.
  destruct H1 as [[_ ->]|(s & H1 & _)]; [|exfalso; now apply (Hp s)].
  destruct H2 as [[H2 _]|(v' & H2 & ->)]; [exfalso; now apply (H2 v)|]. now rewrite (wf_refers _ _ _ Hwf Hv H2).
Qed.
Lemma scan_end : forall attrs, names_wf attrs -> nameless attrs -> (forall v, ~ refers_on attrs v) -> name_scan attrs None None = Ok (None, None).
Proof.
  intros attrs Hwf [Hn Hp] Hv. destruct (scan_other attrs None None (proj1 Hwf) Hn) as (n & nx & E & H1 & H2). rewrite E.
  destruct H1 as [[_ ->]|(s & H1 & _)]; [|exfalso; now apply (Hp s)].
  destruct H2 as [[_ ->]|(v' & H2 & ->)]; [reflexivity|exfalso; now apply (Hv v')].
Qed.

(** ** Following references *)
Definition entry_name (pick : N -> N) (us : units) (limit : nat) (d : die) (b : body) : res (option (list N)) :=
  let* '(name, next) := name_scan (d_attrs d) None None in
  match name with
  | Some s => Ok (Some s)
  | None => match next with Some next => name_attr pick us limit next b | None => Ok None end
  end.
Lemma name_attr_refers : forall pick us limit v b b' d, units_ordered us -> headers_wf us -> refers us b v b' d ->
  name_attr pick us (S limit) v b = entry_name pick us limit d b'.
Proof.
  intros pick us limit v b b' d Ho Hh H. destruct H as [off o d s H|off u b' o d s Hin Hb H1 H2 H]; cbn [name_attr].
  - unfold entry_at. rewrite H. reflexivity.
  - rewrite (find_unit_complete pick us u b' off Ho Hh Hin Hb H1 H2). cbn [bind]. unfold entry_at. rewrite H. reflexivity.
Qed.
Lemma name_attr_inv : forall pick us limit v b s, name_attr pick us (S limit) v b = Ok (Some s) ->
  exists b' d, refers us b v b' d /\ entry_name pick us limit d b' = Ok (Some s).
Proof.
  intros pick us limit v b s H. cbn [name_attr] in H. destruct v; try discriminate.
  - ib H d Ed. exists b, d. split; auto. unfold entry_at in Ed. ib Ed st Es. apply g_ok in Es. ib Ed x Ex. destruct x as [[d' s'] z].
    apply g_ok in Ed. subst d'. destruct st as [|[o [| |]] st]; try discriminate. injection Ex as -> _ _. eapply RefUnit; eauto.
  - ib H y Ey. destruct y as [b' uoff]. ib H d Ed. exists b', d. split; auto.
    destruct (find_unit_sound _ _ _ _ _ Ey) as (u & H1 & H2 & H3 & H4 & ->).
    unfold entry_at in Ed. ib Ed st Es. apply g_ok in Es. ib Ed x Ex. destruct x as [[d' s'] z].
    apply g_ok in Ed. subst d'. destruct st as [|[o [| |]] st]; try discriminate. injection Ex as -> _ _. eapply RefInfo; eauto.
Qed.

(** ** Theorems *)

(** A name that can be reached within the limit is found. *)
Theorem C42_found : forall pick us limit k b v s, units_ordered us -> headers_wf us -> named us k b v s -> (k <= limit)%nat ->
  name_attr pick us limit v b = Ok (Some s).
Proof.
  intros pick us limit k b v s Ho Hh H. revert limit.
  induction H as [b v b' d s Hr Hwf Hn|k b v b' d v' s Hr Hwf Hn Hv H IH]; intros limit Hk; (destruct limit as [|limit]; [lia|]);
    rewrite (name_attr_refers pick us limit v b b' d Ho Hh Hr); unfold entry_name.
  - destruct (scan_own _ _ Hwf Hn) as [nx ->]. reflexivity.
  - rewrite (scan_on _ _ Hwf Hn Hv). cbn [bind]. apply IH. lia.
Qed.
(** A name that is found can be reached within the limit. *)
Theorem C42_sound : forall pick us limit b v s, (forall b v b' d, refers us b v b' d -> names_wf (d_attrs d)) ->
  name_attr pick us limit v b = Ok (Some s) -> exists k, (k <= limit)%nat /\ named us k b v s.
Proof.
  intros pick us limit b v s Hwf. revert b v. induction limit as [|limit IH]; intros b v H; [discriminate|].
  destruct (name_attr_inv _ _ _ _ _ _ H) as (b' & d & Hr & He). unfold entry_name in He.
  pose proof (Hwf _ _ _ _ Hr) as Hw. destruct (linkage_dec (d_attrs d)) as [Hl|Hl].
  - destruct (scan_linkage (d_attrs d) None None (proj1 Hw) Hl) as (s' & H1 & E). rewrite E in He. injection He as ->.
    exists 1%nat. split; [lia|]. eapply NamedHere; eauto. now left.
  - destruct (scan_other (d_attrs d) None None (proj1 Hw) Hl) as (n & nx & E & H1 & H2). rewrite E in He. cbn [bind] in He.
    destruct H1 as [[H1 ->]|(s' & H1 & ->)].
    + destruct H2 as [[H2 ->]|(v' & H2 & ->)]; [discriminate|]. destruct (IH _ _ He) as (k & Hk & Hn).
      exists (S k). split; [lia|]. eapply NamedOn; eauto. split; auto.
    + injection He as ->. exists 1%nat. split; [lia|]. eapply NamedHere; eauto. right. auto.
Qed.
(** Cycles and other chains of nameless entries have no name; neither do those
    that end. *)
Theorem C42_cycle : forall pick us limit b v, units_ordered us -> headers_wf us -> nameless_chain us limit b v ->
  name_attr pick us limit v b = Ok None.
Proof.
  intros pick us limit b v Ho Hh H. induction H as [b v|k b v b' d v' Hr Hwf Hn Hv H IH]; [reflexivity|].
  rewrite (name_attr_refers pick us k v b b' d Ho Hh Hr). unfold entry_name. rewrite (scan_on _ _ Hwf Hn Hv). exact IH.
Qed.
Theorem C42_end : forall pick us limit k b v, units_ordered us -> headers_wf us -> chain_end us k b v -> (k <= limit)%nat ->
  name_attr pick us limit v b = Ok None.
Proof.
  intros pick us limit k b v Ho Hh H. revert limit.
  induction H as [b v b' d Hr Hwf Hn Hv|k b v b' d v' Hr Hwf Hn Hv H IH]; intros limit Hk; (destruct limit as [|limit]; [lia|]);
    rewrite (name_attr_refers pick us limit v b b' d Ho Hh Hr); unfold entry_name.
  - rewrite (scan_end _ Hwf Hn Hv). reflexivity.
  - rewrite (scan_on _ _ Hwf Hn Hv). cbn [bind]. apply IH. lia.
Qed.
(** Whatever the entries are, there is a result. *)
Lemma name_scan_total : forall l n nx, (exists x, name_scan l n nx = Ok x) \/ name_scan l n nx = Err EInvalidDwarf.
Proof.
  induction l as [|a l IH]; intros n nx; cbn [name_scan]; [eauto|]. destruct a as [[an av]|]; cbn [g of_option bind a_name a_value]; [|auto].
  destruct an; auto; destruct (attr_string av); eauto.
Qed.
Lemma unit_ref_total : forall u, (exists b, unit_ref u = Ok b) \/ unit_ref u = Err EInvalidDwarf.
Proof.
  intros u. unfold unit_ref. destruct (u_main u); cbn [g of_option bind]; [|auto]. destruct (u_dwo u) as [[d|]|]; cbn [g of_option bind]; eauto.
Qed.
Lemma find_unit_total : forall pick us off, (exists x, find_unit pick us off = Ok x) \/ find_unit pick us off = Err EInvalidDwarf.
Proof.
  intros pick us off. unfold find_unit. destruct (binary_search_by _ _ _) as [i|[|n]] eqn:E; auto.
  apply bsearch_le in E. destruct (nth_error_lt_some _ (us_units us) n) as [u Hu]; [lia|]. rewrite Hu. cbn [unwrap bind].
  destruct (_ && _); cbn [bind]; auto. destruct (unit_ref_total u) as [[b ->]| ->]; cbn [bind]; eauto.
Qed.
Lemma entry_at_total : forall b off, (exists d, entry_at b off = Ok d) \/ entry_at b off = Err EInvalidDwarf.
Proof.
  intros b off. unfold entry_at. destruct (b_at b off) as [[|[o [|d|]] s]|]; cbn [g of_option bind read_abbreviation]; eauto.
Qed.
Theorem C42_total : forall pick us limit v b,
  (exists r, name_attr pick us limit v b = Ok r) \/ name_attr pick us limit v b = Err EInvalidDwarf.
Proof.
  intros pick us. induction limit as [|limit IH]; intros v b; cbn [name_attr]; [eauto|].
  assert (He : forall b off, (exists r, (let* d := entry_at b off in let* '(name, next) := name_scan (d_attrs d) None None in
      match name with Some s => Ok (Some s) | None => match next with Some next => name_attr pick us limit next b | None => Ok None end end) = Ok r) \/
     (let* d := entry_at b off in let* '(name, next) := name_scan (d_attrs d) None None in
      match name with Some s => Ok (Some s) | None => match next with Some next => name_attr pick us limit next b | None => Ok None end end) = Err EInvalidDwarf).
  { intros b0 off. destruct (entry_at_total b0 off) as [[d ->]| ->]; cbn [bind]; auto.
    destruct (name_scan_total (d_attrs d) None None) as [[[n nx] ->]| ->]; cbn [bind]; auto.
    destruct n; eauto. destruct nx; eauto. }
  destruct v; eauto. destruct (find_unit_total pick us off) as [[[b' o] ->]| ->]; cbn [bind]; auto.
Qed.
Print Assumptions C42_found.
Print Assumptions C42_sound.
Print Assumptions C42_cycle.
Print Assumptions C42_end.
Print Assumptions C42_total.

(** ** Functions *)
Fixpoint fn_names (pick : N -> N) (us : units) (b : body) (l : list (option attr)) (name : option (list N)) : res (option (list N)) :=
  match l with
  | [] => Ok name
  | a :: l => let* a := g a in let* name := fn_name_attr pick us b name a in fn_names pick us b l name
  end.
Lemma fn_attrs_names : forall pick us b l name ra r ra', fn_attrs pick us b l name ra = Ok (r, ra') ->
  fn_names pick us b l name = Ok r /\ range_attrs b l ra = Ok ra'.
Proof.
  intros pick us b. induction l as [|a l IH]; intros name ra r ra' H; cbn [fn_attrs fn_names range_attrs] in *.
  - injection H as <- <-. auto.
  - ib H x Ex. ib H n En. ib H ra1 E1. rewrite Ex. cbn [bind]. rewrite En, E1. cbn [bind]. eapply IH; eauto.
Qed.
Lemma inl_attrs_names : forall pick us b l name ra c r ra' c', inl_attrs pick us b l name ra c = Ok (r, ra', c') ->
  fn_names pick us b l name = Ok r /\ range_attrs b l ra = Ok ra'.
Proof.
  intros pick us b. induction l as [|a l IH]; intros name ra c r ra' c' H; cbn [inl_attrs fn_names range_attrs] in *.
  - injection H as <- <- <-. auto.
  - ib H x Ex. ib H n En. ib H ra1 E1. rewrite Ex. cbn [bind]. rewrite En, E1. cbn [bind]. eapply IH; eauto.
Qed.
Lemma fn_names_app : forall pick us b l1 l2 n, fn_names pick us b (l1 ++ l2) n =
  let* n := fn_names pick us b l1 n in fn_names pick us b l2 n.
Proof.
  intros pick us b. induction l1 as [|a l1 IH]; intros l2 n; cbn [app fn_names bind]; [reflexivity|].
  destruct (g a) as [x| | |]; cbn [bind]; auto.
  destruct (fn_name_attr pick us b n x) as [n1| | |]; cbn [bind]; auto.
Qed.
Lemma linkage_more : forall a l s, linkage_name l s -> linkage_name (a :: l) s.
Proof. intros a l s (n & H1 & H2). exists n. split; auto. now right. Qed.
Lemma linkage_here : forall n v s l, is_linkage n -> attr_string v = Some s -> linkage_name (Some (Attr n v) :: l) s.
Proof.
  intros n v s l Hn Hv. exists n. split; auto. left. destruct v; try discriminate. cbn [attr_string] in Hv. now subst.
Qed.
Lemma keep_name : forall pick us b l x r, (forall s, ~ linkage_name l s) -> fn_names pick us b l (Some x) = Ok r -> r = Some x.
Proof.
  intros pick us b. induction l as [|a l IH]; intros x r Hn H; cbn [fn_names] in H; [now injection H as <-|].
  ib H y Ey. apply g_ok in Ey. subst a. ib H n En.
  assert (n = Some x).
  { destruct y as [an av]. unfold fn_name_attr in En. cbn [a_name a_value] in En.
    destruct an; try (now injection En as <-).
    - destruct (attr_string av) as [s|] eqn:E; [|now injection En as <-]. exfalso. apply (Hn s). apply linkage_here; auto. now left.
    - destruct (attr_string av) as [s|] eqn:E; [|now injection En as <-]. exfalso. apply (Hn s). apply linkage_here; auto. now right. }
  subst n. eapply IH; eauto. intros s Hs. apply (Hn s). now apply linkage_more.
Qed.
Lemma linkage_wins : forall pick us b l s n r, linkage_name l s -> (forall s', linkage_name l s' -> s' = s) ->
  fn_names pick us b l n = Ok r -> r = Some s.
Proof.
  intros pick us b. induction l as [|a l IH]; intros s n r Hs Hu H; [destruct Hs as (k & _ & [])|]. cbn [fn_names] in H.
  ib H y Ey. apply g_ok in Ey. subst a. ib H n1 En.
  assert (Hu' : forall s', linkage_name l s' -> s' = s) by (intros s' Hs'; apply Hu; now apply linkage_more).
  destruct (linkage_dec l) as [[s' Hs']|Hno].
  - apply (IH s n1); auto. now rewrite <- (Hu' _ Hs').
  - destruct Hs as (k & Hk & [Hs|Hs]); [|exfalso; apply (Hno s); exists k; auto]. injection Hs as ->.
    assert (n1 = Some s).
    { unfold fn_name_attr in En. cbn [a_name a_value attr_string] in En. destruct Hk as [->| ->]; now injection En as <-. }
    subst n1. eapply keep_name; eauto.
Qed.
Lemma nameless_none : forall pick us b l r, nameless l -> (forall v, ~ refers_on l v) -> fn_names pick us b l None = Ok r -> r = None.
Proof.
  intros pick us b. induction l as [|a l IH]; intros r [Hn Hp] Hv H; cbn [fn_names] in H; [now injection H as <-|].
  ib H y Ey. apply g_ok in Ey. subst a. ib H n1 En.
  assert (n1 = None).
  { destruct y as [an av]. unfold fn_name_attr in En. cbn [a_name a_value] in En.
    destruct an; try (now injection En as <-).
    - destruct (attr_string av) as [s|] eqn:E; [|now injection En as <-]. exfalso. apply (Hn s). apply linkage_here; auto. now left.
    - destruct (attr_string av) as [s|] eqn:E; [|now injection En as <-]. exfalso. apply (Hn s). apply linkage_here; auto. now right.
    - injection En as <-. destruct (attr_string av) as [s|] eqn:E; auto. exfalso. apply (Hp s). left.
      destruct av; try discriminate. cbn [attr_string] in E. now subst.
    - exfalso. apply (Hv av). exists AOrigin. split; [now left|now left].
    - exfalso. apply (Hv av). exists ASpecification. split; [now right|now left]. }
  subst n1. apply IH; auto.
  - split; intros s Hs; [apply (Hn s); now apply linkage_more|apply (Hp s); now right].
  - intros v (k & K1 & K2). apply (Hv v). exists k. split; auto. now right.
Qed.

Lemma fn_names_ok : forall pick us b attrs s r, units_ordered us -> headers_wf us -> names_wf attrs ->
  names_function us name_limit b attrs s -> fn_names pick us b attrs None = Ok r -> r = Some s.
Proof.
  intros pick us b attrs s r Ho Hh Hwf [Hl|(Hno & pre & n & v & post & -> & Hpre & Hrefs & Hcase)] H.
  - eapply linkage_wins; eauto. intros s' Hs'. eapply wf_linkage; eauto.
  - rewrite fn_names_app in H. ib H n0 E0. apply nameless_none in E0; auto. subst n0. cbn [fn_names g of_option bind] in H.
    ib H n1 E1. assert (n1 = Some s).
    { unfold fn_name_attr in E1. cbn [a_name a_value] in E1. destruct Hcase as [[-> ->]|(k & Hr & Hk & Hn)].
      - cbn [attr_string] in E1. now injection E1 as <-.
      - assert (E : name_attr pick us name_limit v b = Ok n1) by (destruct Hr as [->| ->]; exact E1).
        rewrite (C42_found pick us name_limit k b v s Ho Hh Hn Hk) in E. now injection E as <-. }
    subst n1. apply (keep_name pick us b post s r); [|exact H]. intros s' (k & K1 & K2). apply (Hno s'). exists k. split; auto.
    apply in_app_iff. right. now right.
Qed.
(** The names of functions and of inlined ones are those that their entries
    say. *)
Theorem C42_function : forall pick us b attrs s r ra, units_ordered us -> headers_wf us -> names_wf attrs ->
  names_function us name_limit b attrs s -> fn_attrs pick us b attrs None no_rattrs = Ok (r, ra) -> r = Some s.
Proof.
  intros pick us b attrs s r ra Ho Hh Hwf Hs H. apply fn_attrs_names in H. destruct H as [H _]. eapply fn_names_ok; eauto.
Qed.
Theorem C42_inlined : forall pick us b attrs s c r ra c', units_ordered us -> headers_wf us -> names_wf attrs ->
  names_function us name_limit b attrs s -> inl_attrs pick us b attrs None no_rattrs c = Ok (r, ra, c') -> r = Some s.
Proof.
  intros pick us b attrs s c r ra c' Ho Hh Hwf Hs H. apply inl_attrs_names in H. destruct H as [H _]. eapply fn_names_ok; eauto.
Qed.
Print Assumptions C42_function.
Print Assumptions C42_inlined.

(** ** Units follow each other if their headers do. *)
Inductive from_headers : list uheader -> list dunit -> Prop :=
| FromNil : from_headers [] []
| FromSkip : forall h hs us, from_headers hs us -> from_headers (h :: hs) us
| FromUnit : forall h hs u us, h_offset h = Some (u_offset u) -> u_header_size u = h_size h -> u_entries_len u = h_len h ->
    u_main u = h_unit h -> u_dwo u = h_dwo h -> from_headers hs us -> from_headers (h :: hs) (u :: us).
Lemma units_loop_headers : forall m srt pick sets hs ranges us rs' us', units_loop m srt pick sets hs ranges us = Ok (rs', us') ->
  exists new, us' = rev us ++ new /\ from_headers hs new.
Proof.
  intros m srt pick sets. induction hs as [|h hs IH]; intros ranges us rs' us' H; cbn [units_loop] in H.
  - injection H as <- <-. exists []. split; [now rewrite app_nil_r|constructor].
  - assert (Hskip : forall ranges, units_loop m srt pick sets hs ranges us = Ok (rs', us') ->
      exists new, us' = rev us ++ new /\ from_headers (h :: hs) new).
    { intros rg E. destruct (IH _ _ _ _ E) as (new & -> & Hn). exists new. split; auto. now constructor. }
    assert (Hunit : forall ranges u, units_loop m srt pick sets hs ranges (u :: us) = Ok (rs', us') ->
      h_offset h = Some (u_offset u) -> u_header_size u = h_size h -> u_entries_len u = h_len h ->
      u_main u = h_unit h -> u_dwo u = h_dwo h -> exists new, us' = rev us ++ new /\ from_headers (h :: hs) new).
    { intros rg u E H1 H2 H3 H4 H5. destruct (IH _ _ _ _ E) as (new & -> & Hn). exists (u :: new). split.
      - cbn [rev]. now rewrite <- app_assoc.
      - apply FromUnit; auto. }
    destruct (h_offset h) as [off|] eqn:Eo; [|eauto].
    destruct (h_kind h); [eauto|eapply Hunit; eauto|].
    ib H rs Ers. destruct rs as [|r0 rs]; [|eapply Hunit; eauto].
    destruct (h_unit h) as [b|] eqn:Eb; [|eauto]. ib H s Es. ib H x Ex. destruct x as [[d s'] z].
    destruct d as [d|]; [|eauto]. ib H y Ey. destruct y as [ra lang]. ib H rs2 Er. eapply Hunit; eauto.
Qed.
Lemma from_headers_nth : forall hs us, from_headers hs us -> forall i u, nth_error us i = Some u ->
  exists k h, (i <= k)%nat /\ nth_error hs k = Some h /\ h_offset h = Some (u_offset u) /\ u_header_size u = h_size h /\ u_entries_len u = h_len h.
Proof.
  intros hs us H. induction H as [|h hs us H IH|h hs u us H1 H2 H3 H4 H5 H IH]; intros i x Hx; [destruct i; discriminate| |].
  - destruct (IH _ _ Hx) as (k & h' & K1 & K2 & K3). exists (S k), h'. split; [lia|auto].
  - destruct i as [|i]; cbn [nth_error] in Hx.
    + injection Hx as <-. exists 0%nat, h. split; [lia|]. auto.
    + destruct (IH _ _ Hx) as (k & h' & K1 & K2 & K3). exists (S k), h'. split; [lia|auto].
Qed.
Theorem C42_units : forall m srt pick sc us hs, units_parse m srt pick sc = Ok us -> sc_units sc = Some hs ->
  headers_follow hs -> units_ordered us /\ headers_wf us.
Proof.
  intros m srt pick sc us hs H Hhs [Hf Hp]. unfold units_parse in H. ib H sets Es. rewrite Hhs in H. cbn [g of_option bind] in H.
  ib H x Ex. destruct x as [rs us0]. injection H as <-.
  destruct (units_loop_headers _ _ _ _ _ _ _ _ _ Ex) as (new & E & Hn). cbn [rev app] in E. subst us0.
  unfold units_ordered, headers_wf. cbn [us_units]. split.
  - clear Ex Hhs Hp. induction Hn as [|h hs' us' Hn IH|h hs' u us' E1 E2 E3 E4 E5 Hn IH]; intros i j u1 u2 Hij H1 H2.
    + destruct i; discriminate.
    + eapply IH; eauto. intros i' j' h1 h2 o1 o2 Hij' G1 G2. apply (Hf (S i') (S j')); auto. lia.
    + destruct j as [|j]; [lia|]. destruct i as [|i]; cbn [nth_error] in H1, H2.
      * injection H1 as ->. destruct (from_headers_nth _ _ Hn _ _ H2) as (k & h' & _ & K2 & K3 & _).
        rewrite E2, E3. eapply (Hf 0%nat (S k)); [lia|reflexivity|exact K2|exact E1|exact K3].
      * eapply (IH ltac:(intros i' j' h1 h2 o1 o2 Hij' G1 G2; apply (Hf (S i') (S j')); auto; lia) i j); eauto. lia.
  - intros u Hu. apply In_nth_error in Hu. destruct Hu as [i Hi].
    destruct (from_headers_nth _ _ Hn _ _ Hi) as (k & h & _ & K2 & _ & K4 & _). rewrite K4. apply Hp. eapply nth_error_In; eauto.
Qed.
Print Assumptions C42_units.

From Coq Require Import String.
Local Close Scope string_scope.

(** ** Example: from a unit into another one, and a cycle *)
Definition nm_body (at_ : N -> option stream) : body :=
  Body None at_ 4 (fun _ => None) (fun _ => None) None None.
Definition nm_die (attrs : list attr) : option stream := Some [(0, IDie (Die TSubprogram false (map Some attrs)))].
Definition nm_a : body := nm_body (fun off =>
  if off =? 20 then nm_die [Attr ALow (VAddr 1); Attr AOrigin (VInfoRef 130)] else
  if off =? 40 then nm_die [Attr ASpecification (VUnitRef 40)] else None).
Definition nm_b : body := nm_body (fun off =>
  if off =? 30 then nm_die [Attr ASpecification (VUnitRef 60)] else
  if off =? 60 then nm_die [Attr AName (VStr (Some (bs "f"%string))); Attr ALinkage (VStr (Some (bs "_Z1fv"%string)))] else None).
Definition nm_units : units := Units [] [DUnit 0 11 89 (Some nm_a) (Some None) None; DUnit 100 11 89 (Some nm_b) (Some None) None].
Example C42_example :
  name_attr first nm_units name_limit (VUnitRef 20) nm_a = Ok (Some (bs "_Z1fv"%string)) /\
  name_attr first nm_units name_limit (VUnitRef 40) nm_a = Ok None /\
  name_attr first nm_units 2 (VUnitRef 20) nm_a = Ok None /\
  name_attr first nm_units name_limit (VInfoRef 100) nm_a = Err EInvalidDwarf.
Proof. repeat split; vm_compute; reflexivity. Qed.

(** The theorems applied to it *)
Lemma nm_ordered : units_ordered nm_units /\ headers_wf nm_units.
Proof.
  split.
  - intros [|[|[|i]]] [|[|[|j]]] u1 u2 Hij H1 H2; try lia; try discriminate.
    injection H1 as <-. injection H2 as <-. vm_compute. discriminate.
  - intros u [<-|[<-|[]]]; reflexivity.
Qed.
Lemma names_wf_one : forall n v, names_wf [Some (Attr n v)].
Proof.
  intros n v. split; [repeat constructor; discriminate|]. intros [|[|i]] [|[|j]] n1 n2 v1 v2 H1 H2 _; auto; discriminate.
Qed.
Lemma nm_named : named nm_units 3 nm_a (VUnitRef 20) (bs "_Z1fv"%string).
Proof.
  eapply NamedOn; [eapply RefUnit; reflexivity| | |exists AOrigin; split; [now left|right; now left]|].
  - split; [repeat constructor; discriminate|]. intros [|[|[|i]]] [|[|[|j]]] n1 n2 v1 v2 H1 H2 H; auto; try discriminate;
      injection H1 as <- <-; injection H2 as <- <-; destruct H as [[[H|H] _]|[[[H|H] [H'|H']]|[H H']]]; discriminate.
  - split; [intros s (n & [->| ->] & [H|[H|[]]])|intros s [H|[H|[]]]]; discriminate.
  - eapply NamedOn.
    + eapply (RefInfo _ _ 130 (DUnit 100 11 89 (Some nm_b) (Some None) None) nm_b); [right; now left| | | |reflexivity].
      * split; [eexists; reflexivity|right; auto].
      * vm_compute. discriminate.
      * reflexivity.
    + apply names_wf_one.
    + split; [intros s (n & [->| ->] & [H|[]])|intros s [H|[]]]; discriminate.
    + exists ASpecification. split; [now right|now left].
    + eapply NamedHere; [eapply RefUnit; reflexivity| |].
      * split; [repeat constructor; discriminate|]. intros [|[|[|i]]] [|[|[|j]]] n1 n2 v1 v2 H1 H2 H; auto; try discriminate;
          injection H1 as <- <-; injection H2 as <- <-; destruct H as [[[H|H] [H'|H']]|[[[H|H] _]|[H H']]]; discriminate.
      * left. exists ALinkage. split; [now left|right; now left].
Qed.
Example C42_found_example : forall pick, name_attr pick nm_units name_limit (VUnitRef 20) nm_a = Ok (Some (bs "_Z1fv"%string)).
Proof.
  intros pick. eapply C42_found; [apply nm_ordered|apply nm_ordered|exact nm_named|unfold name_limit; lia].
Qed.
Lemma nm_cycle : forall k, nameless_chain nm_units k nm_a (VUnitRef 40).
Proof.
  induction k as [|k IH]; [constructor|]. eapply ChainOn; [eapply RefUnit; reflexivity|apply names_wf_one| | |exact IH].
  - split; [intros s (n & [->| ->] & [H|[]])|intros s [H|[]]]; discriminate.
  - exists ASpecification. split; [now right|now left].
Qed.
Example C42_cycle_example : forall pick, name_attr pick nm_units name_limit (VUnitRef 40) nm_a = Ok None.
Proof. intros pick. apply C42_cycle; [apply nm_ordered|apply nm_ordered|apply nm_cycle]. Qed.
Example C42_function_example : exists ra,
  fn_attrs first nm_units nm_a [Some (Attr AOrigin (VUnitRef 20)); Some (Attr AName (VStr (Some (bs "g"%string))))] None no_rattrs =
    Ok (Some (bs "_Z1fv"%string), ra).
Proof. eexists. vm_compute. reflexivity. Qed.

(** A function that has a linkage name does not get it if there is a reference
    to nothing before it: the unit's functions are not read at all. *)
Theorem C42_dangling_refuted : exists us b attrs s, units_ordered us /\ headers_wf us /\ names_wf attrs /\
  names_function us name_limit b attrs s /\ fn_attrs first us b attrs None no_rattrs = Err EInvalidDwarf.
Proof.
  exists nm_units, nm_a, [Some (Attr ASpecification (VUnitRef 99)); Some (Attr ALinkage (VStr (Some (bs "f"%string))))], (bs "f"%string).
  split; [apply nm_ordered|]. split; [apply nm_ordered|]. split; [|split; [|vm_compute; reflexivity]].
  - split; [repeat constructor; discriminate|]. intros [|[|[|i]]] [|[|[|j]]] n1 n2 v1 v2 H1 H2 H; auto; try discriminate;
      injection H1 as <- <-; injection H2 as <- <-; destruct H as [[[H|H] [H'|H']]|[[[H|H] [H'|H']]|[H H']]]; discriminate.
  - left. exists ALinkage. split; [now left|right; now left].
Qed.
Print Assumptions C42_dangling_refuted.
