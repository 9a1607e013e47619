(** * C79: lookups in debug information without errors *)

From Verif Require Import Base Util UtilProofs Search Depmod Dwarf DwarfSpec DwarfReadSpec Lists Sym Inspect Text Frames Nom
  PropDwLines PropDwUnits PropDwNames PropDwFns PropDwInl PropDwSym.
From Coq Require Import Permutation Sorted.
Local Open Scope N_scope.

(** ** Names *)
Definition text (o : option (list N)) : Prop := forall s, o = Some s -> utf8_valid s = true.

Lemma scan_text : forall l n0 nx0 n nx, names_text l -> text n0 -> name_scan l n0 nx0 = Ok (n, nx) -> text n.
Proof.
  induction l as [|a l IH]; intros n0 nx0 n nx Ht H0 H; cbn [name_scan] in H; [now injection H as <- _|].
  ib H x Ex. apply g_ok in Ex. subst a. destruct x as [an av]. cbn [a_name a_value] in H.
  assert (Htl : names_text l) by (intros n' s Hn Hs; apply (Ht n' s Hn); now right).
  assert (Hs : forall s, is_linkage an \/ an = AName -> attr_string av = Some s -> utf8_valid s = true).
  { intros s Hn E. destruct av; try discriminate. cbn [attr_string] in E. subst. apply (Ht an s Hn). now left. }
  destruct an; try (eapply IH; eauto; fail).
  - destruct (attr_string av) eqn:E; [|eapply IH; eauto]. injection H as <- _. intros s' E'. injection E' as <-. apply Hs; unfold is_linkage; auto.
  - destruct (attr_string av) eqn:E; [|eapply IH; eauto]. injection H as <- _. intros s' E'. injection E' as <-. apply Hs; unfold is_linkage; auto.
  - destruct (attr_string av) eqn:E; [|eapply IH; eauto]. eapply (IH _ _ _ _ Htl); [|exact H]. intros s' E'. injection E' as <-. apply Hs; unfold is_linkage; auto.
Qed.
Lemma follow_ok : forall pick us, units_ordered us -> headers_wf us -> forall k b v, followable us k b v ->
  exists r, name_attr pick us k v b = Ok r /\ text r.
Proof.
  intros pick us Ho Hh. induction k as [|k IH]; intros b v H; [exists None; split; [reflexivity|discriminate]|].
  assert (Hoff : (exists b' d, refers us b v b' d /\ readable (d_attrs d) /\ names_text (d_attrs d) /\
            (nameless (d_attrs d) -> forall v', refers_on (d_attrs d) v' -> followable us k b' v')) ->
    exists r, name_attr pick us (S k) v b = Ok r /\ text r).
  { intros (b' & d & Hr & Hrd & Ht & Hn). rewrite (name_attr_refers pick us k v b b' d Ho Hh Hr). unfold entry_name.
    destruct (linkage_dec (d_attrs d)) as [Hl|Hl].
    - destruct (scan_linkage _ None None Hrd Hl) as (s & Hs & E). rewrite E. cbn [bind]. exists (Some s). split; auto.
      eapply scan_text; [exact Ht| |exact E]. discriminate.
    - destruct (scan_other _ None None Hrd Hl) as (n & nx & E & H1 & H2). rewrite E. cbn [bind].
      destruct H1 as [[Hp ->]|(s & Hp & ->)].
      + destruct H2 as [[_ ->]|(v' & Hv & ->)]; [exists None; split; [reflexivity|discriminate]|]. apply IH, Hn; auto. split; auto.
      + exists (Some s). split; auto. eapply scan_text; [exact Ht| |exact E]. discriminate. }
  cbn [followable] in H. destruct v; auto; exists None; (split; [reflexivity|discriminate]).
Qed.
Lemma fn_name_ok : forall pick us b a l name, units_ordered us -> headers_wf us -> names_text (Some a :: l) ->
  (forall v, refers_on (Some a :: l) v -> followable us name_limit b v) -> text name ->
  exists r, fn_name_attr pick us b name a = Ok r /\ text r.
Proof.
  intros pick us b [an av] l name Ho Hh Ht Hf Hn. unfold fn_name_attr. cbn [a_name a_value].
  assert (Hs : forall s, is_linkage an \/ an = AName -> attr_string av = Some s -> utf8_valid s = true).
  { intros s Hx E. destruct av; try discriminate. cbn [attr_string] in E. subst. apply (Ht an s Hx). now left. }
  assert (Hr : is_ref an -> exists r, match name with Some _ => Ok name | None => name_attr pick us name_limit av b end = Ok r /\ text r).
  { intros Hx. destruct name as [n|]; [eauto|]. apply follow_ok; auto. apply Hf. exists an. split; auto. now left. }
  destruct an; eauto.
  - destruct (attr_string av) eqn:E; eauto. eexists. split; [reflexivity|]. intros s' E'. injection E' as <-. apply Hs; unfold is_linkage; auto.
  - destruct (attr_string av) eqn:E; eauto. eexists. split; [reflexivity|]. intros s' E'. injection E' as <-. apply Hs; unfold is_linkage; auto.
  - destruct name; eauto. eexists. split; [reflexivity|]. intros s' E'. apply Hs; auto.
  - apply Hr. now left.
  - apply Hr. now right.
Qed.

(** ** Ranges *)
Lemma range_attr_ok : forall b a l ra, ranges_readable b (Some a :: l) -> exists ra', range_attr b ra a = Ok ra'.
Proof.
  intros b [an av] l ra (H1 & H2 & _). unfold range_attr. cbn [a_name a_value].
  destruct an; eauto.
  - destruct av; eauto. specialize (H1 ALow i ltac:(auto) ltac:(now left)). destruct (b_address b i); [|congruence]. cbn [g of_option bind]. eauto.
  - destruct av; eauto. specialize (H1 AHigh i ltac:(auto) ltac:(now left)). destruct (b_address b i); [|congruence]. cbn [g of_option bind]. eauto.
  - destruct av; cbn [attr_ranges_offset g of_option bind]; eauto. specialize (H2 o ltac:(now left)). destruct o; [|congruence]. cbn [g of_option bind]. eauto.
Qed.
Lemma readable_tl : forall b a l, ranges_readable b (a :: l) -> ranges_readable b l.
Proof.
  intros b a l (H1 & H2 & H3). split; [|split].
  - intros n i Hn H. apply (H1 n i Hn). now right.
  - intros o H. apply H2. now right.
  - intros off H. apply H3. now right.
Qed.
Lemma text_tl : forall a l, names_text (a :: l) -> names_text l.
Proof. intros a l H n s Hn Hs. apply (H n s Hn). now right. Qed.
Lemma fn_attrs_ok : forall pick us b, units_ordered us -> headers_wf us -> forall l name ra, readable l -> ranges_readable b l -> names_text l ->
  (forall v, refers_on l v -> followable us name_limit b v) -> text name ->
  exists r ra', fn_attrs pick us b l name ra = Ok (r, ra') /\ text r.
Proof.
  intros pick us b Ho Hh. induction l as [|a l IH]; intros name ra Hr Hrg Ht Hf Hn; cbn [fn_attrs]; [eauto|].
  inversion Hr as [|x y Ha Hl]; subst. destruct a as [a|]; [|congruence]. cbn [g of_option bind].
  destruct (fn_name_ok pick us b a l name Ho Hh Ht Hf Hn) as (n' & -> & Hn'). cbn [bind].
  destruct (range_attr_ok b a l ra Hrg) as (ra' & ->). cbn [bind]. apply IH; eauto using readable_tl, text_tl.
  intros v (n & N1 & N2). apply Hf. exists n. split; auto. now right.
Qed.
Lemma inl_attrs_ok : forall pick us b, units_ordered us -> headers_wf us -> forall l name ra c, readable l -> ranges_readable b l -> names_text l ->
  (forall v, refers_on l v -> followable us name_limit b v) -> text name ->
  exists r ra' c', inl_attrs pick us b l name ra c = Ok (r, ra', c') /\ text r.
Proof.
  intros pick us b Ho Hh. induction l as [|a l IH]; intros name ra c Hr Hrg Ht Hf Hn; cbn [inl_attrs]; [eauto|].
  inversion Hr as [|x y Ha Hl]; subst. destruct a as [a|]; [|congruence]. cbn [g of_option bind].
  destruct (fn_name_ok pick us b a l name Ho Hh Ht Hf Hn) as (n' & -> & Hn'). cbn [bind].
  destruct (range_attr_ok b a l ra Hrg) as (ra' & ->). cbn [bind]. apply IH; eauto using readable_tl, text_tl.
  intros v (n & N1 & N2). apply Hf. exists n. split; auto. now right.
Qed.
Lemma unit_attrs_ok : forall b l ra lang, readable l -> ranges_readable b l -> exists x, unit_attrs b l ra lang = Ok x.
Proof.
  intros b. induction l as [|a l IH]; intros ra lang Hr Hrg; cbn [unit_attrs]; [eauto|].
  inversion Hr as [|x y Ha Hl]; subst. destruct a as [a|]; [|congruence]. cbn [g of_option bind].
  destruct (range_attr_ok b a l ra Hrg) as (ra' & ->). cbn [bind]. apply IH; eauto using readable_tl.
Qed.
Lemma sum_ok : forall m b attrs ra lo sz, ranges_wf b attrs -> range_attrs b attrs no_rattrs = Ok ra ->
  ra_low ra = Some lo -> ra_size ra = Some sz -> add64 m lo sz = Ok (lo + sz) /\ low_of b attrs lo /\ high_of b attrs lo (lo + sz).
Proof.
  intros m b attrs ra lo sz (U1 & U2 & U3 & Hfit) H H1 H2.
  apply (fold_low _ _ _ U1 H) in H1. apply (proj2 (fold_high _ _ _ U2 H)) in H2.
  assert (Hh : high_of b attrs lo (lo + sz)) by (exists (VUdata sz); split; eauto).
  split; auto. unfold add64. apply uadd_small. eauto.
Qed.
Lemma for_each_ok : forall m b attrs ra, ranges_readable b attrs -> ranges_wf b attrs -> range_attrs b attrs no_rattrs = Ok ra ->
  exists rs, for_each_range m b ra = Ok rs.
Proof.
  intros m b attrs ra (_ & _ & Hr) Hwf H. unfold for_each_range. destruct (ra_ranges ra) as [off|] eqn:Er.
  - apply (fold_ranges _ _ _ (proj1 (proj2 (proj2 Hwf))) H) in Er. specialize (Hr off Er). destruct (b_ranges b off); [|congruence].
    cbn [g of_option bind]. eauto.
  - destruct (ra_low ra) as [lo|] eqn:El; [|eauto]. destruct (ra_high ra) as [hi|]; [eauto|]. destruct (ra_size ra) as [sz|] eqn:Es; [|eauto].
    destruct (sum_ok m b attrs ra lo sz Hwf H El Es) as [-> _]. cbn [bind]. eauto.
Qed.
Lemma bounds_total : forall m b attrs ra, ranges_wf b attrs -> range_attrs b attrs no_rattrs = Ok ra ->
  exists rg, bounds m ra = Ok rg /\ forall r, rg = Some r -> low_of b attrs (r_begin r) /\ high_of b attrs (r_begin r) (r_end r).
Proof.
  intros m b attrs ra Hwf H. unfold bounds. destruct (ra_low ra) as [lo|] eqn:El; [|exists None; split; [reflexivity|discriminate]].
  destruct (ra_high ra) as [hi|] eqn:Eh.
  - eexists. split; [reflexivity|]. intros r E. injection E as <-. cbn [r_begin r_end].
    destruct Hwf as (U1 & U2 & _). apply (fold_low _ _ _ U1 H) in El. apply (proj1 (fold_high _ _ _ U2 H)) in Eh. split; auto.
    destruct Eh as (v & Hv & Ha). exists v. auto.
  - destruct (ra_size ra) as [sz|] eqn:Es; [|exists None; split; [reflexivity|discriminate]].
    destruct (sum_ok m b attrs ra lo sz Hwf H El Es) as (-> & K). cbn [bind]. eexists. split; [reflexivity|].
    intros r E. injection E as <-. exact K.
Qed.

(** ** Functions *)
Definition fn_good (f : dfn) : Prop := text (f_fname f) /\ forall r, f_range f = Some r -> r_begin r <= r_end r.
Lemma skip_ok : forall l, readable l -> skip_attributes l = Ok tt.
Proof. intros l H. induction H as [|a l Ha H IH]; [reflexivity|]. destruct a; [|congruence]. exact IH. Qed.
Lemma stored_nobad :
  (forall t s, stored t s -> forall o, ~ In (o, IBad) s) /\ (forall l s, stored_list l s -> forall o, ~ In (o, IBad) s).
Proof.
  apply stored_both.
  - intros off tag attrs o [H|[]]. discriminate.
  - intros off tag attrs l s o Hs IH o' [H|H]; [discriminate|]. apply in_app_iff in H. destruct H as [H|[H|[]]]; [|discriminate]. eapply IH; eauto.
  - intros o [].
  - intros t l s1 s2 H1 IH1 H2 IH2 o H. apply in_app_iff in H. destruct H; [eapply IH1|eapply IH2]; eauto.
Qed.
Lemma fns_total : forall m pick us b, units_ordered us -> headers_wf us -> forall s fns addrs,
  (forall o, ~ In (o, IBad) s) ->
  (forall o d, In (o, IDie d) s -> readable (d_attrs d) /\ (d_tag d <> TOther -> entry_readable us name_limit b (d_attrs d))) ->
  Forall fn_good fns -> exists fns' addrs', fns_loop m pick us b s fns addrs = Ok (fns', addrs') /\ Forall fn_good fns'.
Proof.
  intros m pick us b Ho Hh. induction s as [|[o i] s IH]; intros fns addrs Hb Hd Hg; cbn [fns_loop].
  - exists (rev fns), (rev addrs). split; [reflexivity|]. now apply Forall_rev.
  - assert (Hb' : forall o, ~ In (o, IBad) s) by (intros o' H; apply (Hb o'); now right).
    assert (Hd' : forall o d, In (o, IDie d) s -> readable (d_attrs d) /\ (d_tag d <> TOther -> entry_readable us name_limit b (d_attrs d)))
      by (intros o' d H; apply (Hd o'); now right).
    destruct i as [|d|]; [now apply IH| |exfalso; apply (Hb o); now left].
    destruct (Hd o d ltac:(now left)) as [Hr He]. destruct (d_tag d) eqn:Et.
    + destruct He as (E1 & E2 & E3 & E4 & E5); [discriminate|].
      destruct (fn_attrs_ok pick us b Ho Hh (d_attrs d) None no_rattrs Hr E1 E3 E5) as (name & ra & Ea & Hn); [discriminate|].
      rewrite Ea. cbn [bind]. apply fn_attrs_names in Ea. destruct Ea as [_ Ea].
      destruct (for_each_ok m b (d_attrs d) ra E1 E2 Ea) as (rs & ->). cbn [bind]. destruct rs as [|r rs]; [now apply IH|].
      destruct (bounds_total m b (d_attrs d) ra E2 Ea) as (rg & -> & Hrg). cbn [bind]. apply IH; auto. constructor; auto.
      split; [exact Hn|]. cbn [f_range]. intros r' ->. destruct (Hrg r' eq_refl). eauto.
    + rewrite (skip_ok _ Hr). cbn [bind]. now apply IH.
    + rewrite (skip_ok _ Hr). cbn [bind]. now apply IH.
Qed.
Lemma tree_entries : forall us b t s, stored t s -> tree_readable us name_limit b t ->
  forall o d, In (o, IDie d) s -> readable (d_attrs d) /\ (d_tag d <> TOther -> entry_readable us name_limit b (d_attrs d)).
Proof.
  intros us b t s Hs Hr o d H. apply (proj1 stored_entries t s Hs) in H. destruct H as (x & Hx & _ & ->). cbn [d_attrs d_tag]. now apply Hr.
Qed.
Lemma functions_total : forall m srt pick us b t, units_ordered us -> headers_wf us -> unit_tree b t -> tree_readable us name_limit b t ->
  exists fs, functions_parse m srt pick us b = Ok fs /\ Forall fn_good (fs_fns fs).
Proof.
  intros m srt pick us b t Ho Hh (s & Hs & Hb & _) Hr. unfold functions_parse. rewrite Hb. cbn [g of_option bind].
  destruct (fns_total m pick us b Ho Hh s [] []) as (fns & addrs & -> & Hg).
  - apply (proj1 stored_nobad t s Hs).
  - eapply tree_entries; eauto.
  - constructor.
  - cbn [bind]. eexists. split; [reflexivity|]. exact Hg.
Qed.

(** ** Inlined calls *)
Definition inl_good (f : inl_fn) : Prop := text (in_name f).
Lemma skip_here : forall s cur, skip_children s cur cur = Ok (s, cur).
Proof. intros [|[o i] s] cur; cbn [skip_children]; (destruct (Z.leb_spec cur cur); [reflexivity|lia]). Qed.
Lemma node_readable : forall us b t c, tree_readable us name_limit b t -> In c (t_children t) -> tree_readable us name_limit b c.
Proof. intros us b t c H Hc x Hx. apply H. apply InChild with (c := c); auto. Qed.
Lemma skip_total : forall us b,
  (forall t s, stored t s -> tree_readable us name_limit b t -> forall rest cur depth, (depth < cur)%Z ->
     skip_children (s ++ rest) cur depth = skip_children rest cur depth) /\
  (forall l s, stored_list l s -> (forall t, In t l -> tree_readable us name_limit b t) -> forall rest cur depth, (depth < cur)%Z ->
     skip_children (s ++ rest) cur depth = skip_children rest cur depth).
Proof.
  intros us b. apply stored_both.
  - intros off tag attrs Hr rest cur depth Hlt. cbn [app skip_children]. destruct (Z.leb_spec cur depth); [lia|].
    destruct (Hr _ (InHere _)) as [H1 _]. cbn [t_attrs] in H1. cbn [d_attrs d_children]. rewrite (skip_ok _ H1). reflexivity.
  - intros off tag attrs l s o Hs IH Hr rest cur depth Hlt. cbn [app skip_children]. destruct (Z.leb_spec cur depth); [lia|].
    destruct (Hr _ (InHere _)) as [H1 _]. cbn [t_attrs] in H1. cbn [d_attrs d_children]. rewrite (skip_ok _ H1). cbn [bind].
    rewrite <- app_assoc, IH; [|intros t Ht; eapply node_readable; eauto|lia].
    cbn [app skip_children]. destruct (Z.leb_spec (cur + 1) depth); [lia|]. now replace (cur + 1 - 1)%Z with cur by lia.
  - reflexivity.
  - intros t l s1 s2 H1 IH1 H2 IH2 Hr rest cur depth Hlt. rewrite <- app_assoc, IH1; auto; [|apply Hr; now left].
    apply IH2; auto. intros t' Ht. apply Hr. now right.
Qed.
Definition reads_on (m : mode) (pick : N -> N) (us : units) (b : body) (s : stream) : Prop :=
  forall fuel rest cur fns addrs depth idepth, (depth < cur)%Z -> (length s < fuel)%nat -> Forall inl_good fns ->
    exists fuel' fns' addrs', (fuel - length s <= fuel')%nat /\ Forall inl_good fns' /\
      parse_children m pick us b fuel (s ++ rest, cur, fns, addrs) depth idepth =
      parse_children m pick us b fuel' (rest, cur, fns', addrs') depth idepth.
Lemma reads_total : forall m pick us b, units_ordered us -> headers_wf us ->
  (forall t s, stored t s -> tree_readable us name_limit b t -> reads_on m pick us b s) /\
  (forall l s, stored_list l s -> (forall t, In t l -> tree_readable us name_limit b t) -> reads_on m pick us b s).
Proof.
  intros m pick us b Ho Hh. apply stored_both.
  - intros off tag attrs Hr fuel rest cur fns addrs depth idepth Hlt Hf Hg. destruct fuel as [|fuel]; [lia|]. cbn [length] in Hf.
    destruct (Hr _ (InHere _)) as [H1 H2]. cbn [t_attrs t_tag] in H1, H2.
    cbn [parse_children app read_abbreviation bind d_tag d_attrs d_children]. destruct (Z.leb_spec cur depth); [lia|].
    destruct tag.
    + rewrite (skip_ok _ H1). cbn [bind]. rewrite skip_here. cbn [bind]. exists fuel, fns, addrs. split; [cbn [length]; lia|]. auto.
    + destruct H2 as (E1 & E2 & E3 & E4 & E5); [discriminate|].
      destruct (inl_attrs_ok pick us b Ho Hh attrs None no_rattrs (None, 0, 0) H1 E1 E3 E5) as (name & ra & [[file line] column] & Ea & Hn); [discriminate|].
      rewrite Ea. cbn [bind]. apply inl_attrs_names in Ea. destruct Ea as [_ Ea].
      destruct (for_each_ok m b attrs ra E1 E2 Ea) as (rs & ->). cbn [bind].
      destruct fuel as [|fuel]; [lia|]. cbn [parse_children]. destruct (Z.leb_spec cur cur); [|lia]. cbn [bind].
      exists (S fuel). eexists. eexists. split; [cbn [length]; lia|]. split; [|reflexivity]. constructor; auto.
    + rewrite (skip_ok _ H1). cbn [bind]. exists fuel, fns, addrs. split; [cbn [length]; lia|]. auto.
  - intros off tag attrs l s o Hs IH Hr fuel rest cur fns addrs depth idepth Hlt Hf Hg. destruct fuel as [|fuel]; [lia|].
    assert (Hl : forall t, In t l -> tree_readable us name_limit b t) by (intros t Ht; eapply node_readable; eauto).
    specialize (IH Hl). cbn [length] in *. rewrite app_length in *. cbn [length] in *.
    destruct (Hr _ (InHere _)) as [H1 H2]. cbn [t_attrs t_tag] in H1, H2.
    cbn [parse_children app read_abbreviation bind d_tag d_attrs d_children]. destruct (Z.leb_spec cur depth); [lia|].
    rewrite <- app_assoc. cbn [app]. destruct tag.
    + rewrite (skip_ok _ H1). cbn [bind]. rewrite (proj2 (skip_total us b) _ _ Hs Hl) by lia. cbn [skip_children].
      destruct (Z.leb_spec (cur + 1) cur); [lia|]. replace (cur + 1 - 1)%Z with cur by lia. rewrite skip_here. cbn [bind].
      exists fuel, fns, addrs. split; [lia|]. auto.
    + destruct H2 as (E1 & E2 & E3 & E4 & E5); [discriminate|].
      destruct (inl_attrs_ok pick us b Ho Hh attrs None no_rattrs (None, 0, 0) H1 E1 E3 E5) as (name & ra & [[file line] column] & Ea & Hn); [discriminate|].
      rewrite Ea. cbn [bind]. apply inl_attrs_names in Ea. destruct Ea as [_ Ea].
      destruct (for_each_ok m b attrs ra E1 E2 Ea) as (rs & ->). cbn [bind].
      destruct (IH fuel ((o, INull) :: rest) (cur + 1)%Z (InlFn name file line column :: fns)
                  (rev (map (fun r => InlAddr r idepth (nlen fns)) rs) ++ addrs) cur (idepth + 1)) as (fuel1 & fns1 & addrs1 & F1 & F2 & F3);
        [lia|lia|constructor; auto|].
      unfold stream in *. rewrite F3. destruct fuel1 as [|[|fuel1]]; [lia|lia|].
      cbn [parse_children read_abbreviation bind]. destruct (Z.leb_spec (cur + 1) cur); [lia|].
      replace (cur + 1 - 1)%Z with cur by lia. destruct (Z.leb_spec cur cur); [|lia]. cbn [bind].
      exists fuel, fns1, addrs1. split; [lia|]. auto.
    + rewrite (skip_ok _ H1). cbn [bind].
      destruct (IH fuel ((o, INull) :: rest) (cur + 1)%Z fns addrs depth idepth) as (fuel1 & fns1 & addrs1 & F1 & F2 & F3); [lia|lia|auto|].
      unfold stream in *. rewrite F3. destruct fuel1 as [|fuel1]; [lia|]. cbn [parse_children read_abbreviation bind].
      destruct (Z.leb_spec (cur + 1) depth); [lia|]. replace (cur + 1 - 1)%Z with cur by lia.
      exists fuel1, fns1, addrs1. split; [lia|]. auto.
  - intros _ fuel rest cur fns addrs depth idepth Hlt Hf Hg. exists fuel, fns, addrs. split; [lia|]. auto.
  - intros t l s1 s2 H1 IH1 H2 IH2 Hr fuel rest cur fns addrs depth idepth Hlt Hf Hg. rewrite app_length in *. rewrite <- app_assoc.
    destruct (IH1 (Hr t (or_introl eq_refl)) fuel (s2 ++ rest) cur fns addrs depth idepth) as (fuel1 & fns1 & addrs1 & F1 & F2 & F3); [lia|lia|auto|].
    destruct (IH2 ltac:(intros t' Ht; apply Hr; now right) fuel1 rest cur fns1 addrs1 depth idepth) as (fuel2 & fns2 & addrs2 & G1 & G2 & G3); [lia|lia|auto|].
    exists fuel2, fns2, addrs2. split; [lia|]. split; auto. now rewrite F3, G3.
Qed.
Lemma inlined_total : forall m srt pick us b t x, units_ordered us -> headers_wf us -> unit_tree b t -> tree_readable us name_limit b t ->
  in_tree x t -> exists i, inlined_parse m srt pick us b (t_off x) = Ok i /\ Forall inl_good (i_fns i).
Proof.
  intros m srt pick us b t x Ho Hh Ht Hr Hx. unfold inlined_parse.
  destruct (unit_tree_at b t x Ht Hx) as (sx & post & Hst & ->). cbn [g of_option bind].
  destruct (Hr x Hx) as [H1 _].
  assert (Hc : forall c, In c (t_children x) -> tree_readable us name_limit b c).
  { intros c Hc y Hy. apply Hr. clear - Hx Hc Hy. induction Hx as [|t c' Hc' Hx IH]; [now apply InChild with (c := c)|].
    apply InChild with (c := c'); auto. }
  inversion Hst; subst; cbn [app read_abbreviation bind unwrap d_attrs d_children t_attrs] in *; rewrite (skip_ok _ H1); cbn [bind].
  - cbn [parse_children]. destruct (Z.leb_spec 0 0); [|lia]. cbn [bind]. eexists. split; [reflexivity|]. constructor.
  - rewrite <- app_assoc. destruct (proj2 (reads_total m pick us b Ho Hh) _ _ H Hc (S (length (s ++ [(o, INull)] ++ post)))
      ([(o, INull)] ++ post) (0 + 1)%Z [] [] 0%Z 0) as (fuel & fns & addrs & F1 & F2 & F3).
    + lia.
    + rewrite app_length. lia.
    + constructor.
    + unfold stream in *. rewrite F3. rewrite !app_length in F1. cbn [length] in F1. destruct fuel as [|[|fuel]]; [lia|lia|].
      cbn [app parse_children read_abbreviation bind]. destruct (Z.leb_spec (0 + 1) 0); [lia|].
      replace (0 + 1 - 1)%Z with 0%Z by lia. destruct (Z.leb_spec 0 0); [|lia]. cbn [bind]. eexists. split; [reflexivity|]. now apply Forall_rev.
Qed.
Lemma find_inl_total : forall pick fns probe fuel addrs depth, (length addrs < fuel)%nat ->
  (forall a, In a addrs -> exists f, nnth (ia_fn a) fns = Some f) -> Forall inl_good fns ->
  exists l, find_inlined_loop fuel pick fns addrs probe depth = Ok l /\ Forall inl_good l.
Proof.
  intros pick fns probe. induction fuel as [|fuel IH]; intros addrs depth Hl Hi Hg; [lia|]. cbn [find_inlined_loop].
  destruct (binary_search_by pick addrs (inl_cmp depth probe)) as [i|n] eqn:E; [|exists []; split; [reflexivity|constructor]].
  apply bsearch_found in E. destruct E as (a & Ha & _). rewrite Ha. cbn [unwrap bind].
  destruct (Hi a (nth_error_In _ _ Ha)) as (f & Hf). rewrite Hf. cbn [unwrap bind].
  destruct (IH (skipn (S i) addrs) (depth + 1)) as (l & -> & Hgl).
  - rewrite skipn_length. pose proof (nth_error_lt _ _ _ _ Ha). lia.
  - intros a' Ha'. apply Hi. rewrite <- (firstn_skipn (S i) addrs). apply in_app_iff. now right.
  - auto.
  - cbn [bind]. exists (f :: l). split; auto. constructor; auto. rewrite Forall_forall in Hg. apply Hg.
    rewrite nnth_nth_error in Hf. exact (nth_error_In _ _ Hf).
Qed.
Lemma find_inlined_total : forall m srt pick us u b t x f probe, sorter_ok srt -> units_ordered us -> headers_wf us ->
  unit_body u b -> unit_tree b t -> tree_readable us name_limit b t -> in_tree x t -> f_off f = t_off x ->
  exists l, find_inlined_functions m srt pick us u f probe = Ok l /\ Forall inl_good l.
Proof.
  intros m srt pick us u b t x f probe Hsrt Ho Hh Hb Ht Hr Hx Eo.
  destruct (inlined_total m srt pick us b t x Ho Hh Ht Hr Hx) as (i & Hi & Hg).
  unfold find_inlined_functions. apply unit_ref_body in Hb. rewrite Hb, Eo. cbn [bind]. rewrite Hi. cbn [bind]. unfold find_inlined.
  apply find_inl_total; auto.
  destruct (parse_index m srt pick us b t x i Hsrt Ho Hh Ht Hx) as [[Hidx _] _]; auto.
  - intros c y Hc Hy Hty. destruct (Hr y) as [_ He].
    + clear - Hx Hc Hy. induction Hx as [|t c' Hc' Hx IH]; [now apply InChild with (c := c)|]. apply InChild with (c := c'); auto.
    + destruct He as (_ & E2 & _); [congruence|]. exact E2.
  - intros a Ha. destruct (Hidx a Ha) as (y & g & _ & _ & _ & Hn & _). eauto.
Qed.

(** ** Lines *)
Lemma unit_lines_total : forall srt u main, u_main u = Some main -> (forall p, b_lines main = Some p -> lines_readable main p) ->
  exists ls, unit_lines srt u = Ok ls.
Proof.
  intros srt u main Hm Hp. unfold unit_lines. rewrite Hm. cbn [g of_option bind]. destruct (b_lines main) as [p|]; [|eauto].
  destruct (Hp p eq_refl) as (rows & Hr & Hf & _). destruct (C40_accepted srt main p rows Hr Hf) as (ls & ->). cbn [bind]. eauto.
Qed.
Lemma unit_location_total : forall srt pick u main probe, sorter_ok srt -> u_main u = Some main -> (forall p, b_lines main = Some p -> lines_readable main p) ->
  exists l, unit_find_location srt pick u probe = Ok l.
Proof.
  intros srt pick u main probe Hsrt Hm Hp. unfold unit_find_location, unit_lines. rewrite Hm. cbn [g of_option bind].
  destruct (b_lines main) as [p|]; [|cbn [bind]; eauto]. destruct (Hp p eq_refl) as (rows & Hr & Hf & Hfile).
  destruct (C40_accepted srt main p rows Hr Hf) as (ls & Hls). rewrite Hls. cbn [bind].
  destruct (C40_total srt pick main p ls rows probe Hsrt Hls Hr Hfile) as [H|(_ & _ & _ & _ & loc & _ & _ & _ & _ & H & _)]; eauto.
Qed.
Lemma info_total : forall srt u main f, u_main u = Some main -> (forall p, b_lines main = Some p -> lines_readable main p) -> inl_good f ->
  exists x, inlined_info srt u f = Ok x.
Proof.
  intros srt u main f Hm Hp Hg. unfold inlined_info.
  assert (E : exists n, match in_name f with Some n => if utf8_valid n then Ok n else Err EInvalidDwarf | None => Ok [] end = Ok n).
  { destruct (in_name f) as [n|] eqn:En; [|eauto]. rewrite (Hg n En). eauto. }
  destruct E as (n & ->). cbn [bind]. destruct (in_file f) as [i|]; [|eauto].
  destruct (unit_lines_total srt u main Hm Hp) as (ls & ->). cbn [bind]. destruct ls as [ls|]; [|eauto].
  destruct (nnth i (ls_files ls)) as [[dir file]|]; eauto.
Qed.
Lemma inline_total : forall srt u main, u_main u = Some main -> (forall p, b_lines main = Some p -> lines_readable main p) ->
  forall l code acc, Forall inl_good l -> exists x, inline_loop srt u l code acc = Ok x.
Proof.
  intros srt u main Hm Hp. induction l as [|f l IH]; intros code acc Hg; cbn [inline_loop]; [eauto|]. inversion Hg; subst.
  destruct (info_total srt u main f Hm Hp H1) as ([n loc] & ->). cbn [bind]. destruct (last_code acc); [eauto|]. destruct loc; eauto.
Qed.
Lemma language_total : forall u main attrs, u_main u = Some main -> root_attrs main attrs -> readable attrs -> exists l, unit_language u = Ok l.
Proof.
  intros u main attrs Hm (off & tag & ch & s & Hs) Hr. unfold unit_language. rewrite Hm. cbn [g of_option bind].
  destruct (u_lang u); [eauto|]. rewrite Hs. cbn [g of_option bind read_abbreviation d_attrs].
  clear - Hr. induction Hr as [|a l Ha Hr IH]; cbn [first_lang]; [eauto|]. destruct a as [[an av]|]; [|congruence].
  cbn [g of_option bind a_name a_value]. destruct an; eauto. destruct av; eauto.
Qed.

(** ** Theorems *)

(** Units are found. *)
Lemma sets_total : forall l off, sets_readable l -> exists rs, sets_ranges l off = Ok rs.
Proof.
  induction l as [|a l IH]; intros off H; cbn [sets_ranges]; [eauto|]. destruct (as_unit a =? off); [|eauto].
  pose proof (H a ltac:(now left)) as Ha. destruct (as_entries a); [|congruence]. cbn [g of_option bind].
  destruct (IH off) as (rs & ->); [intros x Hx; apply H; now right|]. cbn [bind]. eauto.
Qed.
Lemma arange_total : forall pick l off, sets_readable l -> exists rs, arange_ranges pick l off = Ok rs.
Proof.
  intros pick l off H. unfold arange_ranges. destruct (binary_search_by pick l (fun a => as_unit a ?= off)) as [i|n]; [|eauto].
  apply sets_total. intros a Ha. apply H. rewrite <- (firstn_skipn (first_set l off i) l). apply in_app_iff. now right.
Qed.
Theorem C79_units : forall m srt pick sc sets hs, sorter_ok srt -> sc_aranges sc = Some sets -> sc_units sc = Some hs ->
  sets_readable sets -> (forall h, In h hs -> header_readable h) -> exists us, units_parse m srt pick sc = Ok us.
Proof.
  intros m srt pick sc sets hs Hsrt E1 E2 Hs Hh. unfold units_parse. rewrite E1, E2. cbn [g of_option bind].
  destruct (sorts_by_key srt _ as_unit sets Hsrt) as [Hp _].
  assert (Hs' : sets_readable (srt _ (by_key as_unit) sets)).
  { intros a Ha. apply Hs. now apply (Permutation_in _ (Permutation_sym Hp)). }
  assert (H : forall ranges us, exists x, units_loop m srt pick (srt _ (by_key as_unit) sets) hs ranges us = Ok x).
  { clear E1 E2 Hs Hp. induction hs as [|h hs IH]; intros ranges us; cbn [units_loop]; [eauto|].
    assert (IH' := IH ltac:(intros h' Hh'; apply Hh; now right)). pose proof (Hh h ltac:(now left)) as Hr. clear IH Hh.
    destruct (h_offset h) as [off|]; [|apply IH']. unfold header_readable in Hr. destruct (h_kind h); [apply IH'|apply IH'|].
    destruct (arange_total pick _ off Hs') as (rs & ->). cbn [bind]. destruct rs as [|r rs]; [|apply IH'].
    destruct (h_unit h) as [b|]; [|apply IH']. destruct (Hr eq_refl b eq_refl) as (attrs & (o & tag & ch & s & Hb) & R1 & R2 & R3).
    rewrite Hb. cbn [g of_option bind read_abbreviation d_attrs].
    destruct (unit_attrs_ok b attrs no_rattrs None R1 R2) as ([ra lang] & Ea). rewrite Ea. cbn [bind]. apply unit_attrs_ranges in Ea.
    destruct (for_each_ok m b attrs ra R2 R3 Ea) as (rs & ->). cbn [bind]. apply IH'. }
  destruct (H [] []) as ([rs us] & ->). cbn [bind]. eauto.
Qed.

Lemma first_total : forall A (f : dunit -> res (option A)) us l, (forall i, In i l -> exists u, nnth i (us_units us) = Some u) ->
  (forall u, In u (us_units us) -> exists x, f u = Ok x) -> exists r, first_in f us l = Ok r.
Proof.
  intros A f us l Hi Hf. induction l as [|i l IH]; cbn [first_in]; [eauto|].
  destruct (Hi i ltac:(now left)) as (u & Hu). unfold unit_at. rewrite Hu. cbn [unwrap bind].
  destruct (Hf u) as (x & ->); [rewrite nnth_nth_error in Hu; eapply nth_error_In; eauto|]. cbn [bind].
  destruct x; [eauto|]. apply IH. intros j Hj. apply Hi. now right.
Qed.

Section Lookup.
Context (m : mode) (srt : sorter) (pick : N -> N) (sc : sections) (us : units) (sets : list aset) (hs : list uheader) (addr : N).
Context (Hsrt : sorter_ok srt) (Hus : units_parse m srt pick sc = Ok us)
  (Hsets : sc_aranges sc = Some sets) (Hhs : sc_units sc = Some hs) (Hwf : forall h, In h hs -> unit_wf h) (Hfol : headers_follow hs)
  (Haddr : addr + 1 < two64) (Hread : forall u, In u (us_units us) -> unit_readable us name_limit u).

Lemma consulted : exists l, find_units m pick us addr = Ok l /\ forall i, In i l -> exists u, nnth i (us_units us) = Some u.
Proof.
  destruct (C38_consulted m srt pick sc us sets hs addr) as (l & H1 & H2 & _); auto.
  exists l. split; auto. intros i Hi. destruct (H2 i Hi) as (h & off & u & _ & _ & _ & Hu & _). eauto.
Qed.
Lemma wf_units : units_ordered us /\ headers_wf us.
Proof. eapply C42_units; eauto. Qed.
Lemma fn_total : forall u, In u (us_units us) -> exists o, unit_find_function m srt pick us u addr = Ok o /\
  forall f, o = Some f -> fn_good f /\ exists b t x, unit_body u b /\ unit_tree b t /\ tree_readable us name_limit b t /\ in_tree x t /\ f_off f = t_off x.
Proof.
  intros u Hu. destruct wf_units as [Ho Hh]. destruct (Hread u Hu) as [(b & t & Hb & Ht & Hr) _].
  destruct (functions_total m srt pick us b t Ho Hh Ht Hr) as (fs & Hfs & Hg).
  assert (Hrw : forall x, is_function t x -> ranges_wf b (t_attrs x)).
  { intros x [Hx Htag]. destruct (Hr x Hx) as [_ He]. destruct He as (_ & E2 & _); [congruence|exact E2]. }
  destruct (functions_ok m srt pick us b t fs Hsrt Ho Hh Ht Hrw Hfs) as (_ & H1 & _).
  unfold unit_find_function, unit_functions. pose proof Hb as Hb'. apply unit_ref_body in Hb'. rewrite Hb'. cbn [bind]. rewrite Hfs. cbn [bind].
  unfold find_address. destruct (binary_search_by pick (fs_addrs fs) (fn_cmp addr)) as [i|n] eqn:Eb; [|exists None; split; [reflexivity|discriminate]].
  apply bsearch_found in Eb. destruct Eb as (a & Ha & Ea). rewrite Ha. cbn [unwrap bind].
  destruct (H1 a (nth_error_In _ _ Ha)) as (f & x & E1 & [E2 _] & E3 & _). rewrite E1. cbn [unwrap bind].
  exists (Some f). split; [reflexivity|]. intros f' E. injection E as <-. split.
  - rewrite Forall_forall in Hg. apply Hg. rewrite nnth_nth_error in E1. eapply nth_error_In; eauto.
  - exists b, t, x. do 4 (split; auto). apply E3.
Qed.
(** Looking for functions and for locations does not fail, *)
Theorem C79_function : exists o, find_function m srt pick us addr = Ok o.
Proof.
  destruct consulted as (l & Hl & Hi). unfold find_function. rewrite Hl. cbn [bind].
  apply first_total; auto. intros u Hu. destruct (fn_total u Hu) as (o & H & _). eauto.
Qed.
Theorem C79_location : exists o, find_location m srt pick us addr = Ok o.
Proof.
  destruct consulted as (l & Hl & Hi). unfold find_location. rewrite Hl. cbn [bind].
  destruct (first_total _ (fun u => unit_find_location srt pick u addr) us l Hi) as (r & ->).
  - intros u Hu. destruct (Hread u Hu) as [_ (main & attrs & Hm & _ & _ & Hp)]. eapply unit_location_total; eauto.
  - cbn [bind]. eauto.
Qed.
(** nor does that for symbols, unless it does in the symbol table. *)
Theorem C79_symbol : forall r opts, dr_units r = us -> (exists z, dr_find_sym r addr opts = Ok z) ->
  exists z, dwarf_find_sym m srt pick r addr opts = Ok z.
Proof.
  intros r opts Hr (z & Hz). unfold dwarf_find_sym. rewrite Hr. destruct C79_function as (o & Ho). rewrite Ho. cbn [bind].
  assert (Hgood : forall f i, o = Some (f, i) -> exists u, nnth i (us_units us) = Some u /\ In u (us_units us) /\ unit_find_function m srt pick us u addr = Ok (Some f)).
  { intros f i ->. unfold find_function in Ho. ib Ho l El. apply first_in_some in Ho. destruct Ho as (u & _ & Hu & Hf). exists u. split; auto. split; auto.
    rewrite nnth_nth_error in Hu. eapply nth_error_In; eauto. }
  assert (Hsym : exists y, match o with
    | Some (f, i) =>
        let* u := unit_at us i in
        let* name := (match f_fname f with Some n => if utf8_valid n then Ok n else Err EInvalidDwarf | None => Ok [] end) in
        let* size := (match f_range f with Some rg => let* n := sub64 m (r_end rg) (r_begin rg) in Ok (Some n) | None => Ok None end) in
        let* lang := unit_language u in
        Ok (inl (ResolvedSym name (dr_module r) (match f_range f with Some rg => r_begin rg | None => 0 end) size (src_lang_of lang) None []))
    | None => dr_find_sym r addr opts end = Ok y).
  { destruct o as [[f i]|]; [|eauto]. destruct (Hgood f i eq_refl) as (u & Hu & Hin & Hf). unfold unit_at. rewrite Hu. cbn [unwrap bind].
    destruct (fn_total u Hin) as (o & Ho' & Hg). rewrite Hf in Ho'. injection Ho' as <-. destruct (Hg f eq_refl) as ((G1 & G2) & _).
    assert (E : exists n, match f_fname f with Some n => if utf8_valid n then Ok n else Err EInvalidDwarf | None => Ok [] end = Ok n).
    { destruct (f_fname f) as [n|] eqn:En; [|eauto]. rewrite (G1 n eq_refl). eauto. }
    destruct E as (n & ->). cbn [bind].
    assert (E : exists n, match f_range f with Some rg => let* n := sub64 m (r_end rg) (r_begin rg) in Ok (Some n) | None => Ok None end = Ok n).
    { destruct (f_range f) as [rg|]; [|eauto]. unfold sub64. rewrite usub_small by (apply G2; auto). cbn [bind]. eauto. }
    destruct E as (sz & ->). cbn [bind]. destruct (Hread u Hin) as [_ (main & attrs & Hm & Hra & Hrd & _)].
    destruct (language_total u main attrs Hm Hra Hrd) as (lang & ->). cbn [bind]. eauto. }
  destruct Hsym as (y & ->). cbn [bind]. destruct y as [sym|reason]; [|eauto].
  assert (Hfill : exists x, fill_code_info m srt pick us sym addr opts o = Ok x); [|destruct Hfill as (x & ->); cbn [bind]; eauto].
  unfold fill_code_info. destruct (code_info_opt opts); cbn [negb]; [|eauto]. destruct C79_location as (loc & ->). cbn [bind].
  destruct loc as [loc|]; [|eauto]. destruct (inlined_fns_opt opts); [|cbn [bind]; eauto]. destruct o as [[f i]|]; [|cbn [bind]; eauto].
  destruct (Hgood f i eq_refl) as (u & Hu & Hin & Hf). unfold unit_at. rewrite Hu. cbn [unwrap bind].
  destruct (fn_total u Hin) as (o & Ho' & Hg). rewrite Hf in Ho'. injection Ho' as <-.
  destruct (Hg f eq_refl) as (_ & b & t & x & Hb & Ht & Htr & Hx & Eo). destruct wf_units as [Hord Hhd].
  destruct (find_inlined_total m srt pick us u b t x f addr Hsrt Hord Hhd Hb Ht Htr Hx Eo) as (fns & -> & Hfns). cbn [bind].
  destruct (Hread u Hin) as [_ (main & attrs & Hm & _ & _ & Hp)].
  destruct (inline_total srt u main Hm Hp fns (to_code_info loc) [] Hfns) as ([code ifs] & ->). cbn [bind]. eauto.
Qed.
End Lookup.
Print Assumptions C79_units.
Print Assumptions C79_function.
Print Assumptions C79_location.
Print Assumptions C79_symbol.

(** A function in several pieces whose own bounds are the wrong way round makes
    the lookup panic if overflow is checked for: the condition on bounds is
    needed. Otherwise its size is huge. *)
Theorem C79_bounds_refuted : exists r, dwarf_find_sym Checked stable first r 4097 Basic = Panic /\
  exists s n, dwarf_find_sym Wrapping stable first r 4097 Basic = Ok (inl s) /\ rs_size s = Some n /\ two64 - 100 < n.
Proof.
  exists (rg_resolver [Some (Attr ALow (VAddr 4144)); Some (Attr AHigh (VAddr 4096))]). split; [vm_compute; reflexivity|].
  eexists. exists (two64 - 48). split; [vm_compute; reflexivity|]. split; reflexivity.
Qed.
(** So does one name that is not text make that of all others impossible. *)
Theorem C79_text_refuted : exists r s, dwarf_find_sym Checked stable first r 4101 WithCode = Ok (inl s) /\ rs_name s <> [] /\
  dwarf_find_sym Checked stable first r 4101 WithInlined = Err EInvalidDwarf.
Proof.
  set (f := Node 20 TSubprogram (named_as [102] :: at_range 4096 16) (Some [Node 40 TInlined (named_as [255] :: at_range 4100 8) None])).
  set (t := Node 11 TOther (at_range 4096 16) (Some [f])).
  exists (DResolver (Units [URange 0 4112 (Range 4096 4112)] [DUnit 0 11 100 (Some (tree_body t (fun _ => None) (Some ex_prog))) (Some None) (Some None)])
    None (fun _ _ => Ok None) (fun _ _ => Ok (inr UnknownAddr)) (fun _ _ => Ok [])).
  eexists. split; [vm_compute; reflexivity|]. split; [discriminate|vm_compute; reflexivity].
Qed.
Print Assumptions C79_bounds_refuted.
Print Assumptions C79_text_refuted.

(** ** Example: the function with inlined calls *)
Lemma ex_nodes : forall x, in_tree x ex_tree -> In x [ex_tree; ex_f; Node 30 TOther [] (Some [ex_g]); ex_g; ex_h;
  Node 60 TSubprogram [named_as [110; 101; 115; 116; 101; 100]] None; Node 90 TSubprogram [named_as [103]] None; Node 95 TSubprogram [named_as [104]] None].
Proof.
  assert (Hinv : forall x t, in_tree x t -> x = t \/ exists c, In c (t_children t) /\ in_tree x c) by (intros x t H; destruct H; eauto).
  intros x H. cbn [In].
  repeat match goal with
         | H : in_tree _ _ |- _ => apply Hinv in H; destruct H as [->|(c & Hc & H)]; [auto 10|cbn in Hc]
         | H : _ \/ _ |- _ => destruct H as [<-|H]
         | H : False |- _ => destruct H
         end.
Qed.
Ltac cases_in H := repeat match type of H with
  | _ \/ _ => destruct H as [H|H]
  | False => destruct H
  | _ = Some _ => discriminate H
  end.
Ltac no_has := match goal with H : has _ _ _ |- _ => unfold has in H; cbn in H; cases_in H end.
Lemma ex_refers : forall off n, off = 90 /\ n = [103] \/ off = 95 /\ n = [104] -> refers ex_dunits ex_main (VUnitRef off) ex_main (Die TSubprogram false [named_as n]).
Proof.
  intros off n [[-> ->]|[-> ->]]; eapply RefUnit; vm_compute; reflexivity.
Qed.
Lemma ex_follow : forall off n, off = 90 /\ n = [103] \/ off = 95 /\ n = [104] -> followable ex_dunits name_limit ex_main (VUnitRef off).
Proof.
  intros off n H. assert (Hr := ex_refers off n H). assert (Hu : utf8_valid n = true) by (destruct H as [[_ ->]|[_ ->]]; reflexivity). clear H.
  change name_limit with (S 15). generalize 15%nat. generalize ex_dunits, ex_main, Hr. clear Hr. intros us b Hr k. cbn [followable].
  exists b, (Die TSubprogram false [named_as n]). split; [exact Hr|]. cbn [d_attrs].
  split; [repeat constructor; discriminate|]. split; [intros n' s' Hn' Hs'; no_has; injection Hs' as _ <-; exact Hu|].
  intros [_ Hno]. exfalso. eapply Hno; left; reflexivity.
Qed.
Lemma ex_entry : forall attrs, In attrs (map t_attrs [ex_f; ex_g; ex_h;
  Node 60 TSubprogram [named_as [110; 101; 115; 116; 101; 100]] None; Node 90 TSubprogram [named_as [103]] None; Node 95 TSubprogram [named_as [104]] None]) ->
  readable attrs /\ entry_readable ex_dunits name_limit ex_main attrs.
Proof.
  intros attrs H.
  assert (Hd : forall lo hi, low_of ex_main attrs lo -> high_of ex_main attrs lo hi -> lo <= hi /\ hi < two64).
  { intros lo hi (v & Hv & Ha) (v' & Hv' & Ha'). unfold has in *. cbn in H. cases_in H; subst attrs; cbn in Hv, Hv'; cases_in Hv; cases_in Hv';
      injection Hv; injection Hv'; intros; subst v v';
      (destruct Ha as [Ha|(i & Ha & _)]; [injection Ha as <-|discriminate]);
      (destruct Ha' as [[Ha'|(i & Ha' & _)]|(n & Ha' & ->)]; [discriminate|discriminate|injection Ha' as <-; unfold two64; lia]). }
  split; [cbn in H; cases_in H; subst attrs; repeat constructor; discriminate|].
  split; [split; [|split]|split; [|split; [|split]]].
  - intros n i [->| ->] Hi; exfalso; cbn in H; cases_in H; subst attrs; no_has.
  - intros o Ho. exfalso. cbn in H. cases_in H; subst attrs; no_has.
  - intros o Ho. exfalso. unfold list_of in Ho. cbn in H. cases_in H; subst attrs; no_has.
  - split; [|split; [|split]]; try (cbn in H; cases_in H; subst attrs; apply unique_short; vm_compute; lia).
    intros lo hi H1 H2. eapply Hd; eauto.
  - intros n s Hn Hs. cbn in H. cases_in H; subst attrs; no_has; injection Hs as _ <-; reflexivity.
  - intros lo hi H1 H2. eapply Hd; eauto.
  - intros v (n & Hn & Hv). cbn in H. cases_in H; subst attrs; destruct Hn as [->| ->]; no_has; injection Hv as <-;
      [apply (ex_follow 90 [103])|apply (ex_follow 95 [104])]; auto.
Qed.
Lemma ex_tree_readable : tree_readable ex_dunits name_limit ex_main ex_tree.
Proof.
  assert (He : forall y, In y [ex_f; ex_g; ex_h; Node 60 TSubprogram [named_as [110; 101; 115; 116; 101; 100]] None;
    Node 90 TSubprogram [named_as [103]] None; Node 95 TSubprogram [named_as [104]] None] ->
    readable (t_attrs y) /\ (t_tag y <> TOther -> entry_readable ex_dunits name_limit ex_main (t_attrs y))).
  { intros y Hy. destruct (ex_entry (t_attrs y) (in_map t_attrs _ _ Hy)). auto. }
  intros x Hx. apply ex_nodes in Hx. destruct Hx as [<-|[Hx|[<-|Hx]]].
  - split; [repeat constructor; discriminate|intros Hk; exfalso; apply Hk; reflexivity].
  - apply He. now left.
  - split; [repeat constructor; discriminate|intros Hk; exfalso; apply Hk; reflexivity].
  - apply He. now right.
Qed.
Lemma ex_readable : forall u, In u (us_units ex_dunits) -> unit_readable ex_dunits name_limit u.
Proof.
  intros u [<-|[]]. split.
  - exists ex_main, ex_tree. split; [split; [eexists; reflexivity|right; auto]|]. split; [apply ex_good|exact ex_tree_readable].
  - exists ex_main, (at_range 4096 16). split; [reflexivity|]. split; [do 4 eexists; reflexivity|]. split; [repeat constructor; discriminate|].
    intros p Hp. injection Hp as <-. exists ex_rows. split; [reflexivity|]. split.
    + intros f [Hf|Hf]; [discriminate|]. cbn in Hf. cases_in Hf; subst f; (split; [discriminate|]); cbn; auto; right; discriminate.
    + intros r Hr _. cbn in Hr. cases_in Hr; subst r; cbn [p_file]; eexists; right; (split; [reflexivity|]); eexists; (split; [reflexivity|reflexivity]).
Qed.
Example C79_example : forall m pick opts r, units_parse m stable pick (Sections (Some []) (Some ex_dheaders)) = Ok ex_dunits -> dr_units r = ex_dunits ->
  (forall a, exists z, dr_find_sym r a opts = Ok z) -> forall addr, addr + 1 < two64 -> exists z, dwarf_find_sym m stable pick r addr opts = Ok z.
Proof.
  intros m pick opts r Hus Hr Hs addr Ha.
  apply (C79_symbol m stable pick (Sections (Some []) (Some ex_dheaders)) ex_dunits [] ex_dheaders addr); auto using stable_ok, ex_readable.
  - intros h [<-|[]] b attrs Hb (o & tag & ch & s & Hs'). injection Hb as <-. injection Hs' as <- <- <- <- <-.
    split; [|split; [|split]]; try (apply unique_short; vm_compute; lia).
    intros lo hi (v & Hv & Hav) (v' & Hv' & Hav'). unfold has in *. cbn in Hv, Hv'. cases_in Hv. cases_in Hv'. injection Hv as <-. injection Hv' as <-.
    destruct Hav as [E|(i & E & _)]; [injection E as <-|discriminate].
    destruct Hav' as [[E|(i & E & _)]|(n & E & ->)]; [discriminate|discriminate|injection E as <-; reflexivity].
  - split.
    + intros [|[|i]] [|[|j]] h1 h2 o1 o2 Hij H1 H2; try lia; try discriminate.
    + intros h [<-|[]]. reflexivity.
Qed.
