(** * C62: symbols of debug information by name, and all of them *)

From Verif Require Import Base Util UtilProofs Search Depmod Dwarf DwarfSpec DwarfSymSpec Lists Sym Inspect Text Nom.
From Verif Require Import PropDwLines PropDwUnits PropDwNames PropDwFns PropDwSym.
From Verif Require ElfSpec.
From Coq Require Import Permutation Sorted.
Notation visit := ElfSpec.visit.
Local Open Scope N_scope.

(** ** The functions read are those of the tree, in order. *)
Definition entry : Type := N * list (option attr).
Definition is_sub (g : dtag) : bool := match g with TSubprogram => true | _ => false end.
Fixpoint ents (s : stream) : list entry :=
  match s with
  | [] => []
  | (o, IDie d) :: s => if is_sub (d_tag d) then (o, d_attrs d) :: ents s else ents s
  | _ :: s => ents s
  end.
Definition key (x : tree) : entry := (t_off x, t_attrs x).

Lemma ents_app : forall s1 s2, ents (s1 ++ s2) = ents s1 ++ ents s2.
Proof.
  induction s1 as [|[o i] s1 IH]; intros s2; [reflexivity|]. cbn [app ents]. destruct i as [|d|]; auto.
  rewrite IH. destruct (is_sub (d_tag d)); reflexivity.
Qed.
Lemma ents_stored :
  (forall t s, stored t s -> ents s = map key (filter (fun x => is_sub (t_tag x)) (preorder t))) /\
  (forall l s, stored_list l s -> ents s = map key (filter (fun x => is_sub (t_tag x)) (flat_map preorder l))).
Proof.
  apply stored_both.
  - intros off tag attrs. cbn [ents preorder filter d_tag d_attrs t_tag]. destruct (is_sub tag); reflexivity.
  - intros off tag attrs l s o Hs IH. cbn [ents preorder filter d_tag d_attrs t_tag]. rewrite ents_app. cbn [ents]. rewrite app_nil_r, IH.
    destruct (is_sub tag); reflexivity.
  - reflexivity.
  - intros t l s1 s2 H1 IH1 H2 IH2. cbn [flat_map]. rewrite ents_app, filter_app, map_app. congruence.
Qed.
Lemma those_key : forall (P : entry -> Prop) l l', those (fun x => t_tag x = TSubprogram /\ P (key x)) l l' ->
  those P (map key (filter (fun x => is_sub (t_tag x)) l)) (map key l').
Proof.
  intros P l l' H. induction H as [|x l l' [Ht Hp] H IH|x l l' Hn H IH]; cbn [filter map]; [constructor| |].
  - rewrite Ht. cbn [is_sub map]. now constructor.
  - destruct (is_sub (t_tag x)) eqn:E; auto. cbn [map]. apply PickSkip; auto. intros Hp. apply Hn. split; auto. destruct (t_tag x); auto; discriminate.
Qed.

Definition read_as (us : units) (b : body) (e : entry) (f : dfn) : Prop :=
  made_of us b (fst e) (snd e) f /\ (nameless (snd e) -> (forall v, ~ refers_on (snd e) v) -> f_fname f = None).
Lemma fns_loop_list : forall m pick us b s sel fns addrs fns' addrs', units_ordered us -> headers_wf us ->
  (forall off attrs, In (off, attrs) (ents s) -> ranges_wf b attrs) -> those (fun e => has_code b (snd e)) (ents s) sel ->
  fns_loop m pick us b s fns addrs = Ok (fns', addrs') ->
  exists new, fns' = rev fns ++ new /\ Forall2 (read_as us b) sel new.
Proof.
  intros m pick us b. induction s as [|[o i] s IH]; intros sel fns addrs fns' addrs' Ho Hh Hwf Hp H; cbn [fns_loop] in H; cbn [ents] in Hp, Hwf.
  - inversion Hp; subst. injection H as <- <-. exists []. split; [now rewrite app_nil_r|constructor].
  - destruct i as [|d|].
    + eapply IH; eauto.
    + destruct (d_tag d) eqn:Et; cbn [is_sub] in Hp, Hwf.
      * ib H x Ex. destruct x as [name ra]. ib H rs Ers. apply fn_attrs_names in Ex. destruct Ex as [En Era].
        assert (Hw : ranges_wf b (d_attrs d)) by (apply (Hwf o); now left).
        assert (Hwf' : forall off attrs, In (off, attrs) (ents s) -> ranges_wf b attrs) by (intros off attrs Hi; apply (Hwf off); now right).
        pose proof (ranges_declared m b (d_attrs d) ra rs Hw Era Ers) as HD.
        destruct rs as [|r0 rs].
        { inversion Hp as [|x l l' Hx Hl|x l l' Hx Hl]; subst.
          - exfalso. destruct Hx as (r & Hr & Hlt). cbn [snd] in Hr. apply (HD r). auto.
          - eapply IH; eauto. }
        inversion Hp as [|x l l' Hx Hl|x l l' Hx Hl]; subst; [|exfalso; apply Hx; exists r0; cbn [snd]; apply HD; now left].
        ib H bnd Eb. destruct (bounds_ok m b (d_attrs d) ra bnd Hw Era Eb) as [B1 B2].
        destruct (IH _ _ _ _ _ Ho Hh Hwf' Hl H) as (new & -> & Hn). exists (DFn o name bnd :: new). cbn [rev]. split; [now rewrite <- app_assoc|].
        constructor; auto. split; [split; [reflexivity|split; [|split; auto]]|].
        -- intros str Hnw Hs. cbn [f_fname]. eapply fn_names_ok; eauto.
        -- cbn [snd f_fname]. intros N1 N2. eapply nameless_none; eauto.
      * ib H u Eu. eapply IH; eauto.
      * ib H u Eu. eapply IH; eauto.
    + discriminate.
Qed.
Lemma preorder_in :
  forall t x, In x (preorder t) -> in_tree x t.
Proof.
  fix IH 1. intros [off tag attrs [l|]] x [<-|H]; try apply InHere; [|destruct H].
  assert (H' : exists c, In c l /\ in_tree x c).
  { induction l as [|c l IHl]; cbn [flat_map] in H; [destruct H|]. apply in_app_iff in H. destruct H as [H|H].
    - exists c. split; [now left|]. now apply IH.
    - destruct (IHl H) as (c' & H1 & H2). exists c'. split; auto. now right. }
  destruct H' as (c & H1 & H2). apply InChild with (c := c); auto.
Qed.
Lemma ents_function : forall t s off attrs, stored t s -> In (off, attrs) (ents s) -> exists x, is_function t x /\ t_attrs x = attrs.
Proof.
  intros t s off attrs Hs H. rewrite (proj1 ents_stored t s Hs) in H. apply in_map_iff in H. destruct H as (x & E & Hx).
  apply filter_In in Hx. destruct Hx as [Hx Ht]. injection E as _ E. exists x. split; auto. split; [now apply preorder_in|].
  destruct (t_tag x); auto; discriminate.
Qed.
Lemma functions_list : forall m srt pick us b t xs fs, units_ordered us -> headers_wf us -> unit_tree b t ->
  (forall x, is_function t x -> ranges_wf b (t_attrs x)) -> functions_of b t xs -> functions_parse m srt pick us b = Ok fs ->
  Forall2 (fun x f => read_as us b (key x) f) xs (fs_fns fs).
Proof.
  intros m srt pick us b t xs fs Ho Hh (s & Hs & Hb & _) Hwf Hf H. unfold functions_parse in H. rewrite Hb in H. cbn [g of_option bind] in H.
  ib H x Ex. destruct x as [fns addrs]. injection H as <-. cbn [fs_fns].
  destruct (fns_loop_list m pick us b s (map key xs) [] [] fns addrs Ho Hh) as (new & -> & Hn); auto.
  - intros off attrs Hi. destruct (ents_function t s off attrs Hs Hi) as (x & Hx & <-). auto.
  - rewrite (proj1 ents_stored t s Hs). apply (those_key (fun e => has_code b (snd e))). exact Hf.
  - cbn [rev app]. clear -Hn. remember (map key xs) as l eqn:E. revert xs E. induction Hn as [|e f l l' H Hn IH]; intros xs E; destruct xs as [|x xs]; try discriminate; constructor.
    + cbn [map] in E. injection E as -> ->. exact H.
    + cbn [map] in E. injection E as _ E. auto.
Qed.

(** What is reported of them *)
Definition offsets (r : dresolver) (off : bool) (a n : N) : res (option N) := if off then dr_file_offset r a n else Ok None.
Lemma info_ok : forall r off us b x f o, names_wf (t_attrs x) -> read_as us b (key x) f ->
  info_of (dr_module r) (offsets r off) us name_limit b x o -> function_to_sym_info r f off = Ok o /\
  match o with Some i => f_fname f = Some (si_name i) | None => f_fname f = None end.
Proof.
  intros r off us b x f o Hn [(_ & M1 & M2 & _) M3] (n & Hc & H). unfold function_to_sym_info. destruct n as [s|]; cbn [called] in Hc.
  - destruct H as (lo & hi & fo & Hu & Hlo & Hhi & Hle & Hoff & ->). cbn [snd key] in *. rewrite (M1 s Hn Hc), Hu, (M2 lo hi Hlo Hhi). cbn [r_begin r_end].
    destruct (N.leb_spec lo hi); [|lia]. unfold offsets in Hoff. rewrite Hoff. auto.
  - destruct Hc as [H1 H2]. subst o. rewrite (M3 H1 H2). auto.
Qed.

Definition reads (r : dresolver) (off : bool) (fns : list dfn) (l : list sym_info) : Prop :=
  exists os, Forall2 (fun f o => function_to_sym_info r f off = Ok o /\
    match o with Some i => f_fname f = Some (si_name i) | None => f_fname f = None end) fns os /\ l = somes os.
Lemma unit_reads : forall m srt pick r off u l, units_ordered (dr_units r) -> headers_wf (dr_units r) ->
  unit_infos (dr_module r) (offsets r off) (dr_units r) name_limit u l ->
  (exists fs, unit_functions m srt pick (dr_units r) u = Ok fs) ->
  exists fs, unit_functions m srt pick (dr_units r) u = Ok fs /\ reads r off (fs_fns fs) l.
Proof.
  intros m srt pick r off u l Ho Hh (b & t & xs & os & Hb & Ht & Hwf & Hf & H2 & ->) [fs Efs]. exists fs. split; auto.
  unfold unit_functions in Efs. apply unit_ref_body in Hb. rewrite Hb in Efs. cbn [bind] in Efs.
  assert (Hr : Forall2 (fun x f => read_as (dr_units r) b (key x) f) xs (fs_fns fs)).
  { eapply functions_list; eauto. intros x Hx. now apply Hwf. }
  assert (Hxs : Forall (fun x => is_function t x) xs).
  { apply Forall_forall. intros x Hx. assert (G : In x (preorder t) /\ t_tag x = TSubprogram).
    { clear -Hf Hx. induction Hf as [|y l l' Hy Hf IH|y l l' Hy Hf IH]; [destruct Hx| |].
      - destruct Hx as [<-|Hx]; [split; [now left|tauto]|]. destruct (IH Hx). split; auto. now right.
      - destruct (IH Hx). split; auto. now right. }
    split; [now apply preorder_in|tauto]. }
  exists os. split; auto. clear Efs Hb Hf Ht. revert os H2 Hxs. induction Hr as [|x f xs fns Hrx Hr IH]; intros os H2 Hxs; inversion H2; subst; constructor.
  - inversion Hxs; subst. eapply info_ok; eauto. now apply Hwf.
  - inversion Hxs; subst. auto.
Qed.

(** ** Iteration *)
Lemma each_fn_visit : forall S r off (f : for_each_fn S) fns l s, reads r off fns l ->
  exists s' stop, each_fn r off f fns s = Ok (s', stop) /\
    forall l2, visit f (l ++ l2) s = if stop : bool then s' else visit f l2 s'.
Proof.
  intros S r off f fns l s (os & H & ->). revert s. induction H as [|fn o fns os [H1 H2] H IH]; intros s; cbn [each_fn somes].
  - exists s, false. auto.
  - rewrite H1. cbn [bind]. destruct o as [i|].
    + cbn [somes app visit]. destruct (f s i) as [s1 stop]. cbn [fst snd]. destruct stop.
      * exists s1, true. auto.
      * destruct (IH s1) as (s' & stop & E & Hv). exists s', stop. auto.
    + destruct (IH s) as (s' & stop & E & Hv). exists s', stop. auto.
Qed.
Definition units_readable (m : mode) (srt : sorter) (pick : N -> N) (us : units) : Prop :=
  forall u, In u (us_units us) -> exists fs, unit_functions m srt pick us u = Ok fs.
(** The callback is called with the functions of all units that have code and a
    name, in order, until it says to stop. *)
Theorem C62_for_each : forall S m srt pick r opts (f : for_each_fn S) s infos, fa_sym_type opts <> TVariable ->
  units_ordered (dr_units r) -> headers_wf (dr_units r) -> units_readable m srt pick (dr_units r) ->
  Forall2 (unit_infos (dr_module r) (offsets r (fa_file_offset opts)) (dr_units r) name_limit) (us_units (dr_units r)) infos ->
  dwarf_for_each m srt pick r opts f s = Ok (visit f (concat infos) s).
Proof.
  intros S m srt pick r opts f s infos Hty Ho Hh Hread H. unfold dwarf_for_each.
  assert (G : each_unit m srt pick r (fa_file_offset opts) f (us_units (dr_units r)) s = Ok (visit f (concat infos) s)).
  { unfold units_readable in Hread. revert s. induction H as [|u l us infos Hu H IH]; intros s; cbn [each_unit concat]; [reflexivity|].
    destruct (unit_reads m srt pick r (fa_file_offset opts) u l Ho Hh Hu (Hread u (or_introl eq_refl))) as (fs & -> & Hr). cbn [bind].
    destruct (each_fn_visit S r (fa_file_offset opts) f (fs_fns fs) l s Hr) as (s' & stop & -> & Hv). cbn [bind]. rewrite Hv.
    destruct stop; auto. apply IH. intros u' Hu'. apply Hread. now right. }
  destruct (fa_sym_type opts); auto. now destruct Hty.
Qed.
Print Assumptions C62_for_each.

(** ** By name *)
Lemma find_reads : forall r off name fns l o, reads r off fns l -> first_named name l o ->
  match find (has_name name) fns with
  | Some f => exists i, o = Some i /\ function_to_sym_info r f off = Ok (Some i)
  | None => o = None
  end.
Proof.
  intros r off name fns l o (os & H & ->). revert o. induction H as [|f oi fns os [H1 H2] H IH]; intros o Ho; cbn [find somes] in *.
  - destruct o as [i|]; auto. destruct Ho as (_ & pre & post & E & _). destruct pre; discriminate.
  - unfold has_name at 1. destruct oi as [i|]; rewrite H2; [|now apply IH].
    destruct (beq (si_name i) name) eqn:Eb; cbn [somes] in Ho.
    + apply beq_eq in Eb. exists i. split; auto. destruct o as [j|]; cbn [first_named] in Ho.
      * destruct Ho as (Ej & pre & post & E & Hpre). destruct pre as [|k pre]; cbn [app] in E; [now injection E as ->|].
        injection E as <- _. inversion Hpre; subst. congruence.
      * inversion Ho; subst. congruence.
    + apply IH. destruct o as [j|]; cbn [first_named] in *.
      * destruct Ho as (Ej & pre & post & E & Hpre). split; auto. destruct pre as [|k pre]; cbn [app] in E; injection E as -> E.
        -- exfalso. rewrite Ej in Eb. assert (beq name name = true) by now apply beq_eq. congruence.
        -- inversion Hpre; subst. eauto.
      * now inversion Ho; subst.
Qed.
(** The first function of that name of each unit is reported, if there is one in
    debug information; or else what the file's own symbols say. *)
Theorem C62_lookup : forall m srt pick r opts name infos os, fa_sym_type opts <> TVariable ->
  units_ordered (dr_units r) -> headers_wf (dr_units r) -> units_readable m srt pick (dr_units r) ->
  Forall2 (unit_infos (dr_module r) (offsets r (fa_file_offset opts)) (dr_units r) name_limit) (us_units (dr_units r)) infos ->
  Forall2 (first_named name) infos os ->
  dwarf_find_addr m srt pick r name opts = match somes os with [] => dr_find_addr r name opts | l => Ok l end.
Proof.
  intros m srt pick r opts name infos os Hty Ho Hh Hread H Hos. unfold dwarf_find_addr.
  assert (G : infos_of r (fa_file_offset opts) (find_name m srt pick (dr_units r) (us_units (dr_units r)) name) = Ok (somes os)).
  { unfold units_readable in Hread. revert os Hos. induction H as [|u l us infos Hu H IH]; intros os Hos; inversion Hos as [|? o ? os' Ho1 Hos']; subst; cbn [find_name somes]; [reflexivity|].
    destruct (unit_reads m srt pick r (fa_file_offset opts) u l Ho Hh Hu (Hread u (or_introl eq_refl))) as (fs & Efs & Hr).
    unfold unit_find_name. rewrite Efs. cbn [bind]. pose proof (find_reads r (fa_file_offset opts) name (fs_fns fs) l o Hr Ho1) as F.
    assert (IH' := IH (fun u' Hu' => Hread u' (or_intror Hu')) os' Hos').
    destruct (find (has_name name) (fs_fns fs)) as [fn|].
    - destruct F as (i & -> & Ei). cbn [infos_of bind]. rewrite Ei. cbn [bind unwrap]. rewrite IH'. reflexivity.
    - subst o. exact IH'. }
  destruct (fa_sym_type opts); try (now destruct Hty); rewrite G; cbn [bind]; destruct (somes os); reflexivity.
Qed.
Print Assumptions C62_lookup.

(** Lookups and iterations of variables are refused. *)
Theorem C62_variables : forall S m srt pick r off name (f : for_each_fn S) s,
  dwarf_find_addr m srt pick r name (FindAddrOpts off TVariable) = Err EUnsupported /\
  dwarf_for_each m srt pick r (FindAddrOpts off TVariable) f s = Err EUnsupported.
Proof. split; reflexivity. Qed.
Print Assumptions C62_variables.

(** ** Example: two units that both have a function [f] *)
From Coq Require Import String.
Local Close Scope string_scope.
Definition sub (off : N) (name : list N) (lo len : N) : tree := Node off TSubprogram (named_as name :: at_range lo len) None.
Definition decl (off : N) (name : list N) : tree := Node off TSubprogram [named_as name] None.
Definition u1_tree : tree := Node 11 TOther [] (Some [sub 20 (bs "f"%string) 4096 16; decl 30 (bs "g"%string);
  Node 40 TOther [] (Some [sub 50 (bs "h"%string) 4112 8])]).
Definition u2_tree : tree := Node 11 TOther [] (Some [sub 20 (bs "f"%string) 8192 32; sub 30 (bs "g"%string) 8224 4]).
Definition u1_body : body := tree_body u1_tree (fun _ => None) None.
Definition u2_body : body := tree_body u2_tree (fun _ => None) None.
Definition two_units : units := Units []
  [DUnit 0 11 100 (Some u1_body) (Some None) (Some None); DUnit 200 11 100 (Some u2_body) (Some None) (Some None)].
Definition two_resolver : dresolver :=
  DResolver two_units (Some (bs "a.out"%string)) (fun a _ => Ok (Some (a - 4096))) (fun _ _ => Ok (inr UnknownAddr))
    (fun _ _ => Ok [SymInfo (bs "elf"%string) 1 (Some 2) TFunction None None]).
Definition inf (name : list N) (lo len : N) : sym_info := SymInfo name lo (Some len) TFunction (Some (lo - 4096)) (Some (bs "a.out"%string)).
Definition two_infos : list (list sym_info) :=
  [[inf (bs "f"%string) 4096 16; inf (bs "h"%string) 4112 8]; [inf (bs "f"%string) 8192 32; inf (bs "g"%string) 8224 4]].

Lemma sub_declares : forall b off name lo len r, declares b (t_attrs (sub off name lo len)) r <-> r = Range lo (lo + len).
Proof.
  intros b off name lo len r. change (t_attrs (sub off name lo len)) with ([named_as name] ++ at_range lo len ++ []).
  apply at_range_declares. intros a [<-|[]] v. repeat split; discriminate.
Qed.
Lemma sub_low : forall b off name lo len, low_of b (t_attrs (sub off name lo len)) lo.
Proof. intros b off name lo len. exists (VAddr lo). split; [right; now left|now left]. Qed.
Lemma sub_high : forall b off name lo len, high_of b (t_attrs (sub off name lo len)) lo (lo + len).
Proof. intros b off name lo len. exists (VUdata len). split; [right; right; now left|right; eauto]. Qed.
Lemma sub_ranges : forall b off name lo len, lo + len < two64 -> ranges_wf b (t_attrs (sub off name lo len)).
Proof.
  intros b off name lo len Hlt. split; [apply unique_short; vm_compute; lia|]. split; [apply unique_short; vm_compute; lia|].
  split; [apply unique_short; vm_compute; lia|]. intros l h Hl Hh.
  assert (Hd : declares b (t_attrs (sub off name lo len)) (Range l h)).
  { right. split; [|exists l, h; auto]. intros o H. cbn in H. repeat destruct H as [H|H]; try discriminate. exact H. }
  apply sub_declares in Hd. injection Hd as -> ->. exact Hlt.
Qed.
Lemma named_wf : forall name rest, readable rest -> (forall n v, In (Some (Attr n v)) rest -> ~ is_linkage n /\ ~ is_ref n /\ n <> AName) ->
  names_wf (named_as name :: rest).
Proof.
  intros name rest Hr Hno. split; [constructor; [discriminate|exact Hr]|].
  assert (K : forall i n v, nth_error (named_as name :: rest) i = Some (Some (Attr n v)) -> (is_linkage n \/ is_ref n \/ n = AName) -> i = 0%nat).
  { intros [|i] n v H Hn; auto. cbn [nth_error] in H. apply nth_error_In in H. destruct (Hno _ _ H) as (K1 & K2 & K3). tauto. }
  intros i j n1 n2 v1 v2 H1 H2 H. rewrite (K i n1 v1 H1), (K j n2 v2 H2); tauto.
Qed.
Lemma sub_names : forall off name lo len, names_wf (t_attrs (sub off name lo len)).
Proof.
  intros off name lo len. apply named_wf; [repeat constructor; discriminate|].
  intros n v [H|[H|[]]]; injection H as <- <-; repeat split; try intros [K|K]; discriminate.
Qed.
Lemma named_called : forall us limit b off tag name rest c, (forall n v, In (Some (Attr n v)) rest -> ~ is_linkage n) ->
  called us limit b (Node off tag (named_as name :: rest) c) (Some name).
Proof.
  intros us limit b off tag name rest c Hno. right. split.
  - intros s' (n & Hn & [H|H]); [injection H as <- _; destruct Hn as [Hn|Hn]; discriminate|]. now apply (Hno _ _ H).
  - exists [], AName, (VStr (Some name)), rest. cbn [t_attrs app]. split; [reflexivity|]. split; [split; [intros s (n & _ & [])|intros s []]|].
    split; [intros v (n & _ & [])|]. left. auto.
Qed.
Lemma sub_info : forall us limit b off name lo len, utf8_valid name = true ->
  info_of (Some (bs "a.out"%string)) (offsets two_resolver true) us limit b (sub off name lo len) (Some (inf name lo len)).
Proof.
  intros us limit b off name lo len Hu. exists (Some name). split.
  - apply named_called. intros n v [H|[H|[]]]; injection H as <- <-; intros [K|K]; discriminate.
  - exists lo, (lo + len), (Some (lo - 4096)). split; auto. split; [apply sub_low|]. split; [apply sub_high|]. split; [lia|].
    unfold inf. replace (lo + len - lo) with len by lia. split; reflexivity.
Qed.
Lemma decl_no_code : forall b off name, ~ has_code b (t_attrs (decl off name)).
Proof.
  intros b off name (r & [(o & rs & H & _)|(_ & lo & hi & (v & H & _) & _)] & _); cbn in H; repeat destruct H as [H|H]; try discriminate; exact H.
Qed.
Lemma decl_wf : forall b off name, ranges_wf b (t_attrs (decl off name)) /\ names_wf (t_attrs (decl off name)).
Proof.
  intros b off name. split.
  - split; [apply unique_short; vm_compute; lia|]. split; [apply unique_short; vm_compute; lia|]. split; [apply unique_short; vm_compute; lia|].
    intros l h (v & H & _). cbn in H. repeat destruct H as [H|H]; try discriminate. destruct H.
  - apply named_wf; [constructor|intros n v []].
Qed.
Ltac no_dup := vm_compute; repeat (constructor; [intros H; cbn in H; repeat destruct H as [H|H]; try discriminate; auto|]); constructor.
Ltac take_sub := apply PickTake; [split; [reflexivity|]; eexists; split; [apply sub_declares; reflexivity|reflexivity]|].
Ltac skip_other := apply PickSkip; [intros [K _]; discriminate|].
Ltac skip_decl := apply PickSkip; [intros [_ K]; now apply decl_no_code in K|].
Lemma two_unit_infos : Forall2 (unit_infos (dr_module two_resolver) (offsets two_resolver true) two_units name_limit) (us_units two_units) two_infos.
Proof.
  constructor; [|constructor; [|constructor]].
  - exists u1_body, u1_tree, [sub 20 (bs "f"%string) 4096 16; sub 50 (bs "h"%string) 4112 8]. eexists.
    split; [split; [eexists; reflexivity|right; split; reflexivity]|]. split; [apply tree_body_ok; no_dup|].
    split; [|split; [|split]].
    + intros x [Hx Ht]. inversion Hx; subst; [discriminate|]. destruct H as [<-|[<-|[<-|[]]]].
      * inversion H0; subst; [|destruct H]. split; [now apply sub_ranges|apply sub_names].
      * inversion H0; subst; [|destruct H]. apply decl_wf.
      * inversion H0; subst; [discriminate|]. destruct H as [<-|[]]. inversion H1; subst; [|destruct H]. split; [now apply sub_ranges|apply sub_names].
    + unfold functions_of. cbn [preorder u1_tree flat_map sub decl app]. skip_other. take_sub. skip_decl. skip_other. take_sub. constructor.
    + constructor; [apply sub_info; reflexivity|]. constructor; [apply sub_info; reflexivity|constructor].
    + reflexivity.
  - exists u2_body, u2_tree, [sub 20 (bs "f"%string) 8192 32; sub 30 (bs "g"%string) 8224 4]. eexists.
    split; [split; [eexists; reflexivity|right; split; reflexivity]|]. split; [apply tree_body_ok; no_dup|].
    split; [|split; [|split]].
    + intros x [Hx Ht]. inversion Hx; subst; [discriminate|]. destruct H as [<-|[<-|[]]];
        (inversion H0; subst; [|destruct H]; split; [now apply sub_ranges|apply sub_names]).
    + unfold functions_of. cbn [preorder u2_tree flat_map sub decl app]. skip_other. take_sub. take_sub. constructor.
    + constructor; [apply sub_info; reflexivity|]. constructor; [apply sub_info; reflexivity|constructor].
    + reflexivity.
Qed.
Lemma two_ordered : units_ordered two_units /\ headers_wf two_units.
Proof.
  split.
  - intros [|[|i]] [|[|j]] a b Hij H1 H2; try lia; try (destruct i; discriminate); try (destruct j; discriminate).
    injection H1 as <-. injection H2 as <-. cbn [u_offset u_header_size u_entries_len]. lia.
  - intros u [<-|[<-|[]]]; reflexivity.
Qed.
Lemma two_readable : forall srt pick, units_readable Checked srt pick two_units.
Proof. intros srt pick u [<-|[<-|[]]]; eexists; reflexivity. Qed.
Example C62_for_each_example : forall srt pick,
  dwarf_for_each Checked srt pick two_resolver (FindAddrOpts true TUndefined) (fun l i => (l ++ [si_addr i], nlen l =? 2)) [] =
  Ok [4096; 4112; 8192].
Proof.
  intros srt pick. destruct two_ordered. rewrite (C62_for_each _ Checked srt pick two_resolver (FindAddrOpts true TUndefined) _ _ two_infos); auto.
  - discriminate.
  - apply two_readable.
  - exact two_unit_infos.
Qed.
Ltac not_named := repeat (constructor; [discriminate|]); constructor.
Example C62_lookup_example : forall srt pick,
  dwarf_find_addr Checked srt pick two_resolver (bs "f"%string) (FindAddrOpts true TFunction) =
    Ok [inf (bs "f"%string) 4096 16; inf (bs "f"%string) 8192 32] /\
  dwarf_find_addr Checked srt pick two_resolver (bs "g"%string) (FindAddrOpts true TUndefined) = Ok [inf (bs "g"%string) 8224 4] /\
  dwarf_find_addr Checked srt pick two_resolver (bs "x"%string) (FindAddrOpts true TUndefined) =
    Ok [SymInfo (bs "elf"%string) 1 (Some 2) TFunction None None].
Proof.
  intros srt pick. destruct two_ordered as [O1 O2]. pose proof (two_readable srt pick) as Hr.
  assert (L : forall ty name os, ty <> TVariable -> Forall2 (first_named name) two_infos os ->
    dwarf_find_addr Checked srt pick two_resolver name (FindAddrOpts true ty) =
    match somes os with [] => dr_find_addr two_resolver name (FindAddrOpts true ty) | l => Ok l end).
  { intros ty name os Hty Hos. eapply C62_lookup; eauto. exact two_unit_infos. }
  split; [|split].
  - rewrite (L TFunction _ [Some (inf (bs "f"%string) 4096 16); Some (inf (bs "f"%string) 8192 32)]); [reflexivity|discriminate|].
    constructor; [|constructor; [|constructor]].
    + split; [reflexivity|]. exists []. eexists. split; [reflexivity|not_named].
    + split; [reflexivity|]. exists []. eexists. split; [reflexivity|not_named].
  - rewrite (L TUndefined _ [None; Some (inf (bs "g"%string) 8224 4)]); [reflexivity|discriminate|].
    constructor; [|constructor; [|constructor]].
    + not_named.
    + split; [reflexivity|]. exists [inf (bs "f"%string) 8192 32]. eexists. split; [reflexivity|not_named].
  - rewrite (L TUndefined _ [None; None]); [reflexivity|discriminate|]. constructor; [not_named|]. constructor; [not_named|constructor].
Qed.

(** ** What does not hold *)
Definition one_resolver (l : list tree) (ranges : N -> option (list range)) (more : list dunit) : dresolver :=
  DResolver (Units [] (DUnit 0 11 100 (Some (tree_body (Node 11 TOther [] (Some l)) ranges None)) (Some None) (Some None) :: more))
    (Some (bs "a.out"%string)) (fun a _ => Ok (Some (a - 4096))) (fun _ _ => Ok (inr UnknownAddr)) (fun _ _ => Ok []).
Definition all (r : dresolver) : res (list sym_info) := dwarf_for_each Checked stable first r (FindAddrOpts true TUndefined) (fun l i => (l ++ [i], false)) [].
(** "a given symbol name can correspond to more than one address": of two
    functions of the same name in one unit only the first one is found. *)
Theorem C62_second_refuted : exists r name i1 i2, all r = Ok [i1; i2] /\ si_name i1 = name /\ si_name i2 = name /\ si_addr i1 <> si_addr i2 /\
  dwarf_find_addr Checked stable first r name (FindAddrOpts true TUndefined) = Ok [i1].
Proof.
  exists (one_resolver [sub 20 (bs "f"%string) 4096 16; sub 30 (bs "f"%string) 4112 8] (fun _ => None) []), (bs "f"%string). eexists. eexists.
  split; [vm_compute; reflexivity|]. split; [reflexivity|]. split; [reflexivity|]. split; [discriminate|vm_compute; reflexivity].
Qed.
(** A function in several pieces is reported at address 0, with size 0. *)
Definition pc_f : tree := Node 20 TSubprogram [named_as (bs "f"%string); Some (Attr ARanges (VRanges (Some (Some 8))))] None.
Definition pc_ranges (o : N) : option (list range) := if o =? 8 then Some [Range 4128 4144; Range 4096 4104] else None.
Theorem C62_pieces_refuted : exists r u b t x i, us_units (dr_units r) = [u] /\ unit_body u b /\ unit_tree b t /\ functions_of b t [x] /\
  (forall a, entry_covers b x a <-> 4096 <= a < 4104 \/ 4128 <= a < 4144) /\
  all r = Ok [i] /\ si_addr i = 0 /\ si_size i = Some 0.
Proof.
  assert (Hc : forall l, entry_covers (tree_body l pc_ranges None) pc_f 4096 /\ forall a, entry_covers (tree_body l pc_ranges None) pc_f a <-> 4096 <= a < 4104 \/ 4128 <= a < 4144).
  { intros l. assert (G : forall a, entry_covers (tree_body l pc_ranges None) pc_f a <-> 4096 <= a < 4104 \/ 4128 <= a < 4144).
    { intros a. unfold entry_covers, covers. split.
      + intros (r & [(o & rs & H & Hrs & Hin)|(_ & lo & hi & (v & H & _) & _)] & Hc).
        * cbn in H. destruct H as [H|[H|[]]]; [discriminate|]. injection H as <-. cbn [tree_body b_ranges pc_ranges N.eqb Pos.eqb] in Hrs. injection Hrs as <-.
          destruct Hin as [<-|[<-|[]]]; cbn [r_begin r_end] in Hc; lia.
        * cbn in H. destruct H as [H|[H|[]]]; discriminate.
      + intros H. destruct H as [H|H]; [exists (Range 4096 4104)|exists (Range 4128 4144)]; (split; [|cbn [r_begin r_end]; lia]); left; exists 8; eexists;
          (split; [right; now left|]); (split; [reflexivity|]); [right; now left|now left]. }
    split; auto. apply G. lia. }
  exists (one_resolver [pc_f] pc_ranges []). eexists. exists (tree_body (Node 11 TOther [] (Some [pc_f])) pc_ranges None), (Node 11 TOther [] (Some [pc_f])), pc_f. eexists.
  split; [reflexivity|]. split; [split; [eexists; reflexivity|right; split; reflexivity]|]. split; [apply tree_body_ok; no_dup|].
  split; [|split; [apply Hc|split; [vm_compute; reflexivity|split; reflexivity]]].
  unfold functions_of. cbn [preorder pc_f flat_map app]. skip_other. apply PickTake; [|constructor]. split; [reflexivity|].
  destruct (Hc (Node 11 TOther [] (Some [pc_f]))) as [(r & Hd & Hr) _]. exists r. split; [exact Hd|]. unfold covers in Hr. lia.
Qed.
(** One name that is no UTF-8 text makes iterating over symbols panic. *)
Theorem C62_text_refuted : exists r, (exists i, dwarf_find_addr Checked stable first r (bs "f"%string) (FindAddrOpts true TUndefined) = Ok [i]) /\
  all r = Panic.
Proof.
  exists (one_resolver [sub 20 (bs "f"%string) 4096 16; sub 30 [255] 4112 8] (fun _ => None) []).
  split; [eexists; vm_compute; reflexivity|vm_compute; reflexivity].
Qed.
(** A unit whose split part cannot be read hides the symbols of all others from
    lookups by name, the ones of those before it included; those are found
    without the unit. *)
Theorem C62_broken_refuted : exists l bad i,
  dwarf_find_addr Checked stable first (one_resolver l (fun _ => None) []) (bs "f"%string) (FindAddrOpts true TUndefined) = Ok [i] /\
  dwarf_find_addr Checked stable first (one_resolver l (fun _ => None) [bad]) (bs "f"%string) (FindAddrOpts true TUndefined) = Err EInvalidDwarf.
Proof.
  exists [sub 20 (bs "f"%string) 4096 16], (DUnit 200 11 100 (Some u2_body) None (Some None)). eexists.
  split; vm_compute; reflexivity.
Qed.
Print Assumptions C62_second_refuted.
Print Assumptions C62_pieces_refuted.
Print Assumptions C62_text_refuted.
Print Assumptions C62_broken_refuted.
