(** * C39, C20: symbols from DWARF *)

From Verif Require Import Base Util UtilProofs Search Depmod Dwarf DwarfSpec Lists Sym Inspect Text Frames Nom PropDwLines PropDwUnits PropDwNames PropDwFns PropDwInl.
From Coq Require Import Permutation Sorted.
Local Open Scope N_scope.

(** ** Functions in all units *)
Lemma first_in_some : forall A (f : dunit -> res (option A)) us l x i, first_in f us l = Ok (Some (x, i)) ->
  exists u, In i l /\ nnth i (us_units us) = Some u /\ f u = Ok (Some x).
Proof.
  intros A f us l x i. induction l as [|j l IH]; intros H; cbn [first_in] in H; [discriminate|].
  ib H u Eu. ib H r Er. unfold unit_at in Eu. destruct (nnth j (us_units us)) as [u'|] eqn:En; [|discriminate]. injection Eu as ->.
  destruct r as [y|].
  - injection H as -> ->. exists u. split; [now left|auto].
  - destruct (IH H) as (u' & H1 & H2). exists u'. split; [now right|auto].
Qed.
Lemma first_in_found : forall A (f : dunit -> res (option A)) us l,
  (forall i, In i l -> exists u r, nnth i (us_units us) = Some u /\ f u = Ok r) ->
  (exists i u x, In i l /\ nnth i (us_units us) = Some u /\ f u = Ok (Some x)) ->
  exists x i, first_in f us l = Ok (Some (x, i)).
Proof.
  intros A f us l. induction l as [|j l IH]; intros Hall (i & u & x & Hi & Hu & Hf); [destruct Hi|].
  cbn [first_in]. destruct (Hall j) as (u' & r & Hu' & Hr); [now left|]. unfold unit_at. rewrite Hu'. cbn [unwrap bind]. rewrite Hr. cbn [bind].
  destruct r as [y|]; [eauto|]. apply IH.
  - intros k Hk. apply Hall. now right.
  - exists i, u, x. split; auto. destruct Hi as [->|Hi]; auto. exfalso. congruence.
Qed.
Lemma first_in_none : forall A (f : dunit -> res (option A)) us l,
  (forall i, In i l -> exists u, nnth i (us_units us) = Some u /\ f u = Ok None) -> first_in f us l = Ok None.
Proof.
  intros A f us l. induction l as [|j l IH]; intros Hall; [reflexivity|]. cbn [first_in]. destruct (Hall j) as (u & Hu & Hr); [now left|].
  unfold unit_at. rewrite Hu. cbn [unwrap bind]. rewrite Hr. cbn [bind]. apply IH. intros k Hk. apply Hall. now right.
Qed.

(** A function that is found contains the address, and so does its unit. *)
Theorem C39_lookup : forall m srt pick sc us sets hs probe f i,
  sorter_ok srt -> units_parse m srt pick sc = Ok us -> sc_aranges sc = Some sets -> sc_units sc = Some hs ->
  (forall h, In h hs -> unit_wf h) -> headers_follow hs -> probe + 1 < two64 ->
  find_function m srt pick us probe = Ok (Some (f, i)) ->
  exists h off u, In h hs /\ h_offset h = Some off /\ nnth i (us_units us) = Some u /\ unit_of h off u /\
    (exists r, unit_range sets h r /\ covers r probe) /\
    forall b t, unit_body u b -> unit_tree b t -> (forall x, is_function t x -> ranges_wf b (t_attrs x)) ->
      exists x, is_function t x /\ fn_of us name_limit b x f /\ entry_covers b x probe.
Proof.
  intros m srt pick sc us sets hs probe f i Hsrt Hp Hs Hhs Hwf Hfol Hpr H.
  destruct (C42_units _ _ _ _ _ _ Hp Hhs Hfol) as [Ho Hh].
  destruct (C38_consulted m srt pick sc us sets hs probe Hsrt Hp Hs Hhs Hwf Hpr) as (l & El & L1 & L2).
  unfold find_function in H. rewrite El in H. cbn [bind] in H. apply first_in_some in H. destruct H as (u & Hi & Hu & Hf).
  destruct (L1 i Hi) as (h & off & u' & K1 & K2 & K3 & K4 & K5 & K6). rewrite Hu in K4. injection K4 as <-.
  exists h, off, u. repeat (split; auto). intros b t Hb Ht Hrw. eapply C39_sound; eauto.
Qed.
(** If a function of a unit contains the address, and nothing is wrong with the
    units to look at, one is found. *)
Theorem C39_lookup_found : forall m srt pick sc us sets hs probe h off b t x,
  sorter_ok srt -> units_parse m srt pick sc = Ok us -> sc_aranges sc = Some sets -> sc_units sc = Some hs ->
  (forall h, In h hs -> unit_wf h) -> headers_follow hs -> probe + 1 < two64 ->
  (forall i u r h', nnth i (us_units us) = Some u -> In h' hs -> unit_of h' (u_offset u) u -> unit_range sets h' r -> covers r probe ->
     exists b t fs, unit_good u b t /\ functions_parse m srt pick us b = Ok fs) ->
  In h hs -> h_offset h = Some off -> h_kind h = KOther -> (exists r, unit_range sets h r /\ covers r probe) ->
  (forall u, unit_of h off u -> unit_good u b t) -> is_function t x -> entry_covers b x probe ->
  exists f i, find_function m srt pick us probe = Ok (Some (f, i)).
Proof.
  intros m srt pick sc us sets hs probe h off b t x Hsrt Hp Hs Hhs Hwf Hfol Hpr Hall Hh Hoff Hk (rg & R1 & R2) Hg Hx Hc.
  destruct (C42_units _ _ _ _ _ _ Hp Hhs Hfol) as [Ho Hw].
  destruct (C38_consulted m srt pick sc us sets hs probe Hsrt Hp Hs Hhs Hwf Hpr) as (l & El & L1 & L2).
  unfold find_function. rewrite El. cbn [bind]. apply first_in_found.
  - intros i Hi. destruct (L1 i Hi) as (h' & off' & u & K1 & K2 & K3 & K4 & K5 & r & K6 & K7).
    assert (Ku : unit_of h' (u_offset u) u) by (destruct K5 as (_ & ? & ?); repeat split; auto).
    destruct (Hall i u r h' K4 K1 Ku K6 K7) as (b' & t' & fs & (G1 & G2 & G3 & G4) & Efs). exists u.
    unfold unit_find_function, unit_functions. apply unit_ref_body in G1. rewrite G1. cbn [bind]. rewrite Efs. cbn [bind].
    destruct (functions_ok m srt pick us b' t' fs Hsrt Ho Hw G2 G3 Efs) as (_ & H1 & _).
    unfold find_address. destruct (binary_search_by pick (fs_addrs fs) (fn_cmp probe)) as [j|n] eqn:Eb; [|exists None; auto].
    apply bsearch_found in Eb. destruct Eb as (a & Ha & Ea). rewrite Ha. cbn [unwrap bind].
    destruct (H1 a (nth_error_In _ _ Ha)) as (f' & _ & E1 & _). rewrite E1. cbn [unwrap bind]. exists (Some f'). auto.
  - destruct (L2 h off rg Hh Hoff Hk R1 R2) as (i & u & Hi & Hu & Hun).
    destruct (Hg u Hun) as (G1 & G2 & G3 & G4).
    assert (Ku : unit_of h (u_offset u) u) by (destruct Hun as (_ & ? & ?); repeat split; auto).
    destruct (Hall i u rg h Hu Hh Ku R1 R2) as (b' & t' & fs & (G1' & _) & Efs).
    assert (b' = b). { apply unit_ref_body in G1, G1'. congruence. } subst b'.
    destruct (C39_found m srt pick us u b t probe x fs Hsrt Ho Hw G1 G2 G3 G4 Efs Hx Hc) as (f & y & Hf & _).
    exists i, u, f. auto.
Qed.
Print Assumptions C39_lookup.
Print Assumptions C39_lookup_found.

(** ** Locations of frames *)

Fixpoint oshift (n : list N) (l : list (list N * option code_info)) (last : option code_info) : list inlined_fn :=
  match l with
  | [] => [InlinedFn n last]
  | (n', ci) :: l => InlinedFn n ci :: oshift n' l last
  end.
Lemma oshift_names : forall l n last, map if_name (oshift n l last) = n :: map fst l.
Proof. induction l as [|[n' ci] l IH]; intros n last; cbn [oshift map if_name fst]; [reflexivity|]. now rewrite IH. Qed.
Lemma oshift_locs : forall l n last, map if_code_info (oshift n l last) = map snd l ++ [last].
Proof. induction l as [|[n' ci] l IH]; intros n last; cbn [oshift map if_code_info snd app]; [reflexivity|]. now rewrite IH. Qed.
Definition info_code (srt : sorter) (u : dunit) (f : inl_fn) (x : list N * option code_info) : Prop :=
  exists loc, inlined_info srt u f = Ok (fst x, loc) /\ snd x = option_map to_code_info loc.
Lemma inline_loop_more : forall srt u fns infos, Forall2 (info_code srt u) fns infos ->
  forall code acc n last, inline_loop srt u fns code (acc ++ [InlinedFn n last]) = Ok (code, acc ++ oshift n infos last).
Proof.
  intros srt u fns infos H. induction H as [|f [n' ci] fns infos (loc & Hf & Hc) H IH]; intros code acc n last; [reflexivity|].
  cbn [inline_loop oshift fst snd] in *. rewrite Hf. cbn [bind]. rewrite last_code_app. cbn [if_code_info].
  rewrite set_last_app. cbn [if_name]. rewrite IH. rewrite <- app_assoc. subst ci. destruct loc; reflexivity.
Qed.
Lemma inline_loop_infos : forall srt u fns code acc r, inline_loop srt u fns code acc = Ok r -> exists infos, Forall2 (info_code srt u) fns infos.
Proof.
  intros srt u. induction fns as [|f fns IH]; intros code acc r H; [exists []; constructor|]. cbn [inline_loop] in H.
  ib H x Ex. destruct x as [name loc].
  assert (exists infos, Forall2 (info_code srt u) fns infos) as [infos Hi].
  { destruct (last_code acc); [eauto|]. destruct loc; eauto. }
  exists ((name, option_map to_code_info loc) :: infos). constructor; auto. exists loc. auto.
Qed.
Lemma frame_locs_snoc : forall A (loc : A) calls, frame_locs loc calls (calls ++ [loc]).
Proof.
  intros A loc calls. split; [rewrite app_length; cbn [length]; lia|]. split.
  - intros i c Hc. rewrite nth_error_app1; auto. eapply nth_error_lt; eauto.
  - rewrite nth_error_app2 by lia. now rewrite Nat.sub_diag.
Qed.
(** All frames show the right location if it is known where the outermost call
    was made. *)
Lemma inline_frames : forall srt u fns infos code, Forall2 (info_code srt u) fns infos ->
  (forall x, hd_error infos = Some x -> snd x <> None) ->
  exists direct frames, inline_loop srt u fns code [] = Ok (direct, frames) /\ map if_name frames = map fst infos /\
    frame_locs (Some code) (map snd infos) (Some direct :: map if_code_info frames).
Proof.
  intros srt u fns infos code H Hh. destruct H as [|f [n ci] fns infos (loc & Hf & Hc) H].
  - exists code, []. split; [reflexivity|]. split; [reflexivity|]. apply (frame_locs_snoc _ (Some code) []).
  - cbn [fst snd] in *. destruct loc as [loc|]; [|exfalso; apply (Hh (n, ci)); auto]. cbn [option_map] in Hc. subst ci.
    cbn [inline_loop]. rewrite Hf. cbn [bind last_code].
    exists (to_code_info loc), (oshift n infos (Some code)). split; [apply (inline_loop_more srt u fns infos H _ [])|].
    split; [apply oshift_names|]. rewrite oshift_locs. cbn [map snd].
    apply (frame_locs_snoc _ (Some code) (Some (to_code_info loc) :: map snd infos)).
Qed.
(** Otherwise the function that is not inlined shows the location of the
    address, and the innermost frame none. *)
Lemma inline_frames_unknown : forall srt u fns infos code n, Forall2 (info_code srt u) fns infos ->
  hd_error infos = Some (n, None) ->
  exists frames, inline_loop srt u fns code [] = Ok (code, frames) /\ map if_name frames = map fst infos /\
    map if_code_info frames = tl (map snd infos) ++ [None].
Proof.
  intros srt u fns infos code n H Hh. destruct H as [|f [n' ci] fns infos (loc & Hf & Hc) H]; [discriminate|].
  cbn [hd_error] in Hh. injection Hh as -> ->. cbn [fst snd] in *. destruct loc as [loc|]; [discriminate|].
  cbn [inline_loop]. rewrite Hf. cbn [bind last_code].
  exists (oshift n infos None). split; [apply (inline_loop_more srt u fns infos H _ [])|].
  split; [apply oshift_names|]. apply oshift_locs.
Qed.

Lemma to_code_info_ok : forall l, code_of l (to_code_info l).
Proof.
  intros l. unfold code_of, to_code_info. cbn [ci_dir ci_file ci_line ci_column]. repeat split; auto.
  destruct (lo_column l) as [c|]; auto. exists (N.min c 65535). repeat split; auto; intros; lia.
Qed.
Lemma inlined_info_ok : forall srt us u b main p x f name loc, u_main u = Some main -> b_lines main = Some p ->
  call_of us name_limit b x f -> inlined_info srt u f = Ok (name, loc) ->
  call_loc b main p x loc /\
  (forall s, names_wf (t_attrs x) -> names_function us name_limit b (t_attrs x) s -> name = s).
Proof.
  intros srt us u b main p x f name loc Hm Hp (Cn & Cf & Cnf & Cl & Cc & Cnl & Cnc) H. unfold inlined_info in H. ib H nm En.
  assert (Hn : forall r, (Ok (nm, r) : res (list N * option location)) = Ok (name, loc) -> nm = name /\ r = loc) by (intros r E; now injection E as -> ->).
  split.
  - split.
    + intros Hno. rewrite (Cnf Hno) in H. apply Hn in H. now destruct H.
    + intros Hu i fe Hi Hfe. specialize (Cf Hu i Hi). split.
      * intros [-> Hv]. apply N.ltb_lt in Hv. rewrite Hv in Cf. cbn [N.eqb andb] in Cf. rewrite Cf in H. apply Hn in H. now destruct H.
      * intros Hne. assert (Ef : in_file f = Some i).
        { rewrite Cf. destruct (N.eqb_spec i 0), (N.ltb_spec (b_version b) 5); cbn [andb]; auto. exfalso. apply Hne. auto. }
        rewrite Ef in H. ib H ls Els. unfold unit_lines in Els. rewrite Hm in Els. cbn [g of_option bind] in Els. rewrite Hp in Els.
        ib Els ls' El'. injection Els as <-. destruct (lines_parse_inv _ _ _ _ El') as (rows & _ & _ & Hfiles).
        destruct (Hfiles _ _ Hfe) as (dir & nme & E1 & E2). rewrite E1 in H. apply Hn in H. destruct H as [_ <-].
        eexists. exists dir, nme. split; [reflexivity|]. split; auto. cbn [lo_dir lo_file lo_line lo_column]. split; auto. split; auto.
        split; [|split].
        -- intros Hul n Hln Hlt. f_equal. now apply Cl.
        -- intros Hul n Hln Hlt. f_equal. now apply Cc.
        -- intros Hnc. f_equal. now apply Cnc.
  - intros s Hw Hs. specialize (Cn s Hw Hs). rewrite Cn in En. destruct (utf8_valid s); [|discriminate]. injection En as <-.
    destruct (in_file f) as [i|]; [|apply Hn in H; now destruct H]. ib H ls Els. destruct ls as [ls|]; [|apply Hn in H; now destruct H].
    destruct (nnth i (ls_files ls)) as [[dir fl]|]; apply Hn in H; now destruct H.
Qed.

Lemma infos_ok : forall srt us u b main p, u_main u = Some main -> b_lines main = Some p ->
  forall chain fns, Forall2 (call_of us name_limit b) chain fns -> forall infos, Forall2 (info_code srt u) fns infos ->
  exists locs, Forall2 (call_loc b main p) chain locs /\ Forall2 code_opt locs (map snd infos) /\
    Forall2 (fun c n => forall s, names_wf (t_attrs c) -> names_function us name_limit b (t_attrs c) s -> n = s) chain (map fst infos).
Proof.
  intros srt us u b main p Hm Hp chain fns H. induction H as [|c f chain fns Hc H IH]; intros infos Hi; inversion Hi; subst.
  - exists []. repeat split; constructor.
  - destruct (IH _ H4) as (locs & L1 & L2 & L3). destruct H2 as (loc & E1 & E2).
    destruct (inlined_info_ok srt us u b main p c f (fst y) loc Hm Hp Hc E1) as [K1 K2].
    exists (loc :: locs). cbn [map]. repeat split; constructor; auto. rewrite E2. destruct loc as [loc|]; cbn [option_map code_opt]; auto.
    apply to_code_info_ok.
Qed.
(** ** C20 for DWARF *)
Lemma dwarf_frames : forall m srt pick r us u b t x f i main p addr loc sym chain,
  sorter_ok srt -> units_ordered us -> headers_wf us -> dr_units r = us ->
  find_function m srt pick us addr = Ok (Some (f, i)) -> nnth i (us_units us) = Some u ->
  unit_body u b -> unit_tree b t -> in_tree x t -> f_off f = t_off x -> inl_wf b (t_children x) -> calls_wf b x ->
  u_main u = Some main -> b_lines main = Some p ->
  find_location m srt pick us addr = Ok (Some loc) ->
  dwarf_find_sym m srt pick r addr WithInlined = Ok (inl sym) ->
  active b addr x chain ->
  exists fns infos locs, Forall2 (info_code srt u) fns infos /\ Forall2 (call_loc b main p) chain locs /\ Forall2 code_opt locs (map snd infos) /\
    Forall2 (fun c n => forall s, names_wf (t_attrs c) -> names_function us name_limit b (t_attrs c) s -> n = s) chain (map fst infos) /\
    exists code, inline_loop srt u fns (to_code_info loc) [] = Ok (code, rs_inlined sym) /\ rs_code_info sym = Some code.
Proof.
  intros m srt pick r us u b t x f i main p addr loc sym chain Hsrt Ho Hh Hr Hf Hu Hb Ht Hx Eo Hiw Hcw Hm Hp Hl H Hch.
  unfold dwarf_find_sym in H. rewrite Hr, Hf in H. cbn [bind] in H. ib H sm Es. destruct sm as [sm|]; [|discriminate]. ib H sm' Ef. injection H as ->.
  unfold fill_code_info in Ef. cbn [code_info_opt negb inlined_fns_opt] in Ef. rewrite Hl in Ef. cbn [bind] in Ef.
  ib Ef y Ey. destruct y as [code ifs]. injection Ef as <-. cbn [rs_code_info rs_inlined].
  unfold unit_at in Ey. rewrite Hu in Ey. cbn [unwrap bind] in Ey. ib Ey fns Efn.
  assert (Hpar : exists ip, inlined_parse m srt pick us b (t_off x) = Ok ip).
  { unfold find_inlined_functions in Efn. apply unit_ref_body in Hb. rewrite Hb in Efn. cbn [bind] in Efn. rewrite Eo in Efn. ib Efn ip Eip. eauto. }
  destruct Hpar as [ip Hip].
  destruct (C39_inlined m srt pick us u b t x f ip addr Hsrt Ho Hh Hb Ht Hx Hiw Hcw Eo Hip) as (chain' & l & E1 & E2 & E3).
  rewrite Efn in E1. injection E1 as <-. assert (chain' = chain). { destruct Hcw as (W1 & _). eapply active_unique; eauto. } subst chain'.
  destruct (inline_loop_infos _ _ _ _ _ _ Ey) as [infos Hi].
  destruct (infos_ok srt us u b main p Hm Hp chain fns E3 infos Hi) as (locs & L1 & L2 & L3).
  exists fns, infos, locs. split; auto. split; auto. split; auto. split; auto. exists code. auto.
Qed.
(** Frames show where they were executing, if it is known where the outermost
    call was made. *)
Theorem C20_dwarf : forall m srt pick r us u b t x f i main p addr loc sym chain,
  sorter_ok srt -> units_ordered us -> headers_wf us -> dr_units r = us ->
  find_function m srt pick us addr = Ok (Some (f, i)) -> nnth i (us_units us) = Some u ->
  unit_body u b -> unit_tree b t -> in_tree x t -> f_off f = t_off x -> inl_wf b (t_children x) -> calls_wf b x ->
  u_main u = Some main -> b_lines main = Some p ->
  find_location m srt pick us addr = Ok (Some loc) ->
  dwarf_find_sym m srt pick r addr WithInlined = Ok (inl sym) ->
  active b addr x chain ->
  (forall c, hd_error chain = Some c -> ~ call_loc b main p c None) ->
  exists locs code cis, Forall2 (call_loc b main p) chain locs /\ Forall2 code_opt locs cis /\ code_of loc code /\
    frame_locs (Some code) cis (rs_code_info sym :: map if_code_info (rs_inlined sym)) /\
    Forall2 (fun c n => forall s, names_wf (t_attrs c) -> names_function us name_limit b (t_attrs c) s -> n = s)
      chain (map if_name (rs_inlined sym)).
Proof.
  intros m srt pick r us u b t x f i main p addr loc sym chain Hsrt Ho Hh Hr Hf Hu Hb Ht Hx Eo Hiw Hcw Hm Hp Hl H Hch Hhd.
  destruct (dwarf_frames m srt pick r us u b t x f i main p addr loc sym chain) as (fns & infos & locs & I1 & I2 & I3 & I4 & code & I5 & I6); auto.
  exists locs, (to_code_info loc), (map snd infos). split; auto. split; auto. split; [apply to_code_info_ok|].
  destruct (inline_frames srt u fns infos (to_code_info loc) I1) as (direct & frames & F1 & F2 & F3).
  - intros y Hy Hn. destruct I2 as [|c l chain locs Hc I2]; [inversion I3; destruct infos; discriminate|].
    destruct infos as [|y' infos]; [discriminate|]. injection Hy as ->. inversion I3; subst. rewrite Hn in H3.
    destruct l as [l|]; [destruct H3|]. now apply (Hhd c).
  - rewrite I5 in F1. injection F1 as <- <-. rewrite I6. split; auto. now rewrite F2.
Qed.
Print Assumptions C20_dwarf.

(** ** Symbols *)
Theorem C39_symbol : forall m srt pick r us u b x f i addr opts sym,
  dr_units r = us -> find_function m srt pick us addr = Ok (Some (f, i)) -> nnth i (us_units us) = Some u ->
  fn_of us name_limit b x f -> dwarf_find_sym m srt pick r addr opts = Ok (inl sym) ->
  (forall s, names_wf (t_attrs x) -> names_function us name_limit b (t_attrs x) s -> rs_name sym = s) /\
  (forall lo hi, low_of b (t_attrs x) lo -> high_of b (t_attrs x) lo hi -> lo <= hi -> hi < two64 -> rs_addr sym = lo /\ rs_size sym = Some (hi - lo)) /\
  rs_module sym = dr_module r /\ (opts = Basic -> rs_code_info sym = None) /\ (opts <> WithInlined -> rs_inlined sym = []).
Proof.
  intros m srt pick r us u b x f i addr opts sym Hr Hf Hu (Fo & Fn & Fr & _) H.
  unfold dwarf_find_sym in H. rewrite Hr, Hf in H. cbn [bind] in H. ib H sm Es. destruct sm as [sm|]; [|discriminate]. ib H sm' Ef. injection H as ->.
  unfold unit_at in Es. rewrite Hu in Es. cbn [unwrap bind] in Es. ib Es nm En. ib Es sz Esz. ib Es lang Elang. injection Es as <-.
  assert (Hs : rs_name sym = nm /\ rs_module sym = dr_module r /\ rs_addr sym = match f_range f with Some rg => r_begin rg | None => 0 end /\
               rs_size sym = sz /\ (opts = Basic -> rs_code_info sym = None) /\ (opts <> WithInlined -> rs_inlined sym = [])).
  { unfold fill_code_info in Ef. destruct opts; cbn [code_info_opt negb inlined_fns_opt] in Ef.
    - injection Ef as <-. cbn. auto 10.
    - ib Ef l El. destruct l as [l|]; [cbn [bind] in Ef|]; injection Ef as <-; cbn; repeat split; auto; discriminate.
    - ib Ef l El. destruct l as [l|]; [ib Ef y Ey; destruct y as [code ifs]|]; injection Ef as <-; cbn; repeat split; auto; congruence. }
  destruct Hs as (-> & -> & -> & -> & H1 & H2). split; [|split; [|auto]].
  - intros s Hw Hs. rewrite (Fn s Hw Hs) in En. destruct (utf8_valid s); [now injection En as <-|discriminate].
  - intros lo hi Hlo Hhi Hle Hlt. rewrite (Fr lo hi Hlo Hhi) in *. cbn [r_begin r_end] in *. split; auto.
    ib Esz n Enn. injection Esz as <-. unfold sub64 in Enn. rewrite usub_small in Enn by (unfold two64 in *; lia). now injection Enn as <-.
Qed.
(** What is not in DWARF is looked for in the symbol table; locations come from
    DWARF. *)
Theorem C39_fallback : forall m srt pick r us addr opts,
  dr_units r = us -> find_function m srt pick us addr = Ok None ->
  match dr_find_sym r addr opts with
  | Ok (inl s) => forall sym, dwarf_find_sym m srt pick r addr opts = Ok (inl sym) ->
      rs_name sym = rs_name s /\ rs_addr sym = rs_addr s /\ rs_size sym = rs_size s /\ rs_module sym = rs_module s /\
      (opts = Basic -> sym = s) /\
      (opts <> Basic -> forall loc, find_location m srt pick us addr = Ok (Some loc) ->
         rs_inlined sym = [] /\ exists code, rs_code_info sym = Some code /\ code_of loc code)
  | Ok (inr reason) => dwarf_find_sym m srt pick r addr opts = Ok (inr reason)
  | Err e => dwarf_find_sym m srt pick r addr opts = Err e
  | _ => True
  end.
Proof.
  intros m srt pick r us addr opts Hr Hf. unfold dwarf_find_sym. rewrite Hr, Hf. cbn [bind].
  destruct (dr_find_sym r addr opts) as [[s|rs]| | |] eqn:E; cbn [bind]; auto. intros sym H. ib H sm Ef. injection H as ->.
  unfold fill_code_info in Ef. destruct opts; cbn [code_info_opt negb inlined_fns_opt] in Ef.
  - injection Ef as ->. repeat split; auto; congruence.
  - ib Ef l El. destruct l as [l|]; [cbn [bind] in Ef|]; injection Ef as <-; cbn [rs_name rs_addr rs_size rs_module rs_inlined rs_code_info]; do 4 (split; auto); (split; [discriminate|]);
      intros _ loc Hl; rewrite El in Hl; [injection Hl as <-|discriminate]. split; auto. eexists. split; [reflexivity|apply to_code_info_ok].
  - ib Ef l El. destruct l as [l|]; [cbn [bind] in Ef|]; injection Ef as <-; cbn [rs_name rs_addr rs_size rs_module rs_inlined rs_code_info]; do 4 (split; auto); (split; [discriminate|]);
      intros _ loc Hl; rewrite El in Hl; [injection Hl as <-|discriminate]. split; auto. eexists. split; [reflexivity|apply to_code_info_ok].
Qed.
Print Assumptions C39_symbol.
Print Assumptions C39_fallback.

(** ** Example: a function with a call inlined into another one *)
From Coq Require Import String.
Local Close Scope string_scope.
Fixpoint store (t : tree) : stream :=
  match t with
  | Node off tag attrs None => [(off, IDie (Die tag false attrs))]
  | Node off tag attrs (Some l) =>
      (off, IDie (Die tag true attrs)) ::
      (fix all l := match l with [] => [] | t :: l => store t ++ all l end) l ++ [(off + 5, INull)]
  end.
Fixpoint store_ok (t : tree) : stored t (store t).
Proof.
  destruct t as [off tag attrs [l|]]; cbn [store]; [|constructor]. apply StoredNode.
  induction l as [|t l IH]; [constructor|]. apply StoredCons; [apply store_ok|exact IH].
Qed.
Fixpoint at_of (s : stream) (o : N) : option stream :=
  match s with
  | [] => None
  | (o', i) :: r => if o' =? o then Some s else at_of r o
  end.
Lemma at_of_ok : forall s, NoDup (map fst s) -> forall pre o i post, s = pre ++ (o, i) :: post -> at_of s o = Some ((o, i) :: post).
Proof.
  induction s as [|[o' i'] s IH]; intros Hn pre o i post E; [destruct pre; discriminate|]. cbn [map fst] in Hn. inversion Hn; subst.
  destruct pre as [|x pre]; cbn [app] in E.
  - injection E as -> -> ->. cbn [at_of]. now rewrite N.eqb_refl.
  - injection E as <- ->. cbn [at_of]. destruct (N.eqb_spec o' o) as [->|Hne].
    + exfalso. apply H1. rewrite map_app. apply in_app_iff. right. now left.
    + eapply IH; eauto.
Qed.
Definition tree_body (t : tree) (ranges : N -> option (list range)) (lines : option lprog) : body :=
  Body (Some (store t)) (at_of (store t)) 4 (fun _ => None) ranges (Some (bs "/src"%string)) lines.
Lemma tree_body_ok : forall t r l, NoDup (map fst (store t)) -> unit_tree (tree_body t r l) t.
Proof. intros t r l H. exists (store t). split; [apply store_ok|]. split; [reflexivity|]. exact (at_of_ok _ H). Qed.

Definition at_range (lo len : N) : list (option attr) := [Some (Attr ALow (VAddr lo)); Some (Attr AHigh (VUdata len))].
Definition named_as (s : list N) : option attr := Some (Attr AName (VStr (Some s))).
Definition made_at (file line column : N) : list (option attr) :=
  [Some (Attr ACallFile (VFileIndex file)); Some (Attr ACallLine (VUdata line)); Some (Attr ACallColumn (VUdata column))].
Definition ex_h : tree := Node 50 TInlined (Some (Attr AOrigin (VUnitRef 95)) :: at_range 4100 4 ++ made_at 2 44 70000) None.
Definition ex_g : tree := Node 40 TInlined (Some (Attr AOrigin (VUnitRef 90)) :: at_range 4100 8 ++ made_at 1 33 4) (Some [ex_h]).
Definition ex_f : tree := Node 20 TSubprogram (named_as (bs "f"%string) :: at_range 4096 16)
  (Some [Node 30 TOther [] (Some [ex_g]); Node 60 TSubprogram [named_as (bs "nested"%string)] None]).
Definition ex_tree : tree := Node 11 TOther (at_range 4096 16)
  (Some [ex_f; Node 90 TSubprogram [named_as (bs "g"%string)] None; Node 95 TSubprogram [named_as (bs "h"%string)] None]).
Definition ex_main : body := tree_body ex_tree (fun _ => None) (Some ex_prog).
Definition ex_dheaders : list uheader := [UHeader (Some 0) KOther 11 100 (Some ex_main) (Some None)].
Definition ex_dunits : units := Units [URange 0 4112 (Range 4096 4112)] [DUnit 0 11 100 (Some ex_main) (Some None) (Some None)].
Definition ex_resolver : dresolver :=
  DResolver ex_dunits (Some (bs "a.out"%string)) (fun _ _ => Ok None) (fun _ _ => Ok (inr UnknownAddr)) (fun _ _ => Ok []).
Example ex_parsed : units_parse Checked stable first (Sections (Some []) (Some ex_dheaders)) = Ok ex_dunits.
Proof. reflexivity. Qed.
Example C39_example :
  dwarf_find_sym Checked stable first ex_resolver 4101 WithInlined =
  Ok (inl (ResolvedSym (bs "f"%string) (Some (bs "a.out"%string)) 4096 (Some 16) LangUnknown
    (Some (CodeInfo (Some (bs "/src"%string)) (bs "main.c"%string) (Some 33) (Some 4)))
    [InlinedFn (bs "g"%string) (Some (CodeInfo (Some (bs "/src/include"%string)) (bs "util.h"%string) (Some 44) (Some 65535)));
     InlinedFn (bs "h"%string) (Some (CodeInfo (Some (bs "/src/include"%string)) (bs "util.h"%string) (Some 7) (Some 9)))])).
Proof. vm_compute. reflexivity. Qed.
Example C39_example_inner :
  (let* s := dwarf_find_sym Checked stable first ex_resolver 4105 WithInlined in
   match s with inl s => Ok (map if_name (rs_inlined s)) | inr _ => Ok [] end) = Ok [bs "g"%string] /\
  (let* s := dwarf_find_sym Checked stable first ex_resolver 4108 WithInlined in
   match s with inl s => Ok (map if_name (rs_inlined s)) | inr _ => Ok [] end) = Ok [] /\
  dwarf_find_sym Checked stable first ex_resolver 4112 WithInlined = Ok (inr UnknownAddr).
Proof. repeat split; vm_compute; reflexivity. Qed.

(** The theorems applied to it *)
Lemma ex_good : unit_tree ex_main ex_tree.
Proof.
  apply tree_body_ok. vm_compute. repeat (constructor; [intros H; cbn in H; repeat destruct H as [H|H]; try discriminate; auto|]). constructor.
Qed.
Lemma ex_calls : forall y, calls y ex_f <-> y = ex_g.
Proof.
  intros y. split.
  - intros H. apply calls_lcalls in H. change (t_children ex_f) with ([Node 30 TOther [] (Some [ex_g])] ++ [Node 60 TSubprogram [named_as (bs "nested"%string)] None]) in H.
    apply lcalls_app in H. destruct H as [H|H]; apply lcalls_one in H; cbn [t_tag t_children] in H; [|destruct H].
    apply lcalls_one in H. exact H.
  - intros ->. eapply CallBelow; [left; reflexivity|reflexivity|]. apply CallHere; [left|]; reflexivity.
Qed.
Lemma ex_calls_g : forall y, calls y ex_g <-> y = ex_h.
Proof.
  intros y. split.
  - intros H. apply calls_lcalls in H. cbn [ex_g t_children] in H. apply lcalls_one in H. exact H.
  - intros ->. apply CallHere; [left|]; reflexivity.
Qed.
Lemma ex_calls_h : forall y, ~ calls y ex_h.
Proof. intros y H. apply calls_lcalls in H. eapply lcalls_nil. exact H. Qed.
Lemma ex_call_at : forall d y, call_at d y ex_f <-> d = 0 /\ y = ex_g \/ d = 1 /\ y = ex_h.
Proof.
  intros d y. split.
  - intros H. inversion H; subst; [left; split; auto; now apply ex_calls|]. apply ex_calls in H0. subst y0.
    inversion H1; subst; [right; split; auto; now apply ex_calls_g|]. apply ex_calls_g in H0. subst y0.
    exfalso. inversion H2; subst; eapply ex_calls_h; eauto.
  - intros [[-> ->]|[-> ->]].
    + apply CallFirst. now apply ex_calls.
    + change 1 with (0 + 1). apply CallNext with (y := ex_g); [now apply ex_calls|]. apply CallFirst. now apply ex_calls_g.
Qed.
Lemma at_range_declares : forall b rest1 rest2 lo len r,
  (forall a, In a (rest1 ++ rest2) -> forall v, a <> Some (Attr ALow v) /\ a <> Some (Attr AHigh v) /\ a <> Some (Attr ARanges v)) ->
  (declares b (rest1 ++ at_range lo len ++ rest2) r <-> r = Range lo (lo + len)).
Proof.
  intros b rest1 rest2 lo len r Hno.
  assert (Hin : forall n v, (n = ALow \/ n = AHigh \/ n = ARanges) -> has (rest1 ++ at_range lo len ++ rest2) n v ->
            In (Some (Attr n v)) (at_range lo len)).
  { intros n v Hn H. unfold has in H. rewrite !in_app_iff in H. destruct H as [H|[H|H]]; auto;
      (destruct (Hno (Some (Attr n v)) ltac:(apply in_app_iff; auto) v) as (K1 & K2 & K3); exfalso; destruct Hn as [->|[->| ->]]; congruence). }
  assert (Hlow : forall a, low_of b (rest1 ++ at_range lo len ++ rest2) a <-> a = lo).
  { intros a. split.
    - intros (v & Hv & Ha). apply Hin in Hv; auto. destruct Hv as [Hv|[Hv|[]]]; [|discriminate]. injection Hv as <-.
      destruct Ha as [Ha|(i & Hi & _)]; [now injection Ha as ->|discriminate].
    - intros ->. exists (VAddr lo). split; [|now left]. unfold has. rewrite !in_app_iff. right. left. now left. }
  assert (Hhigh : forall a hi, high_of b (rest1 ++ at_range lo len ++ rest2) a hi <-> hi = a + len).
  { intros a hi. split.
    - intros (v & Hv & Ha). apply Hin in Hv; auto. destruct Hv as [Hv|[Hv|[]]]; [discriminate|]. injection Hv as <-.
      destruct Ha as [[Ha|(i & Hi & _)]|(n & Hn & ->)]; try discriminate. now injection Hn as ->.
    - intros ->. exists (VUdata len). split; [|right; eauto]. unfold has. rewrite !in_app_iff. right. left. right. now left. }
  assert (Hno' : forall off, ~ list_of (rest1 ++ at_range lo len ++ rest2) off).
  { intros off H. apply Hin in H; auto. destruct H as [H|[H|[]]]; discriminate. }
  split.
  - intros [(off & rs & H & _)|(_ & l & h & Hl & Hh & ->)]; [exfalso; eapply Hno'; eauto|]. apply Hlow in Hl. subst l. apply Hhigh in Hh. now subst h.
  - intros ->. right. split; auto. exists lo, (lo + len). split; [now apply Hlow|]. split; [now apply Hhigh|reflexivity].
Qed.
Ltac no_ranges := let a := fresh in let H := fresh in intros a H v; cbn in H; repeat (destruct H as [<-|H]; [repeat split; discriminate|]); destruct H.
Lemma ex_declares_f : forall r, declares ex_main (t_attrs ex_f) r <-> r = Range 4096 4112.
Proof. intros r. change (t_attrs ex_f) with ([named_as (bs "f"%string)] ++ at_range 4096 16 ++ []). rewrite at_range_declares; [reflexivity|no_ranges]. Qed.
Lemma ex_declares_g : forall r, declares ex_main (t_attrs ex_g) r <-> r = Range 4100 4108.
Proof. intros r. change (t_attrs ex_g) with ([Some (Attr AOrigin (VUnitRef 90))] ++ at_range 4100 8 ++ made_at 1 33 4). rewrite at_range_declares; [reflexivity|no_ranges]. Qed.
Lemma ex_declares_h : forall r, declares ex_main (t_attrs ex_h) r <-> r = Range 4100 4104.
Proof. intros r. change (t_attrs ex_h) with ([Some (Attr AOrigin (VUnitRef 95))] ++ at_range 4100 4 ++ made_at 2 44 70000). rewrite at_range_declares; [reflexivity|no_ranges]. Qed.
Lemma ex_calls_wf : calls_wf ex_main ex_f.
Proof.
  split; [|split].
  - intros d x y a Hx Hy _ _. apply ex_call_at in Hx, Hy. destruct Hx as [[-> ->]|[-> ->]], Hy as [[E ->]|[E ->]]; auto; discriminate.
  - intros d x r1 r2 Hx H1 H2. left. apply ex_call_at in Hx. destruct Hx as [[_ ->]|[_ ->]];
      [apply ex_declares_g in H1, H2|apply ex_declares_h in H1, H2]; congruence.
  - intros d x y a Hx Hy (r & Hr & Hc). apply ex_call_at in Hx. destruct Hx as [[_ ->]|[_ ->]]; [|exfalso; eapply ex_calls_h; eauto].
    apply ex_calls_g in Hy. subst y. apply ex_declares_h in Hr. subst r. exists (Range 4100 4108). split; [now apply ex_declares_g|].
    unfold covers in *. cbn [r_begin r_end] in *. lia.
Qed.
Lemma ex_inl_wf : inl_wf ex_main (t_children ex_f).
Proof.
  assert (Hw : forall attrs1 attrs2 lo len, lo + len < two64 ->
            (forall a, In a (attrs1 ++ attrs2) -> forall v, a <> Some (Attr ALow v) /\ a <> Some (Attr AHigh v) /\ a <> Some (Attr ARanges v)) ->
            unique (attrs1 ++ at_range lo len ++ attrs2) ALow -> unique (attrs1 ++ at_range lo len ++ attrs2) AHigh ->
            unique (attrs1 ++ at_range lo len ++ attrs2) ARanges -> ranges_wf ex_main (attrs1 ++ at_range lo len ++ attrs2)).
  { intros a1 a2 lo len Hlt Hno U1 U2 U3. split; auto. split; auto. split; auto. intros l h Hl Hh.
    assert (Hd : declares ex_main (a1 ++ at_range lo len ++ a2) (Range l h)).
    { right. split; [|exists l, h; auto]. intros off H. unfold list_of, has in H. rewrite !in_app_iff in H. destruct H as [H|[H|H]].
      - destruct (Hno _ ltac:(apply in_app_iff; left; exact H) (VRanges (Some (Some off)))) as (_ & _ & K). congruence.
      - destruct H as [H|[H|[]]]; discriminate.
      - destruct (Hno _ ltac:(apply in_app_iff; right; exact H) (VRanges (Some (Some off)))) as (_ & _ & K). congruence. }
    apply at_range_declares in Hd; auto. injection Hd as -> ->. exact Hlt. }
  intros t x Ht Hx Htag.
  assert (x = ex_g \/ x = ex_h).
  { destruct Ht as [<-|[<-|[]]].
    - inversion Hx; subst; [discriminate|]. destruct H as [<-|[]]. inversion H0; subst; auto. destruct H as [<-|[]].
      inversion H1; subst; auto. destruct H.
    - inversion Hx; subst; [discriminate|]. destruct H. }
  destruct H as [->| ->].
  - apply (Hw [Some (Attr AOrigin (VUnitRef 90))] (made_at 1 33 4) 4100 8); [reflexivity|no_ranges|..]; apply unique_short; vm_compute; lia.
  - apply (Hw [Some (Attr AOrigin (VUnitRef 95))] (made_at 2 44 70000) 4100 4); [reflexivity|no_ranges|..]; apply unique_short; vm_compute; lia.
Qed.
Lemma ex_ordered : units_ordered ex_dunits /\ headers_wf ex_dunits.
Proof.
  split.
  - intros [|[|i]] [|[|j]] u1 u2 Hij H1 H2; try lia; try discriminate.
  - intros u [<-|[]]; reflexivity.
Qed.
Lemma ex_active : active ex_main 4101 ex_f [ex_g; ex_h].
Proof.
  apply ActiveCall; [now apply ex_calls|exists (Range 4100 4108); split; [now apply ex_declares_g|unfold covers; cbn [r_begin r_end]; lia]|].
  apply ActiveCall; [now apply ex_calls_g|exists (Range 4100 4104); split; [now apply ex_declares_h|unfold covers; cbn [r_begin r_end]; lia]|].
  apply ActiveNone. intros x Hx. exfalso. eapply ex_calls_h; eauto.
Qed.
Example C39_inlined_example : exists l, find_inlined_functions Checked stable first ex_dunits (DUnit 0 11 100 (Some ex_main) (Some None) (Some None))
    (DFn 20 None None) 4101 = Ok l /\ Forall2 (call_of ex_dunits name_limit ex_main) [ex_g; ex_h] l.
Proof.
  destruct ex_ordered as [Ho Hh].
  destruct (inlined_parse Checked stable first ex_dunits ex_main 20) as [i| | |] eqn:E; [|vm_compute in E; discriminate..].
  destruct (C39_inlined Checked stable first ex_dunits (DUnit 0 11 100 (Some ex_main) (Some None) (Some None)) ex_main ex_tree ex_f
    (DFn 20 None None) i 4101 stable_ok Ho Hh) as (chain & l & H1 & H2 & H3); auto.
  - split; [eexists; reflexivity|right; auto].
  - apply ex_good.
  - eapply InChild; [left; reflexivity|apply InHere].
  - apply ex_inl_wf.
  - apply ex_calls_wf.
  - exists l. split; auto. assert (chain = [ex_g; ex_h]) by (eapply active_unique; [exact H2|intros d y z; apply (proj1 ex_calls_wf)|exact ex_active]). now subst chain.
Qed.

(** If it is not known where the outermost call was made, the location of the
    address is shown in the function it is inlined into, and not in its own
    frame. *)
Definition un_g : tree := Node 40 TInlined (Some (Attr AName (VStr (Some (bs "g"%string)))) :: at_range 4100 8) None.
Definition un_f : tree := Node 20 TSubprogram (named_as (bs "f"%string) :: at_range 4096 16) (Some [un_g]).
Definition un_tree : tree := Node 11 TOther (at_range 4096 16) (Some [un_f]).
Definition un_main : body := tree_body un_tree (fun _ => None) (Some ex_prog).
Definition un_units : units := Units [URange 0 4112 (Range 4096 4112)] [DUnit 0 11 100 (Some un_main) (Some None) (Some None)].
Definition un_resolver : dresolver := DResolver un_units None (fun _ _ => Ok None) (fun _ _ => Ok (inr UnknownAddr)) (fun _ _ => Ok []).
Theorem C20_dwarf_refuted : exists r loc sym code,
  find_location Checked stable first (dr_units r) 4101 = Ok (Some loc) /\ code_of loc code /\
  active un_main 4101 un_f [un_g] /\ call_loc un_main un_main ex_prog un_g None /\
  dwarf_find_sym Checked stable first r 4101 WithInlined = Ok (inl sym) /\
  map if_name (rs_inlined sym) = [bs "g"%string] /\
  (** not [None :: [Some code]] *)
  rs_code_info sym :: map if_code_info (rs_inlined sym) = [Some code; None].
Proof.
  exists un_resolver. eexists. eexists. eexists. split; [vm_compute; reflexivity|]. split; [apply to_code_info_ok|]. split; [|split].
  - apply ActiveCall; [apply CallHere; [now left|reflexivity]| |].
    + exists (Range 4100 4108). split; [|unfold covers; cbn [r_begin r_end]; lia].
      change (t_attrs un_g) with ([named_as (bs "g"%string)] ++ at_range 4100 8 ++ []). apply at_range_declares; [no_ranges|reflexivity].
    + apply ActiveNone. intros x Hx. exfalso. apply calls_lcalls in Hx. eapply lcalls_nil. exact Hx.
  - split; auto. intros _ i f Hi. exfalso. cbn in Hi. repeat destruct Hi as [Hi|Hi]; try discriminate. exact Hi.
  - split; [vm_compute; reflexivity|]. split; reflexivity.
Qed.
Print Assumptions C20_dwarf_refuted.

(** A function in several pieces is reported to start at address 0, without a
    size, if its ranges are in a list; with a lower address in addition, symbols
    may start after the address. *)
Definition rg_tree (attrs : list (option attr)) : tree := Node 11 TOther (at_range 4096 64)
  (Some [Node 20 TSubprogram (named_as (bs "f"%string) :: attrs ++ [Some (Attr ARanges (VRanges (Some (Some 8))))]) None]).
Definition rg_main (attrs : list (option attr)) : body :=
  tree_body (rg_tree attrs) (fun o => if o =? 8 then Some [Range 4128 4144; Range 4096 4104] else None) None.
Definition rg_resolver (attrs : list (option attr)) : dresolver :=
  DResolver (Units [URange 0 4160 (Range 4096 4160)] [DUnit 0 11 100 (Some (rg_main attrs)) (Some None) (Some None)])
    None (fun _ _ => Ok None) (fun _ _ => Ok (inr UnknownAddr)) (fun _ _ => Ok []).
Theorem C39_pieces_refuted : exists r1 r2 s1 s2,
  dwarf_find_sym Checked stable first r1 4097 Basic = Ok (inl s1) /\ rs_addr s1 = 0 /\ rs_size s1 = None /\
  dwarf_find_sym Checked stable first r2 4097 Basic = Ok (inl s2) /\ 4097 < rs_addr s2.
Proof.
  exists (rg_resolver []), (rg_resolver (at_range 4128 16)). eexists. eexists. split; [vm_compute; reflexivity|].
  split; [reflexivity|]. split; [reflexivity|]. split; vm_compute; reflexivity.
Qed.
Print Assumptions C39_pieces_refuted.

(** ** Languages *)
Lemma first_lang_is : forall attrs l0, unique attrs ALanguage -> first_lang attrs = Ok l0 ->
  (forall l, has attrs ALanguage (VLang l) -> l0 = Some l) /\ ((forall v, ~ has attrs ALanguage v) -> l0 = None).
Proof.
  induction attrs as [|a attrs IH]; intros l0 Hu H; cbn [first_lang] in H.
  - injection H as <-. split; [intros l []|reflexivity].
  - destruct a as [[n v]|]; [cbn [g of_option bind a_name a_value] in H|discriminate].
    assert (Hu' : unique attrs ALanguage).
    { intros i j a b Hi Hj Ha Hb. assert (S i = S j); [|congruence]. eapply Hu; eauto. }
    assert (Hn : n <> ALanguage -> first_lang attrs = Ok l0 -> (forall l, has (Some (Attr n v) :: attrs) ALanguage (VLang l) -> l0 = Some l) /\
                 ((forall v', ~ has (Some (Attr n v) :: attrs) ALanguage v') -> l0 = None)).
    { intros Hne E. destruct (IH _ Hu' E) as [I1 I2]. split.
      - intros l [E'|Hin]; [congruence|auto].
      - intros Hno. apply I2. intros v' Hin. apply (Hno v'). now right. }
    destruct n; try (apply Hn; [discriminate|exact H]). clear Hn. split.
    + intros l [E|Hin].
      * injection E as ->. now injection H as <-.
      * exfalso. apply In_nth_error in Hin. destruct Hin as [k Hk].
        assert (O = S k); [|discriminate]. eapply (Hu O (S k)); [reflexivity|exact Hk| |]; eexists; reflexivity.
    + intros Hno. exfalso. apply (Hno v). now left.
Qed.
Lemma unit_attrs_keep : forall b attrs ra l0 ra' l1, unit_attrs b attrs ra l0 = Ok (ra', l1) ->
  (forall v, ~ has attrs ALanguage v) -> l1 = l0.
Proof.
  induction attrs as [|a attrs IH]; intros ra l0 ra' l1 H Hno; cbn [unit_attrs] in H; [now injection H as _ <-|].
  destruct a as [[n v]|]; [cbn [g of_option bind a_name a_value] in H|discriminate]. ib H ra1 Era.
  rewrite (IH _ _ _ _ H); [|intros v' Hin; apply (Hno v'); now right].
  destruct n; auto. exfalso. apply (Hno v). now left.
Qed.
Lemma unit_attrs_lang : forall b attrs ra l0 ra' l1, unique attrs ALanguage -> unit_attrs b attrs ra l0 = Ok (ra', l1) ->
  forall l, has attrs ALanguage (VLang l) -> l1 = Some l.
Proof.
  induction attrs as [|a attrs IH]; intros ra l0 ra' l1 Hu H l Hin; [destruct Hin|]. cbn [unit_attrs] in H.
  destruct a as [[n v]|]; [cbn [g of_option bind a_name a_value] in H|discriminate]. ib H ra1 Era.
  destruct Hin as [E|Hin].
  - injection E as -> ->. apply (unit_attrs_keep _ _ _ _ _ _ H). intros v' Hin. apply In_nth_error in Hin. destruct Hin as [k Hk].
    assert (O = S k); [|discriminate]. eapply (Hu O (S k)); [reflexivity|exact Hk| |]; eexists; reflexivity.
  - eapply IH; [|exact H|exact Hin]. intros i j a b' Hi Hj Ha Hb. assert (S i = S j); [|congruence]. eapply Hu; eauto.
Qed.
Definition lang_read (u : dunit) : Prop :=
  u_lang u = None \/
  exists b off tag ch attrs s ra lang, u_main u = Some b /\ b_entries b = Some ((off, IDie (Die tag ch attrs)) :: s) /\
    unit_attrs b attrs no_rattrs None = Ok (ra, lang) /\ u_lang u = Some lang.
Lemma units_loop_lang : forall m srt pick sets hs ranges us rs' us', Forall lang_read us ->
  units_loop m srt pick sets hs ranges us = Ok (rs', us') -> Forall lang_read us'.
Proof.
  intros m srt pick sets. induction hs as [|h hs IH]; intros ranges us rs' us' Hus H; cbn [units_loop] in H.
  - injection H as _ <-. now apply Forall_rev.
  - destruct (h_offset h) as [off|]; [|eapply IH; eauto].
    destruct (h_kind h); [eapply IH; eauto| |].
    + eapply IH; [|exact H]. constructor; auto. now left.
    + ib H rs Ers. destruct rs as [|r0 rs].
      * destruct (h_unit h) as [b|] eqn:Eb; [|eapply IH; eauto].
        destruct (b_entries b) as [s|] eqn:Es; [|discriminate]. cbn [g of_option bind] in H.
        destruct s as [|[o it] s]; [discriminate|].
        destruct it as [|d|]; cbn [read_abbreviation bind] in H; [eapply IH; eauto| |discriminate].
        ib H y Ey. destruct y as [ra lang]. ib H rs Er. eapply IH; [|exact H]. constructor; auto. right.
        destruct d as [tag ch attrs]. exists b, o, tag, ch, attrs, s, ra, lang. auto.
      * eapply IH; [|exact H]. constructor; auto. now left.
Qed.
Lemma parse_lang : forall m srt pick sc us, units_parse m srt pick sc = Ok us -> Forall lang_read (us_units us).
Proof.
  intros m srt pick sc us H. unfold units_parse in H. ib H a Ea. ib H hs Eh. ib H y Ey. destruct y as [rs us'].
  injection H as <-. cbn [us_units]. eapply units_loop_lang; [|exact Ey]. constructor.
Qed.
(** Symbols are in the language that their unit says it is in. *)
Theorem C39_language : forall m srt pick sc r f i u main attrs addr opts sym,
  units_parse m srt pick sc = Ok (dr_units r) ->
  find_function m srt pick (dr_units r) addr = Ok (Some (f, i)) -> nnth i (us_units (dr_units r)) = Some u ->
  u_main u = Some main -> root_attrs main attrs -> unique attrs ALanguage ->
  dwarf_find_sym m srt pick r addr opts = Ok (inl sym) ->
  (forall l, has attrs ALanguage (VLang l) -> rs_lang sym = l) /\
  ((forall v, ~ has attrs ALanguage v) -> rs_lang sym = LangUnknown).
Proof.
  intros m srt pick sc r f i u main attrs addr opts sym Hp Hf Hu Hm (off & tag & ch & s & Hroot) Huq H.
  unfold dwarf_find_sym in H. rewrite Hf in H. cbn [bind] in H. ib H sm Es. destruct sm as [sm|]; [|discriminate]. ib H sm' Ef. injection H as ->.
  unfold unit_at in Es. rewrite Hu in Es. cbn [unwrap bind] in Es. ib Es nm En. ib Es sz Esz. ib Es lang Elang. injection Es as <-.
  assert (Hl : rs_lang sym = src_lang_of lang).
  { unfold fill_code_info in Ef. destruct opts; cbn [code_info_opt negb inlined_fns_opt] in Ef.
    - now injection Ef as <-.
    - ib Ef l El. destruct l as [l|]; [cbn [bind] in Ef|]; now injection Ef as <-.
    - ib Ef l El. destruct l as [l|]; [ib Ef y Ey; destruct y as [code ifs]|]; now injection Ef as <-. }
  assert (Hlang : (forall l, has attrs ALanguage (VLang l) -> lang = Some l) /\ ((forall v, ~ has attrs ALanguage v) -> lang = None)).
  { unfold unit_language in Elang. rewrite Hm in Elang. cbn [g of_option bind] in Elang.
    pose proof (parse_lang _ _ _ _ _ Hp) as Hall. rewrite Forall_forall in Hall.
    assert (Hin : In u (us_units (dr_units r))) by (rewrite nnth_nth in Hu; eapply nth_error_In; eauto).
    destruct (Hall u Hin) as [E|(b & o & tg & c & at' & s' & ra & lg & E1 & E2 & E3 & E4)].
    - rewrite E, Hroot in Elang. cbn [g of_option bind read_abbreviation] in Elang. now apply first_lang_is.
    - rewrite E4 in Elang. injection Elang as <-. rewrite Hm in E1. injection E1 as <-. rewrite Hroot in E2. injection E2 as -> -> -> -> ->.
      split; [intros l Hin'; eapply unit_attrs_lang; eauto|intros Hno; eapply unit_attrs_keep; eauto]. }
  destruct Hlang as [L1 L2]. rewrite Hl. split.
  - intros l Hin'. now rewrite (L1 l Hin').
  - intros Hno. now rewrite (L2 Hno).
Qed.
Print Assumptions C39_language.
(** Split units say it only in their other half, which is not consulted. *)
Definition split_main : tree := Node 11 TOther (at_range 4096 16) None.
Definition split_dwo : tree := Node 11 TOther [Some (Attr ALanguage (VLang LangRust))]
  (Some [Node 20 TSubprogram (named_as (bs "f"%string) :: at_range 4096 16) None]).
Definition lang_tree : tree := Node 11 TOther (Some (Attr ALanguage (VLang LangCpp)) :: at_range 4096 16)
  (Some [Node 20 TSubprogram (named_as (bs "f"%string) :: at_range 4096 16) None]).
Definition split_header : uheader :=
  UHeader (Some 0) KOther 11 100 (Some (tree_body split_main (fun _ => None) None))
    (Some (Some (tree_body split_dwo (fun _ => None) None))).
Definition lang_header : uheader := UHeader (Some 0) KOther 11 100 (Some (tree_body lang_tree (fun _ => None) None)) (Some None).
Definition resolver_of (sc : sections) : dresolver :=
  match units_parse Checked stable first sc with
  | Ok us => DResolver us (Some (bs "a.out"%string)) (fun _ _ => Ok None) (fun _ _ => Ok (inr UnknownAddr)) (fun _ _ => Ok [])
  | _ => ex_resolver
  end.
Definition lang_aranges : list aset := [ASet 0 (Some [Some (Range 4096 4112, 16)])].
(** The language of a unit is read early or late, depending on [.debug_aranges]. *)
Example C39_language_example : forall sets, sets = [] \/ sets = lang_aranges ->
  exists sym, dwarf_find_sym Checked stable first (resolver_of (Sections (Some sets) (Some [lang_header]))) 4100 Basic = Ok (inl sym) /\
    rs_lang sym = LangCpp.
Proof. intros sets [->| ->]; eexists; (split; [vm_compute; reflexivity|reflexivity]). Qed.
Theorem C39_language_refuted : exists sc r u dwo attrs sym,
  units_parse Checked stable first sc = Ok (dr_units r) /\ us_units (dr_units r) = [u] /\
  unit_body u dwo /\ root_attrs dwo attrs /\ has attrs ALanguage (VLang LangRust) /\ unique attrs ALanguage /\
  dwarf_find_sym Checked stable first r 4100 Basic = Ok (inl sym) /\ rs_name sym = bs "f"%string /\ rs_lang sym = LangUnknown.
Proof.
  pose (sc := Sections (Some []) (Some [split_header])).
  exists sc, (resolver_of sc). eexists. exists (tree_body split_dwo (fun _ => None) None), [Some (Attr ALanguage (VLang LangRust))]. eexists.
  split; [vm_compute; reflexivity|]. split; [vm_compute; reflexivity|].
  split. { split; [eexists; reflexivity|]. left. reflexivity. }
  split. { do 4 eexists. reflexivity. }
  split; [now left|]. split.
  { intros i j a b Hi Hj _ _. destruct i as [|i]; [destruct j as [|j]; [reflexivity|destruct j; discriminate]|destruct i; discriminate]. }
  split; [vm_compute; reflexivity|]. split; reflexivity.
Qed.
Print Assumptions C39_language_refuted.
