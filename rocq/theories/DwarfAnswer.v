(** * Answers from debug information *)

From Verif Require Import Base Util UtilProofs Search Depmod Dwarf DwarfSpec DwarfReadSpec DwarfAnswerSpec Lists Sym Inspect Text Frames
  PropDwLines PropDwUnits PropDwNames PropDwFns PropDwInl PropDwSym PropDwRead.
Local Open Scope N_scope.

Section Answer.
Context (m : mode) (srt : sorter) (pick : N -> N) (sc : sections) (us : units) (sets : list aset) (hs : list uheader) (a : N)
  (hd : uheader) (b main : body) (t : tree).
Context (Hsrt : sorter_ok srt) (Hus : units_parse m srt pick sc = Ok us) (Hok : info_ok sc us sets hs)
  (Ha : a + 1 < two64) (Hu : only_unit us sets hs hd b main t a).

Lemma consult : exists l, find_units m pick us a = Ok l /\ l <> [] /\
  forall i, In i l -> exists off u, h_offset hd = Some off /\ nnth i (us_units us) = Some u /\ unit_of hd off u /\ unit_body u b /\ u_main u = Some main.
Proof.
  destruct Hok as (O1 & O2 & O3 & O4 & O5 & O6), Hu as (U1 & U2 & U3 & (r & U4 & U5) & U6 & (off & U7 & U8) & _).
  destruct (C38_consulted m srt pick sc us sets hs a Hsrt Hus O1 O2) as (l & H1 & H2 & H3); auto; [intros h Hh; now apply O4|].
  exists l. split; [exact H1|]. split.
  - destruct (H3 hd off r U1 U7 U2 U4 U5) as (i & _ & Hi & _). intros ->. destruct Hi.
  - intros i Hi. destruct (H2 i Hi) as (h & off' & u & K1 & K2 & K3 & K4 & K5 & r' & K6 & K7). pose proof (U6 h r' K1 K6 K7) as ->.
    exists off', u. split; auto. split; auto. split; auto. rewrite K2 in U7. injection U7 as ->. split; [auto|]. destruct K5 as (_ & -> & _). exact U3.
Qed.
Lemma ranges_good : forall x, is_function t x -> ranges_wf b (t_attrs x).
Proof.
  destruct Hu as (_ & _ & _ & _ & _ & _ & _ & Hr & _). intros x [Hx Ht]. destruct (Hr x Hx) as [_ He]. destruct He as (_ & E & _); [congruence|exact E].
Qed.
Lemma fns_of : exists fs, functions_parse m srt pick us b = Ok fs.
Proof.
  destruct Hok as (O1 & O2 & O3 & O4 & O5 & O6), Hu as (_ & _ & _ & _ & _ & _ & Ht & Hr & _).
  destruct (C42_units _ _ _ _ _ _ Hus O2 O5) as [Ho Hh]. destruct (functions_total m srt pick us b t Ho Hh Ht Hr) as (fs & H & _). eauto.
Qed.
Lemma function_found : forall f lo hi, only_function b t f lo hi a ->
  exists fn i u off, find_function m srt pick us a = Ok (Some (fn, i)) /\ nnth i (us_units us) = Some u /\ unit_of hd off u /\ unit_body u b /\
    u_main u = Some main /\ fn_of us name_limit b f fn.
Proof.
  intros f lo hi (F1 & F2 & F3 & F4 & F5 & F6). destruct consult as (l & El & Hne & Hl).
  destruct Hok as (O1 & O2 & O3 & O4 & O5 & O6). destruct (C42_units _ _ _ _ _ _ Hus O2 O5) as [Ho Hh]. destruct fns_of as (fs & Efs).
  pose proof ranges_good as Hrw.
  assert (Hc : entry_covers b f a). { exists (Range lo hi). split; [right; split; auto; eauto 6|exact F5]. }
  assert (Hone : forall i, In i l -> exists u fn, nnth i (us_units us) = Some u /\ unit_find_function m srt pick us u a = Ok (Some fn)).
  { intros i Hi. destruct (Hl i Hi) as (off & u & _ & K1 & _ & K2 & _). exists u.
    destruct Hu as (_ & _ & _ & _ & _ & _ & Ht & _ & Hap). destruct (C39_found m srt pick us u b t a f fs Hsrt Ho Hh K2 Ht Hrw Hap Efs F1 Hc) as (fn & y & H & _). eauto. }
  destruct (first_in_found _ (fun u => unit_find_function m srt pick us u a) us l) as (fn & i & E).
  - intros i Hi. destruct (Hone i Hi) as (u & fn & H1 & H2). eauto.
  - destruct l as [|i l]; [congruence|]. destruct (Hone i ltac:(now left)) as (u & fn & H1 & H2). exists i, u, fn. split; [now left|auto].
  - pose proof E as E'. apply first_in_some in E'. destruct E' as (u & Hi & Hn & Hf). destruct (Hl i Hi) as (off & u' & K0 & K1 & K2 & K3 & K4).
    rewrite Hn in K1. injection K1 as <-. exists fn, i, u, off. split; [unfold find_function; rewrite El; exact E|]. do 4 (split; auto).
    destruct Hu as (_ & _ & _ & _ & _ & _ & Ht & _ & Hap). destruct (C39_sound m srt pick us u b t a fn Hsrt Ho Hh K3 Ht Hrw Hf) as (y & Y1 & Y2 & Y3).
    now rewrite <- (F6 y Y1 Y3).
Qed.
Lemma function_none : no_function b t a -> find_function m srt pick us a = Ok None.
Proof.
  intros Hno. destruct consult as (l & El & _ & Hl). destruct Hok as (O1 & O2 & O3 & O4 & O5 & O6). destruct (C42_units _ _ _ _ _ _ Hus O2 O5) as [Ho Hh].
  destruct fns_of as (fs & Efs). unfold find_function. rewrite El. cbn [bind]. apply first_in_none. intros i Hi.
  destruct (Hl i Hi) as (off & u & _ & K1 & _ & K2 & _). exists u. split; [exact K1|].
  destruct Hu as (_ & _ & _ & _ & _ & _ & Ht & _ & _). exact (C39_none m srt pick us u b t a fs Hsrt Ho Hh K2 Ht ranges_good Efs Hno).
Qed.
Lemma lines_good : forall p, b_lines main = Some p -> lines_readable main p.
Proof.
  intros p Hp. destruct consult as (l & _ & Hne & Hl). destruct l as [|i l]; [congruence|].
  destruct (Hl i ltac:(now left)) as (off & u & _ & K1 & _ & _ & K2). destruct Hok as (_ & _ & _ & _ & _ & O6).
  rewrite nnth_nth_error in K1. destruct (O6 u (nth_error_In _ _ K1)) as [_ (main' & attrs & Hm & _ & _ & H)]. rewrite K2 in Hm. injection Hm as <-. now apply H.
Qed.
Lemma location_found : forall p r, b_lines main = Some p -> row_at p a r ->
  exists loc, find_location m srt pick us a = Ok (Some loc) /\ row_loc main p r loc.
Proof.
  intros p r Hp (rows & bd & e & rg & R1 & R2 & R3 & R4 & R5 & R6). destruct consult as (l & El & Hne & Hl).
  destruct (lines_good p Hp) as (rows' & Hr & Hf & Hfile). rewrite R1 in Hr. injection Hr as <-.
  destruct (C40_accepted srt main p rows R1 Hf) as (ls & Els).
  assert (Hin : exists f, file_at p (p_file r) f).
  { destruct R3 as (_ & E1 & _ & pre & post & -> & _), R6 as (be & af & -> & _). apply Hfile.
    - apply in_or_app. right. apply in_or_app. left. apply in_or_app. right. now left.
    - rewrite Forall_forall in E1. apply E1. apply in_or_app. right. now left. }
  destruct Hin as (f & Hfl). destruct (C40_found srt pick main p ls rows bd e rg a r f Hsrt Els R1 R2 R3 R4 R5 R6 Hfl) as (loc & Eloc & Hloc).
  exists loc. split; [|exact Hloc].
  assert (Hone : forall i, In i l -> exists u, nnth i (us_units us) = Some u /\ unit_find_location srt pick u a = Ok (Some loc)).
  { intros i Hi. destruct (Hl i Hi) as (off & u & _ & K1 & _ & _ & K2). exists u. split; [exact K1|].
    unfold unit_find_location, unit_lines. rewrite K2. cbn [g of_option bind]. rewrite Hp, Els. exact Eloc. }
  unfold find_location. rewrite El. cbn [bind]. destruct l as [|i l]; [congruence|]. cbn [first_in]. destruct (Hone i ltac:(now left)) as (u & H1 & H2).
  unfold unit_at. rewrite H1. cbn [unwrap bind]. rewrite H2. reflexivity.
Qed.
Lemma location_none : no_row main a -> find_location m srt pick us a = Ok None.
Proof.
  intros Hno. destruct consult as (l & El & Hne & Hl). unfold find_location. rewrite El. cbn [bind].
  rewrite first_in_none; [reflexivity|]. intros i Hi. destruct (Hl i Hi) as (off & u & _ & K1 & _ & _ & K2). exists u. split; [exact K1|].
  unfold unit_find_location, unit_lines. rewrite K2. cbn [g of_option bind]. destruct (b_lines main) as [p|] eqn:Ep; [|reflexivity].
  destruct (lines_good p Ep) as (rows & Hr & Hf & _). destruct (C40_accepted srt main p rows Hr Hf) as (ls & Els). rewrite Els. cbn [bind].
  apply (C40_outside srt pick main p ls rows a Hsrt Els Hr). intros bd e rg H1 H2. eapply Hno; eauto.
Qed.

(** ** Symbols *)
Lemma find_sym_fn : forall r r' opts fn i, find_function m srt pick us a = Ok (Some (fn, i)) -> dr_units r = us -> dr_units r' = us -> dr_module r = dr_module r' ->
  dwarf_find_sym m srt pick r a opts = dwarf_find_sym m srt pick r' a opts.
Proof. intros r r' opts fn i Hf H1 H2 H3. unfold dwarf_find_sym. rewrite H1, H2, Hf, H3. reflexivity. Qed.
Lemma fn_symbol : forall r opts f lo hi, dr_units r = us -> only_function b t f lo hi a ->
  exists sym, dwarf_find_sym m srt pick r a opts = Ok (inl sym) /\
    (forall s, has_name us b f s -> rs_name sym = s) /\ rs_addr sym = lo /\ rs_size sym = Some (hi - lo) /\ rs_module sym = dr_module r /\
    (forall lang, in_language main lang -> rs_lang sym = lang) /\
    (opts = Basic -> rs_code_info sym = None) /\ (opts <> WithInlined -> rs_inlined sym = []) /\
    (no_row main a -> rs_code_info sym = None /\ rs_inlined sym = []) /\
    (opts = WithCode -> forall p row, b_lines main = Some p -> row_at p a row -> exists code, rs_code_info sym = Some code /\ code_at main p row code) /\
    (opts = WithInlined -> forall p row chain, b_lines main = Some p -> row_at p a row -> inlined_at b main p f a chain ->
       frames_at us b main p chain row (rs_code_info sym) (rs_inlined sym) (fun s => s)).
Proof.
  intros r opts f lo hi Hr Hf. destruct (function_found f lo hi Hf) as (fn & i & u & off & Efn & Hn & Hun & Hb & Hm & Hfn).
  pose proof Hok as (O1 & O2 & O3 & O4 & O5 & O6). pose proof Hf as (F1 & F2 & F3 & F4 & F5 & F6).
  destruct (C42_units _ _ _ _ _ _ Hus O2 O5) as [Ho Hh]. pose proof ranges_good as Hrw.
  assert (Hz : exists z, dwarf_find_sym m srt pick r a opts = Ok z).
  { set (r' := DResolver us (dr_module r) (dr_file_offset r) (fun _ _ => Ok (inr UnknownAddr)) (dr_find_addr r)).
    rewrite (find_sym_fn r r' opts fn i Efn Hr eq_refl eq_refl). apply (C79_symbol m srt pick sc us sets hs a); auto.
    - intros h Hin. now apply O4.
    - exists (inr UnknownAddr). reflexivity. }
  destruct Hz as (z & Hz).
  assert (Hs : exists sym, z = inl sym).
  { unfold dwarf_find_sym in Hz. rewrite Hr, Efn in Hz. cbn [bind] in Hz. ib Hz sm Es. unfold unit_at in Es. rewrite Hn in Es. cbn [unwrap bind] in Es.
    ib Es nm En. ib Es sz Esz. ib Es lang El. injection Es as <-. cbn iota in Hz. ib Hz sm' Ef. injection Hz as <-. eauto. }
  destruct Hs as (sym & ->). exists sym. split; [exact Hz|].
  destruct (C39_symbol m srt pick r us u b f fn i a opts sym Hr Efn Hn Hfn Hz) as (S1 & S2 & S3 & S4 & S5).
  assert (Hhi : hi < two64) by (destruct (Hrw f F1) as (_ & _ & _ & Hw); eapply Hw; eauto).
  destruct (S2 lo hi F2 F3 ltac:(lia) Hhi) as [S6 S7].
  split; [intros s [N1 N2]; auto|]. split; [exact S6|]. split; [exact S7|]. split; [exact S3|]. split.
  { intros lang (attrs & L1 & L2 & L3). rewrite <- Hr in Hus, Efn, Hn.
    destruct (C39_language m srt pick sc r fn i u main attrs a opts sym Hus Efn Hn Hm L1 L2 Hz) as [K1 K2]. destruct L3 as [L3|[L3 ->]]; auto. }
  split; [exact S4|]. split; [exact S5|].
  assert (Hfill : exists sm, rs_code_info sm = None /\ rs_inlined sm = [] /\ fill_code_info m srt pick us sm a opts (Some (fn, i)) = Ok sym).
  { unfold dwarf_find_sym in Hz. rewrite Hr, Efn in Hz. cbn [bind] in Hz. ib Hz sm Es. unfold unit_at in Es. rewrite Hn in Es. cbn [unwrap bind] in Es.
    ib Es nm En. ib Es sz Esz. ib Es lang El. injection Es as <-. cbn iota in Hz. ib Hz sm' Ef. injection Hz as ->. eexists. split; [|split; [|exact Ef]]; reflexivity. }
  destruct Hfill as (sm & M1 & M2 & Hfill). split; [|split].
  - intros Hno. unfold fill_code_info in Hfill. rewrite (location_none Hno) in Hfill. cbn [bind] in Hfill. destruct (negb (code_info_opt opts)); injection Hfill as <-; auto.
  - intros -> p row Hp Hrow. destruct (location_found p row Hp Hrow) as (loc & Eloc & Hloc). unfold fill_code_info in Hfill. cbn [code_info_opt negb inlined_fns_opt] in Hfill.
    rewrite Eloc in Hfill. cbn [bind] in Hfill. injection Hfill as <-. eexists. split; [reflexivity|]. exists loc. split; [exact Hloc|apply to_code_info_ok].
  - intros -> p row chain Hp Hrow (C1 & C2 & C3). destruct (location_found p row Hp Hrow) as (loc & Eloc & Hloc).
    destruct Hu as (_ & _ & _ & _ & _ & _ & Ht & Htr & _).
    assert (Hiw : inl_wf b (t_children f)).
    { intros c x Hc Hx Htag. destruct F1 as [F1 _].
      assert (Hin : in_tree x t). { clear - F1 Hc Hx. induction F1 as [|t0 c0 Hc0 H IH]; [econstructor; eauto|]. econstructor; eauto. }
      destruct (Htr x Hin) as [_ He]. destruct He as (_ & E & _); [congruence|exact E]. }
    destruct (C20_dwarf m srt pick r us u b t f fn i main p a loc sym chain Hsrt Ho Hh Hr Efn Hn Hb Ht (proj1 F1) (proj1 Hfn) Hiw C1 Hm Hp Eloc Hz C2 C3)
      as (locs & code & cis & H1 & H2 & H3 & H4 & H5).
    exists locs, cis, code. split; [exact H1|]. split; [exact H2|]. split; [exists loc; auto|]. split; [exact H4|].
    clear - H5. induction H5; constructor; auto. intros s [N1 N2]. auto.
Qed.
Lemma fallback_symbol : forall r opts, dr_units r = us -> no_function b t a -> (exists z, dr_find_sym r a opts = Ok z) ->
  exists z z', dr_find_sym r a opts = Ok z /\ dwarf_find_sym m srt pick r a opts = Ok z' /\
  match z, z' with
  | inl s, inl sym =>
      rs_name sym = rs_name s /\ rs_addr sym = rs_addr s /\ rs_size sym = rs_size s /\ rs_module sym = rs_module s /\ rs_lang sym = rs_lang s /\
      (opts = Basic -> sym = s) /\
      (no_row main a -> sym = s) /\
      (opts <> Basic -> forall p row, b_lines main = Some p -> row_at p a row -> rs_inlined sym = [] /\ exists code, rs_code_info sym = Some code /\ code_at main p row code)
  | inr reason, _ => z' = inr reason
  | _, _ => False
  end.
Proof.
  intros r opts Hr Hno (z & Hz). exists z. unfold dwarf_find_sym. rewrite Hr, (function_none Hno). cbn [bind]. rewrite Hz. cbn [bind].
  destruct z as [s|reason]; [|eauto]. 
  assert (Hf : exists sym, fill_code_info m srt pick us s a opts None = Ok sym /\
    (rs_name sym = rs_name s /\ rs_addr sym = rs_addr s /\ rs_size sym = rs_size s /\ rs_module sym = rs_module s /\ rs_lang sym = rs_lang s /\
      (opts = Basic -> sym = s) /\
      (no_row main a -> sym = s) /\
      (opts <> Basic -> forall p row, b_lines main = Some p -> row_at p a row -> rs_inlined sym = [] /\ exists code, rs_code_info sym = Some code /\ code_at main p row code))).
  { pose proof Hok as (O1 & O2 & O3 & O4 & O5 & O6). destruct (C79_location m srt pick sc us sets hs a) as (o & Eo); auto; [intros h Hin; now apply O4|].
    unfold fill_code_info. destruct (code_info_opt opts) eqn:Ec; cbn [negb].
    - rewrite Eo. cbn [bind]. destruct o as [loc|].
      + assert (E : (if inlined_fns_opt opts then Ok (to_code_info loc, []) else Ok (to_code_info loc, [])) = Ok (to_code_info loc, @nil inlined_fn)) by now destruct (inlined_fns_opt opts).
        rewrite E. cbn [bind]. eexists. split; [reflexivity|]. cbn [rs_name rs_addr rs_size rs_module rs_lang rs_inlined rs_code_info]. do 5 (split; auto).
        split; [intros ->; discriminate|]. split; [intros Hn; pose proof (location_none Hn); congruence|].
        intros _ p row Hp Hrow. destruct (location_found p row Hp Hrow) as (loc' & E' & Hl'). rewrite Eo in E'. injection E' as <-. split; auto.
        eexists. split; [reflexivity|]. exists loc. split; [exact Hl'|apply to_code_info_ok].
      + exists s. split; [reflexivity|]. do 7 (split; auto). intros _ p row Hp Hrow. destruct (location_found p row Hp Hrow) as (loc' & E' & _). congruence.
    - exists s. split; [reflexivity|]. do 7 (split; auto). intros Hb. destruct opts; cbn in Ec; congruence. }
  destruct Hf as (sym & -> & H). cbn [bind]. exists (inl sym). auto.
Qed.
End Answer.

Lemma no_unit_symbol : forall m srt pick sc us sets hs a r opts, sorter_ok srt -> units_parse m srt pick sc = Ok us -> info_ok sc us sets hs -> a + 1 < two64 ->
  no_unit sets hs a -> dr_units r = us -> forall z, dr_find_sym r a opts = Ok z -> dwarf_find_sym m srt pick r a opts = Ok z.
Proof.
  intros m srt pick sc us sets hs a r opts Hsrt Hus (O1 & O2 & O3 & O4 & O5 & O6) Ha Hno Hr z Hz.
  destruct (C38_consulted m srt pick sc us sets hs a Hsrt Hus O1 O2) as (l & El & H & _); auto; [intros h Hh; now apply O4|].
  assert (l = []) as ->. { destruct l as [|i l]; auto. exfalso. destruct (H i ltac:(now left)) as (h & off & u & K1 & _ & _ & _ & _ & rg & K2 & K3). eapply Hno; eauto. }
  unfold dwarf_find_sym, find_function. rewrite Hr, El. cbn [bind first_in]. rewrite Hz. cbn [bind]. destruct z as [s|]; [|reflexivity].
  unfold fill_code_info, find_location. destruct (negb (code_info_opt opts)); [reflexivity|]. rewrite El. reflexivity.
Qed.
