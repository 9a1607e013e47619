(** * C20-C23, C55: Breakpad symbol files

    The format and the meaning of its records are in [BreakpadSpec]. *)

From Coq Require Import String.
From Verif Require Import Base Util UtilProofs Amap Text Sym Frames Nom Breakpad BreakpadSpec BreakpadProofs
  BreakpadFormat.
Local Open Scope N_scope.

(** ** From records to the parsed file *)
Lemma pairs_perm : forall A (R : A -> A -> Prop) l l', (forall a b, R a b -> R b a) ->
  Permutation l l' -> ForallOrdPairs R l -> ForallOrdPairs R l'.
Proof.
  intros A R l l' Hsym Hp. induction Hp as [|x l l' Hp IH|x y l|l l' l'' H1 IH1 H2 IH2]; intros H; auto.
  - inversion H; subst. constructor; auto. now apply (Permutation_Forall Hp).
  - inversion H as [|? ? Hy Hl]; subst. inversion Hl as [|? ? Hx Hl']; subst.
    inversion Hy as [|? ? Hyx Hyl]; subst. constructor; [constructor|constructor]; auto.
Qed.
Lemma pairs_forall2 : forall A (R : A -> A -> Prop) (S : A -> A -> Prop) l l',
  (forall a b a' b', S a a' -> S b b' -> R a b -> R a' b') ->
  Forall2 S l l' -> ForallOrdPairs R l -> ForallOrdPairs R l'.
Proof.
  intros A R S l l' HS HF. induction HF as [|a a' l l' Ha HF IH]; intros H; [constructor|].
  inversion H as [|? ? Hx Hl]; subst. constructor; auto.
  clear -HS HF Hx Ha. induction HF as [|b b' l l' Hb HF IH]; constructor.
  - inversion Hx; subst. eapply HS; eauto.
  - inversion Hx; subst. auto.
Qed.
Lemma pairs_nth : forall A (R : A -> A -> Prop) l i j a b, ForallOrdPairs R l ->
  (i < j)%nat -> nth_error l i = Some a -> nth_error l j = Some b -> R a b.
Proof.
  intros A R l i j a b H. revert i j. induction H as [|x l HF H IH]; intros i j Hij Ha Hb.
  - destruct i; discriminate.
  - destruct j as [|j]; [lia|]. destruct i as [|i]; cbn in Ha, Hb.
    + injection Ha as ->. rewrite Forall_forall in HF. apply HF. now apply nth_error_In in Hb.
    + apply (IH i j); auto. lia.
Qed.
Lemma overlap_disjoint : forall A (start size : A -> N) l,
  no_overlap (fun addr e => in_range (start e) (size e) addr) l -> disjoint start size l.
Proof.
  intros A start size l H i j a b addr Ha Hb Ca Cb.
  destruct (Nat.lt_trichotomy i j) as [Hlt|[->|Hgt]]; auto; exfalso.
  - apply (pairs_nth _ _ l i j a b H Hlt Ha Hb addr). split; auto.
  - apply (pairs_nth _ _ l j i b a H Hgt Hb Ha addr). split; auto.
Qed.
Lemma apart_disjoint : forall l, inlinees_apart l -> inl_disjoint l.
Proof.
  intros l H i j a b Ha Hb Hd Hc.
  destruct (Nat.lt_trichotomy i j) as [Hlt|[->|Hgt]]; auto; exfalso.
  - destruct (pairs_nth _ _ l i j a b H Hlt Ha Hb Hd). tauto.
  - destruct (pairs_nth _ _ l j i b a H Hgt Hb Ha (eq_sym Hd)). tauto.
Qed.

Section File.
  Variables (rs : list brec) (sf : symbol_file).
  Hypothesis Hd : describes rs sf.
  Hypothesis Hover : no_overlap func_at (functions rs).
  Hypothesis Hfit : Forall (fun f => fn_addr f + fn_size f < 2 ^ 64) (functions rs).

  Lemma file_func : forall f, In f (functions rs) -> exists g, In g (sf_funcs sf) /\ same_func f g.
  Proof using Hd.
    intros f Hf. destruct Hd as (_ & _ & _ & _ & fs & HF & Hp).
    assert (exists g, In g fs /\ same_func f g) as (g & Hg & Hs).
    { clear -Hf HF. induction HF as [|a b l l' Hab HF IH]; [easy|].
      destruct Hf as [<-|Hf]; [exists b; split; [now left|auto]|].
      destruct (IH Hf) as (g & Hg & Hs). exists g. split; [now right|auto]. }
    exists g. split; auto. eapply Permutation_in; eauto.
  Qed.
  Lemma file_func' : forall g, In g (sf_funcs sf) -> exists f, In f (functions rs) /\ same_func f g.
  Proof using Hd.
    intros g Hg. destruct Hd as (_ & _ & _ & _ & fs & HF & Hp).
    apply (Permutation_in _ (Permutation_sym Hp)) in Hg.
    clear -Hg HF. induction HF as [|a b l l' Hab HF IH]; [easy|].
    destruct Hg as [<-|Hg]; [exists a; split; [now left|auto]|].
    destruct (IH Hg) as (f & Hf & Hs). exists f. split; [now right|auto].
  Qed.
  Lemma file_in_space : in_space fn_addr fn_size (sf_funcs sf).
  Proof using Hd Hfit.
    apply Forall_forall. intros g Hg. apply file_func' in Hg. destruct Hg as (f & Hf & E1 & E2 & _).
    rewrite <- E1, <- E2. rewrite Forall_forall in Hfit. now apply Hfit.
  Qed.
  Lemma file_disjoint : disjoint fn_addr fn_size (sf_funcs sf).
  Proof using Hd Hover.
    apply overlap_disjoint. destruct Hd as (_ & _ & _ & _ & fs & HF & Hp).
    apply (pairs_perm _ _ fs); auto.
    { intros a b H addr [H1 H2]. apply (H addr). auto. }
    eapply pairs_forall2; [|exact HF|exact Hover]. cbn.
    intros a b a' b' (A1 & A2 & _) (B1 & B2 & _) H addr. unfold func_at in H. rewrite <- A1, <- A2, <- B1, <- B2. apply H.
  Qed.
  Lemma file_find : forall m f addr, In f (functions rs) -> func_at addr f ->
    exists g, same_func f g /\ In g (sf_funcs sf) /\ find_function m sf addr = Ok (Some g).
  Proof using Hd Hover Hfit.
    intros m f addr Hf Ha. destruct (file_func f Hf) as (g & Hg & Hs). exists g. split; auto. split; auto.
    apply find_covering_disjoint; auto.
    - apply file_in_space.
    - apply Hd.
    - apply file_disjoint.
    - destruct Hs as (E1 & E2 & _). unfold contains. rewrite <- E1, <- E2. exact Ha.
  Qed.
End File.

Lemma lookup_file : forall data rs, is_breakpad data rs ->
  exists sf, from_bytes data = Ok sf /\ describes rs sf.
Proof. intros data rs [He [x ->]]. now apply parse_format. Qed.

(** ** C21: functions *)

(** The function covering an address is found, if functions do not overlap. *)
Theorem C21_found : forall m pick data rs f addr, is_breakpad data rs ->
  no_overlap func_at (functions rs) ->
  Forall (fun f => fn_addr f + fn_size f < 2 ^ 64) (functions rs) ->
  In f (functions rs) -> func_at addr f ->
  breakpad_lookup m pick data addr Basic
  = Ok (inl (ResolvedSym (fn_name f) (module_of rs) (fn_addr f) (Some (fn_size f)) LangUnknown None [])).
Proof.
  intros m pick data rs f addr Hb Hover Hfit Hf Ha.
  destruct (lookup_file data rs Hb) as (sf & E & Hd). unfold breakpad_lookup. rewrite E. cbn [bind].
  unfold find_sym. destruct (file_find rs sf Hd Hover Hfit m f addr Hf Ha) as (g & (E1 & E2 & E3 & _) & _ & ->).
  cbn [bind fill_code_info code_info_opt negb]. destruct Hd as (-> & _). now rewrite E1, E2, E3.
Qed.

(** Any functions: what covers the address and starts closest to it is found;
    nothing is found only if what starts closest does not cover it. *)
Theorem C21_closest : forall m pick data sf addr, from_bytes data = Ok sf ->
  Forall (fun f => fn_addr f + fn_size f < 2 ^ 64) (sf_funcs sf) ->
  exists r, find_sym m pick sf addr Basic = Ok r /\
  match r with
  | inl sym => exists f, In f (sf_funcs sf) /\ func_at addr f /\
      (forall g, In g (sf_funcs sf) -> fn_addr g <= addr -> fn_addr g <= fn_addr f) /\
      sym = ResolvedSym (fn_name f) (sf_module sf) (fn_addr f) (Some (fn_size f)) LangUnknown None []
  | inr reason =>
      (forall f, In f (sf_funcs sf) ->
         (forall g, In g (sf_funcs sf) -> fn_addr g <= addr -> fn_addr g <= fn_addr f) -> ~ func_at addr f) /\
      (reason = MissingSyms <-> sf_funcs sf = []) /\ (reason = UnknownAddr <-> sf_funcs sf <> [])
  end.
Proof.
  intros m pick data sf addr E Hfit. destruct (parsed_sorted data sf E) as [Hs _].
  destruct (find_covering_spec m fn_addr fn_size addr (sf_funcs sf) Hfit Hs) as (r & Er & Hsome & Hnone).
  unfold find_sym, find_function. rewrite Er. cbn [bind]. destruct r as [f|].
  - cbn [fill_code_info code_info_opt negb bind]. eexists. split; [reflexivity|]. cbn iota.
    destruct (Hsome f eq_refl) as [(Hin & Hle & Hmax) Hc]. exists f. auto.
  - eexists. split; [reflexivity|]. cbn iota. split.
    + intros f Hin Hmax Hat. apply (Hnone eq_refl f); [|exact Hat]. split; auto.
      split; [unfold func_at, in_range in Hat; lia|auto].
    + destruct (sf_funcs sf); split; split; congruence.
Qed.

(** Whatever is found covers the address, for every file and all options. *)
Theorem C21_sound : forall m pick data addr opts sym,
  breakpad_lookup m pick data addr opts = Ok (inl sym) ->
  exists sf f, from_bytes data = Ok sf /\ In f (sf_funcs sf) /\ func_at addr f /\
    rs_name sym = fn_name f /\ rs_addr sym = fn_addr f /\ rs_size sym = Some (fn_size f) /\
    rs_module sym = sf_module sf.
Proof.
  intros m pick data addr opts sym H. unfold breakpad_lookup in H. ib H sf E. exists sf. unfold find_sym in H.
  ib H f Ef. destruct f as [f|]; [|discriminate]. exists f. split; auto.
  apply find_covering_sound in Ef. destruct Ef as [Hin Hc]. split; auto. split; [exact Hc|].
  ib H sym' Es. injection H as <-. unfold fill_code_info in Es.
  destruct (negb (code_info_opt opts)); [injection Es as <-; auto|].
  ib Es sl El. destruct sl as [sl|]; [|injection Es as <-; auto].
  ib Es direct Ed. ib Es p Ep. destruct p as [direct' inlined]. injection Es as <-. auto.
Qed.

(** An address no function covers is reported as unknown. *)
Theorem C21_unknown : forall m pick data rs addr opts, is_breakpad data rs ->
  Forall (fun f => fn_addr f + fn_size f < 2 ^ 64) (functions rs) ->
  (forall f, In f (functions rs) -> ~ func_at addr f) ->
  breakpad_lookup m pick data addr opts
  = Ok (inr (match functions rs with [] => MissingSyms | _ => UnknownAddr end)).
Proof.
  intros m pick data rs addr opts Hb Hfit Hno.
  destruct (lookup_file data rs Hb) as (sf & E & Hd). unfold breakpad_lookup. rewrite E. cbn [bind].
  unfold find_sym, find_function.
  destruct (find_covering_spec m fn_addr fn_size addr (sf_funcs sf)) as (r & Er & Hsome & Hnone).
  { now apply (file_in_space rs). }
  { apply Hd. }
  rewrite Er. cbn [bind]. destruct r as [g|].
  - exfalso. destruct (Hsome g eq_refl) as [[Hin _] Hc].
    destruct (file_func' rs sf Hd g Hin) as (f & Hf & E1 & E2 & _). apply (Hno f Hf).
    unfold func_at, in_range. rewrite E1, E2. exact Hc.
  - destruct Hd as (_ & _ & _ & _ & fs & HF & Hp). apply Permutation_length in Hp. apply Forall2_length in HF.
    destruct (sf_funcs sf), (functions rs); cbn in *; auto; lia.
Qed.

(** ** C22: lines and inlined functions *)
Lemma source_location : forall rs sf file line c, describes rs sf -> source_at rs file line c ->
  location sf file line = Ok c.
Proof.
  intros rs sf file line c (_ & Hf & _) (path & dir & name & Ep & Hp & (N1 & N2 & N3) & ->).
  unfold location, find_source_location. rewrite Hf, Ep. cbn [of_option bind].
  destruct Hp as [file0|file0|d file0 D1 D2 D3].
  - rewrite split_file by auto. reflexivity.
  - rewrite split_root by auto. reflexivity.
  - rewrite split_dir by auto. cbn [of_option bind]. now destruct d.
Qed.
Section Code.
  Variables (m : mode) (pick : N -> N -> N) (data : list N) (rs : list brec).
  Hypothesis Hb : is_breakpad data rs.
  Hypothesis Hover : no_overlap func_at (functions rs).
  Hypothesis Hfit : Forall fits (functions rs).

  Lemma lookup_at : forall f addr opts, In f (functions rs) -> func_at addr f ->
    exists sf g, describes rs sf /\ same_func f g /\
      breakpad_lookup m pick data addr opts
      = let* sym := fill_code_info m pick sf
          (ResolvedSym (fn_name f) (module_of rs) (fn_addr f) (Some (fn_size f)) LangUnknown None [])
          addr opts g in Ok (inl sym).
  Proof using Hb Hover Hfit.
    intros f addr opts Hf Ha. destruct (lookup_file data rs Hb) as (sf & E & Hd). exists sf.
    assert (Hfit' : Forall (fun f => fn_addr f + fn_size f < 2 ^ 64) (functions rs)).
    { eapply Forall_impl; [|exact Hfit]. intros x Hx. apply Hx. }
    destruct (file_find rs sf Hd Hover Hfit' m f addr Hf Ha) as (g & Hs & Hin & Eg).
    exists g. split; auto. split; auto. unfold breakpad_lookup. rewrite E. cbn [bind]. unfold find_sym. rewrite Eg.
    destruct Hs as (E1 & E2 & E3 & _). destruct Hd as (-> & _). now rewrite E1, E2, E3.
  Qed.
  Lemma func_line_at : forall f g addr l, same_func f g -> fits f -> no_overlap line_at (fn_lines f) ->
    In l (fn_lines f) -> line_at addr l -> find_line m g addr = Ok (Some l).
  Proof using.
    intros f g addr l (_ & _ & _ & Hp & Hs & _) (_ & Hfl & _) Hno Hin Hat.
    apply find_covering_disjoint; auto.
    - unfold in_space. now apply (Permutation_Forall Hp).
    - apply overlap_disjoint. eapply pairs_perm; [|exact Hp|exact Hno].
      intros a b H x [H1 H2]. apply (H x). auto.
    - eapply Permutation_in; eauto.
  Qed.
  Lemma func_no_line : forall f g addr, same_func f g -> fits f ->
    (forall l, In l (fn_lines f) -> ~ line_at addr l) -> find_line m g addr = Ok None.
  Proof using.
    intros f g addr (_ & _ & _ & Hp & Hs & _) (_ & Hfl & _) Hno.
    destruct (find_covering_spec m sl_addr sl_size addr (fn_lines g)) as (r & Er & Hsome & _).
    { unfold in_space. now apply (Permutation_Forall Hp). }
    { exact Hs. }
    unfold find_line. rewrite Er. destruct r as [l|]; auto. exfalso.
    destruct (Hsome l eq_refl) as [[Hin _] Hc]. apply (Hno l).
    - eapply Permutation_in; [symmetry; exact Hp|auto].
    - exact Hc.
  Qed.

  (** The line record covering the address gives the location. *)
  Theorem C22_line : forall f addr l c, In f (functions rs) -> func_at addr f ->
    no_overlap line_at (fn_lines f) -> In l (fn_lines f) -> line_at addr l ->
    source_at rs (sl_file l) (sl_line l) c ->
    breakpad_lookup m pick data addr WithCode
    = Ok (inl (ResolvedSym (fn_name f) (module_of rs) (fn_addr f) (Some (fn_size f)) LangUnknown (Some c) [])).
  Proof using Hb Hover Hfit.
    intros f addr l c Hf Ha Hno Hl Hla Hc.
    destruct (lookup_at f addr WithCode Hf Ha) as (sf & g & Hd & Hs & ->).
    assert (Hff : fits f) by (rewrite Forall_forall in Hfit; auto).
    unfold fill_code_info. cbn [code_info_opt negb].
    rewrite (func_line_at f g addr l Hs Hff Hno Hl Hla). cbn [bind].
    rewrite (source_location rs sf _ _ c Hd Hc). reflexivity.
  Qed.

  (** Without a line record there is no location and no inlined function. *)
  Theorem C22_no_line : forall f addr opts, In f (functions rs) -> func_at addr f ->
    (forall l, In l (fn_lines f) -> ~ line_at addr l) ->
    breakpad_lookup m pick data addr opts
    = Ok (inl (ResolvedSym (fn_name f) (module_of rs) (fn_addr f) (Some (fn_size f)) LangUnknown None [])).
  Proof using Hb Hover Hfit.
    intros f addr opts Hf Ha Hno.
    destruct (lookup_at f addr opts Hf Ha) as (sf & g & Hd & Hs & ->).
    assert (Hff : fits f) by (rewrite Forall_forall in Hfit; auto).
    unfold fill_code_info. destruct (negb (code_info_opt opts)); [reflexivity|].
    rewrite (func_no_line f g addr Hs Hff Hno). reflexivity.
  Qed.

  (** The inlined functions are those of the records covering the address at
      consecutive depths from zero; each frame shows the location executing
      in it: the call site of the next one, or the line of the address. *)
  Theorem C22_inlined : forall f addr l loc calls names sites, In f (functions rs) -> func_at addr f ->
    no_overlap line_at (fn_lines f) -> In l (fn_lines f) -> line_at addr l ->
    source_at rs (sl_file l) (sl_line l) loc ->
    inlinees_apart (fn_inlinees f) -> nlen (fn_inlinees f) < 2 ^ 32 ->
    inlined_at f addr calls ->
    Forall2 (fun i n => origin_of (in_origin i) rs = Some n) calls names ->
    Forall2 (fun i c => source_at rs (in_file i) (in_line i) c) calls sites ->
    exists sym, breakpad_lookup m pick data addr WithInlined = Ok (inl sym) /\
      rs_name sym = fn_name f /\ rs_module sym = module_of rs /\ rs_addr sym = fn_addr f /\ rs_size sym = Some (fn_size f) /\
      rs_lang sym = LangUnknown /\ map if_name (rs_inlined sym) = names /\
      frame_locs (Some loc) (map Some sites) (rs_code_info sym :: map if_code_info (rs_inlined sym)).
  Proof using Hb Hover Hfit.
    intros f addr l loc calls names sites Hf Ha Hno Hl Hla Hc Hap Hlen [Hcalls Hend] Hn Hst.
    destruct (lookup_at f addr WithInlined Hf Ha) as (sf & g & Hd & Hs & ->).
    assert (Hff : fits f) by (rewrite Forall_forall in Hfit; auto).
    unfold fill_code_info. cbn [code_info_opt negb].
    rewrite (func_line_at f g addr l Hs Hff Hno Hl Hla). cbn [bind].
    rewrite (source_location rs sf _ _ loc Hd Hc). cbn [bind inlined_fns_opt].
    destruct Hs as (_ & _ & _ & _ & _ & Hp & Hsi). destruct Hff as (_ & _ & Hfi).
    rewrite (chain_found pick g addr calls).
    - cbn [bind]. rewrite (add_inlinees_all sf calls names sites).
      + cbn [bind]. eexists. split; [reflexivity|]. cbn [rs_name rs_addr rs_size rs_inlined rs_code_info].
        assert (El : List.length names = List.length sites)
          by (apply Forall2_length in Hn, Hst; congruence).
        repeat (split; [reflexivity|]). split; [now apply shift_names|now apply shift_locs].
      + eapply Forall2_impl; [|exact Hn]. intros i n Hi. unfold find_inlinee_name.
        destruct Hd as (_ & _ & -> & _). now rewrite Hi.
      + eapply Forall2_impl; [|exact Hst]. intros i c Hi. now apply (source_location rs).
    - exact Hsi.
    - unfold nlen in *. now rewrite <- (Permutation_length Hp).
    - now apply (Permutation_Forall Hp).
    - apply apart_disjoint. eapply pairs_perm; [|exact Hp|exact Hap]. cbn.
      intros a b H E. symmetry in E. destruct (H E). tauto.
    - intros k i Hk. destruct (Hcalls k i Hk) as [H1 H2]. split; [eapply Permutation_in; eauto|exact H2].
    - intros i Hi. apply Hend. eapply Permutation_in; [symmetry; exact Hp|auto].
  Qed.
End Code.

(** ** C23: parsing *)

(** Parsing well formed records yields exactly those, sorted by address. *)
Theorem C23_records : forall data rs, is_breakpad data rs ->
  exists sf, from_bytes data = Ok sf /\ describes rs sf.
Proof. exact lookup_file. Qed.

(** The order of functions does not matter for lookups. *)
Theorem C23_order : forall data data' rs rs', is_breakpad data rs -> is_breakpad data' rs' ->
  Permutation (functions rs) (functions rs') -> module_of rs = module_of rs' ->
  no_overlap func_at (functions rs) ->
  Forall (fun f => fn_addr f + fn_size f < 2 ^ 64) (functions rs) ->
  forall m pick addr, breakpad_lookup m pick data addr Basic = breakpad_lookup m pick data' addr Basic.
Proof.
  intros data data' rs rs' H H' Hp Hmod Hno Hfit m pick addr.
  assert (Hno' : no_overlap func_at (functions rs')).
  { eapply pairs_perm; [|exact Hp|exact Hno]. intros a b Hab x [H1 H2]. apply (Hab x). auto. }
  assert (Hfit' : Forall (fun f => fn_addr f + fn_size f < 2 ^ 64) (functions rs'))
    by (now apply (Permutation_Forall Hp)).
  assert (Hdec : forall l : list func, (exists f, In f l /\ func_at addr f) \/ (forall f, In f l -> ~ func_at addr f)).
  { induction l as [|f l IH]; [right; easy|]. destruct IH as [(g & Hg & Ha)|IH]; [left; exists g; split; [now right|auto]|].
    assert (Hf : func_at addr f \/ ~ func_at addr f) by (unfold func_at, in_range; lia).
    destruct Hf as [Hf|Hf]; [left; exists f; split; [now left|auto]|right].
    intros g [<-|Hg]; auto. }
  destruct (Hdec (functions rs)) as [(f & Hf & Ha)|Hn].
  - rewrite (C21_found m pick data rs f), (C21_found m pick data' rs' f); auto; [now rewrite Hmod|].
    eapply Permutation_in; eauto.
  - rewrite (C21_unknown m pick data rs), (C21_unknown m pick data' rs'); auto.
    + apply Permutation_length in Hp. destruct (functions rs), (functions rs'); auto; discriminate.
    + intros f Hf. apply Hn. eapply Permutation_in; [symmetry; exact Hp|auto].
Qed.

(** Parsing arbitrary bytes terminates with a result or an error. *)
Theorem C23_terminates : forall data,
  (exists sf, from_bytes data = Ok sf) \/ (exists e, from_bytes data = Err e).
Proof.
  intros data. pose proof (parse_terminates data) as H. destruct (from_bytes data); [eauto|eauto|easy|easy].
Qed.
(** Whatever is parsed is sorted. *)
Theorem C23_sorted : forall data sf, from_bytes data = Ok sf ->
  funcs_sorted (sf_funcs sf) /\
  Forall (fun f => lines_sorted (fn_lines f) /\ inlinees_sorted (fn_inlinees f)) (sf_funcs sf).
Proof. exact parsed_sorted. Qed.

(** ** C55: names *)
Theorem C55_names : forall data sf name, from_bytes data = Ok sf ->
  (forall f, In f (find_addr sf name) <-> In f (sf_funcs sf) /\ fn_name f = name) /\
  Permutation (find_addr sf name) (filter (fun f => beq (fn_name f) name) (sf_funcs sf)) /\
  StronglySorted (fun a b => fn_addr a <= fn_addr b) (find_addr sf name).
Proof.
  intros data sf name _. destruct (find_addr_spec sf name) as [H1 H2]. split; [|split; auto].
  intros f. split.
  - intros Hf. apply (Permutation_in _ H1) in Hf. apply filter_In in Hf. rewrite beq_eq in Hf. exact Hf.
  - intros Hf. apply (Permutation_in _ (Permutation_sym H1)). apply filter_In. rewrite beq_eq. exact Hf.
Qed.
(** Iteration reports every function exactly once, in address order. *)
Theorem C55_for_each : forall data rs, is_breakpad data rs ->
  exists sf, from_bytes data = Ok sf /\
    Permutation (map (fun f => (fn_name f, fn_addr f, fn_size f)) (functions rs))
                (map (fun f => (fn_name f, fn_addr f, fn_size f)) (for_each sf)) /\
    StronglySorted (fun a b => fn_addr a <= fn_addr b) (for_each sf).
Proof.
  intros data rs Hb. destruct (lookup_file data rs Hb) as (sf & E & Hd). exists sf. split; auto.
  destruct Hd as (_ & _ & _ & Hs & fs & HF & Hp). split.
  - apply (Permutation_map (fun f => (fn_name f, fn_addr f, fn_size f))) in Hp.
    etransitivity; [|exact Hp].
    assert (E2 : map (fun f => (fn_name f, fn_addr f, fn_size f)) (functions rs) =
                 map (fun f => (fn_name f, fn_addr f, fn_size f)) fs).
    { clear -HF. induction HF as [|a b l l' (E1 & E2 & E3 & _) HF IH]; cbn; auto. now rewrite E1, E2, E3, IH. }
    now rewrite E2.
  - eapply SS_impl; [|exact Hs]. cbn. lia.
Qed.

(** ** Examples *)
Definition ex_text : list N := bs "MODULE Linux x86 ff bar
FILE 1 src/a.c

FUNC 1000 30 0 f
1000 30 7 1
INLINE 0 9 1 3 1000 10 1020 4
INLINE_ORIGIN 3 g
FUNC m 2000 10 0 h
".
Definition ex_records : list brec :=
  [RModule (bs "Linux") (bs "x86") (bs "ff") (bs "bar"); RFile 1 (bs "src/a.c");
   RFunc false 4096 48 0 (bs "f"); RLine 4096 48 7 1; RInline 0 9 1 3 [(4096, 16); (4128, 4)];
   ROrigin 3 (bs "g"); RFunc true 8192 16 0 (bs "h")].
Lemma ascii_name : forall s, Forall line_char s -> starts_black s -> Forall (fun b => b < 128) s -> name_text s.
Proof.
  intros s H1 H2 H3. split; auto. split; auto. apply utf8_valid_iff.
  clear -H3. induction H3 as [|b s Hb H3 IH]; [reflexivity|]. cbn [utf8_valid].
  destruct (N.ltb_spec b 128); [exact IH|lia].
Qed.
Ltac sep1 := exists []; split; [reflexivity|constructor].
Ltac eol1 := exists 0%nat; reflexivity.
Ltac all_chars := repeat (constructor; [first [split; discriminate | discriminate | reflexivity]|]); constructor.
Ltac word1 := split; [discriminate|split; [intros [? | ?]; discriminate|all_chars]].
Ltac name1 := apply ascii_name; [all_chars|intros [? | ?]; discriminate|all_chars].
Ltac hexd := first [left; split; [split; discriminate|reflexivity] | right; left; split; [split; discriminate|reflexivity]
  | right; right; split; [split; discriminate|reflexivity]].
Ltac hex1 ds := exists ds; split; [repeat (constructor; [hexd|]); constructor|split; [cbn; lia|reflexivity]].
Ltac dec1 ds := split; [exists ds; split; [repeat (constructor; [split; [split; discriminate|reflexivity]|]); constructor|split; [cbn; lia|reflexivity]]|reflexivity].
Example C23_example : is_breakpad ex_text ex_records.
Proof.
  split; [|exists (removelast ex_text); reflexivity].
  change ex_text with (
    (bs "MODULE" ++ [32] ++ bs "Linux" ++ [32] ++ bs "x86" ++ [32] ++ bs "ff" ++ [32] ++ bs "bar" ++ [10]) ++ [] ++
    (bs "FILE" ++ [32] ++ bs "1" ++ [32] ++ bs "src/a.c" ++ [10]) ++ [10] ++
    (bs "FUNC" ++ [32] ++ [] ++ bs "1000" ++ [32] ++ bs "30" ++ [32] ++ bs "0" ++ [32] ++ bs "f" ++ [10]) ++ [] ++
    (bs "1000" ++ [32] ++ bs "30" ++ [32] ++ bs "7" ++ [32] ++ bs "1" ++ [10]) ++ [] ++
    (bs "INLINE" ++ [32] ++ bs "0" ++ [32] ++ bs "9" ++ [32] ++ bs "1" ++ [32] ++ bs "3" ++ [32] ++
       (bs "1000" ++ [32] ++ bs "10" ++ [32] ++ (bs "1020" ++ [32] ++ bs "4")) ++ [10]) ++ [] ++
    (bs "INLINE_ORIGIN" ++ [32] ++ bs "3" ++ [32] ++ bs "g" ++ [10]) ++ [] ++
    (bs "FUNC" ++ [32] ++ bs "m " ++ bs "2000" ++ [32] ++ bs "10" ++ [32] ++ bs "0" ++ [32] ++ bs "h" ++ [10]) ++ [] ++ []).
  unfold ex_records.
  constructor; [reflexivity| |constructor|reflexivity|].
  { constructor; try sep1; try eol1; try word1; [all_chars|intros [? | ?]; discriminate]. }
  constructor; [exact I| |constructor; [unfold white; auto|constructor]|discriminate|].
  { constructor; try sep1; try eol1; [dec1 [1]|name1]. }
  constructor; [exact I| |constructor|discriminate|].
  { constructor; try sep1; try eol1; [reflexivity|hex1 [1;0;0;0]|hex1 [3;0]|hex1 [0]|name1]. }
  constructor; [reflexivity| |constructor|reflexivity|].
  { constructor; try sep1; try eol1; [hex1 [1;0;0;0]|hex1 [3;0]|dec1 [7]|dec1 [1]]. }
  constructor; [reflexivity| |constructor|reflexivity|].
  { constructor; try sep1; try eol1; [dec1 [0]|dec1 [9]|dec1 [1]|dec1 [3]|].
    apply EncRC; try sep1; [hex1 [1;0;0;0]|hex1 [1;0]|]. apply EncR1; try sep1; [hex1 [1;0;2;0]|hex1 [4]]. }
  constructor; [exact I| |constructor|reflexivity|].
  { constructor; try sep1; try eol1; [dec1 [3]|name1]. }
  constructor; [exact I| |constructor|discriminate|constructor].
  { constructor; try sep1; try eol1; [exists [32]; split; [sep1|reflexivity]|hex1 [2;0;0;0]|hex1 [1;0]|hex1 [0]|name1]. }
Qed.
Example C21_example : In (Func 8192 16 (bs "h") [] []) (functions ex_records) /\
  no_overlap func_at (functions ex_records) /\
  breakpad_lookup Checked (fun _ _ => 0) ex_text 8200 Basic
  = Ok (inl (ResolvedSym (bs "h") (Some (bs "bar")) 8192 (Some 16) LangUnknown None [])) /\
  breakpad_lookup Checked (fun _ _ => 0) ex_text 8208 Basic = Ok (inr UnknownAddr).
Proof.
  split; [cbn; auto|]. split; [|split; vm_compute; reflexivity].
  constructor; [constructor; [|constructor]|constructor; [constructor|constructor]].
  intros addr [H1 H2]. unfold func_at, in_range in *. cbn in *. lia.
Qed.
Example C22_example :
  inlined_at (hd (Func 0 0 [] [] []) (functions ex_records)) 4104 [Inlinee 0 4096 16 1 9 3] /\
  breakpad_lookup Checked (fun _ _ => 0) ex_text 4104 WithInlined
  = Ok (inl (ResolvedSym (bs "f") (Some (bs "bar")) 4096 (Some 48) LangUnknown
         (Some (CodeInfo (Some (bs "src")) (bs "a.c") (Some 9) None))
         [InlinedFn (bs "g") (Some (CodeInfo (Some (bs "src")) (bs "a.c") (Some 7) None))])).
Proof.
  split; [|vm_compute; reflexivity]. split.
  - intros [|[|k]] i Hi; try discriminate. injection Hi as <-. split; [cbn; auto|].
    unfold inlinee_at. cbn. lia.
  - intros i Hi [H _]. cbn in Hi. destruct Hi as [<-|[<-|[]]]; discriminate.
Qed.
Example C55_example : exists sf, from_bytes ex_text = Ok sf /\
  map fn_addr (find_addr sf (bs "h")) = [8192] /\ find_addr sf (bs "g") = [] /\
  map fn_name (for_each sf) = [bs "f"; bs "h"].
Proof. eexists. vm_compute. repeat split; reflexivity. Qed.

(** ** What does not hold *)

(** A function around another one is not found for addresses behind the inner
    one. *)
Theorem C21_nested_refuted : exists data sf f addr, from_bytes data = Ok sf /\ In f (sf_funcs sf) /\
  func_at addr f /\ forall m pick, breakpad_lookup m pick data addr Basic = Ok (inr UnknownAddr).
Proof.
  set (data := bs "FUNC 1000 100 0 outer
FUNC 1010 10 0 inner
").
  exists data, (SymbolFile None [] [Func 4096 256 (bs "outer") [] []; Func 4112 16 (bs "inner") [] []] []),
    (Func 4096 256 (bs "outer") [] []), 4200.
  split; [vm_compute; reflexivity|]. split; [now left|]. split.
  - left. cbn. lia.
  - intros m pick. assert (E : from_bytes data =
      Ok (SymbolFile None [] [Func 4096 256 (bs "outer") [] []; Func 4112 16 (bs "inner") [] []] []))
      by (vm_compute; reflexivity).
    unfold breakpad_lookup. rewrite E. cbn [bind]. clear E. destruct m; vm_compute; reflexivity.
Qed.
(** A function at the end of the address space: a panic with overflow checks,
    not found without. *)
Theorem C21_overflow_refuted : exists data sf f addr, from_bytes data = Ok sf /\ In f (sf_funcs sf) /\
  func_at addr f /\ addr < 2 ^ 64 /\ forall pick,
  breakpad_lookup Checked pick data addr Basic = Panic /\
  breakpad_lookup Wrapping pick data addr Basic = Ok (inr UnknownAddr).
Proof.
  set (data := bs "FUNC ffffffffffffff00 100 0 f
").
  exists data, (SymbolFile None [] [Func 18446744073709551360 256 (bs "f") [] []] []),
    (Func 18446744073709551360 256 (bs "f") [] []), 18446744073709551600.
  split; [vm_compute; reflexivity|]. split; [now left|]. split; [left; cbn; lia|].
  split; [reflexivity|]. intros pick.
  assert (E : from_bytes data = Ok (SymbolFile None [] [Func 18446744073709551360 256 (bs "f") [] []] []))
    by (vm_compute; reflexivity).
  unfold breakpad_lookup. rewrite E. cbn [bind]. clear E. split; vm_compute; reflexivity.
Qed.
(** Inlined calls are only reported together with a line record. *)
Theorem C22_inline_only_refuted : exists data sf f i addr, from_bytes data = Ok sf /\ In f (sf_funcs sf) /\
  func_at addr f /\ In i (fn_inlinees f) /\ inlinee_at 0 addr i /\
  forall m pick, exists sym, breakpad_lookup m pick data addr WithInlined = Ok (inl sym) /\ rs_inlined sym = [].
Proof.
  set (data := bs "FILE 1 a.c
INLINE_ORIGIN 3 g
FUNC 1000 100 0 f
INLINE 0 9 1 3 1000 10
").
  set (f := Func 4096 256 (bs "f") [] [Inlinee 0 4096 16 1 9 3]).
  exists data, (SymbolFile None [(1, bs "a.c")] [f] [(3, bs "g")]), f, (Inlinee 0 4096 16 1 9 3), 4100.
  assert (E : from_bytes data = Ok (SymbolFile None [(1, bs "a.c")] [f] [(3, bs "g")]))
    by (vm_compute; reflexivity).
  split; [exact E|]. split; [now left|]. split; [left; cbn; lia|]. split; [now left|].
  split; [split; [reflexivity|cbn; lia]|]. intros m pick. unfold breakpad_lookup. rewrite E. cbn [bind]. clear E.
  eexists. split; [destruct m; vm_compute; reflexivity|reflexivity].
Qed.
(** Of overlapping calls at one depth the covering one may be missed. *)
Theorem C22_overlap_refuted : exists data sf f i addr, from_bytes data = Ok sf /\ In f (sf_funcs sf) /\
  func_at addr f /\ In i (fn_inlinees f) /\ inlinee_at 0 addr i /\
  forall m pick, exists sym, breakpad_lookup m pick data addr WithInlined = Ok (inl sym) /\
    rs_code_info sym <> None /\ rs_inlined sym = [].
Proof.
  set (data := bs "FILE 1 a.c
INLINE_ORIGIN 3 g
FUNC 1000 100 0 f
1000 100 7 1
INLINE 0 9 1 3 1000 80
INLINE 0 9 1 3 1010 10
").
  set (f := Func 4096 256 (bs "f") [SourceLine 4096 256 1 7] [Inlinee 0 4096 128 1 9 3; Inlinee 0 4112 16 1 9 3]).
  exists data, (SymbolFile None [(1, bs "a.c")] [f] [(3, bs "g")]), f, (Inlinee 0 4096 128 1 9 3), 4200.
  assert (E : from_bytes data = Ok (SymbolFile None [(1, bs "a.c")] [f] [(3, bs "g")]))
    by (vm_compute; reflexivity).
  split; [exact E|]. split; [now left|]. split; [left; cbn; lia|]. split; [now left|].
  split; [split; [reflexivity|cbn; lia]|]. intros m pick. unfold breakpad_lookup. rewrite E. cbn [bind]. clear E.
  eexists. split; [destruct m; vm_compute; reflexivity|]. split; [discriminate|reflexivity].
Qed.
(** A blank line between the lines of a function makes the file invalid, while
    it is fine elsewhere. *)
Theorem C23_blank_refuted : exists a b, (exists sf, from_bytes (a ++ b) = Ok sf) /\
  (exists sf, from_bytes ([10] ++ a ++ b) = Ok sf \/ from_bytes (a ++ b ++ [10]) = Ok sf) /\
  from_bytes (a ++ [10] ++ b) = Err EInvalidInput.
Proof.
  exists (bs "FUNC 1000 100 0 f
1000 8 7 1
"), (bs "1008 8 8 1
FUNC 2000 100 0 f
").
  split; [eexists; vm_compute; reflexivity|]. split; [eexists; right; vm_compute; reflexivity|].
  vm_compute. reflexivity.
Qed.

Print Assumptions C21_found.
Print Assumptions C21_closest.
Print Assumptions C21_sound.
Print Assumptions C21_unknown.
Print Assumptions C21_nested_refuted.
Print Assumptions C21_overflow_refuted.
Print Assumptions C22_line.
Print Assumptions C22_no_line.
Print Assumptions C22_inlined.
Print Assumptions C22_inline_only_refuted.
Print Assumptions C22_overlap_refuted.
Print Assumptions C23_records.
Print Assumptions C23_order.
Print Assumptions C23_terminates.
Print Assumptions C23_sorted.
Print Assumptions C23_blank_refuted.
Print Assumptions C55_names.
Print Assumptions C55_for_each.
