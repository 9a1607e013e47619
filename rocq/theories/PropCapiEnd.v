(** * C78: what C programs get for addresses, from the contents of files *)

From Coq Require Import ZArith.
From Verif Require Import CapiIn CapiSpec CapiOut CapiCalls CapiCallsSpec CapiEnd CapiEndSpec PropCapiIn PropCapiOut PropCapiCalls.
From Verif Require Import Base Util UtilProofs Bytes Sym Frames Elf ElfSpec FileCache Symbolizer SymbolizerSpec SymbolizerState
  HistorySpec SymHistorySpec Host HostSpec HostUserSpec PropHost PropHostUser.
From Verif Require GsymSpec PerfSpec PerfMap Demangle.
Local Open Scope N_scope.
Local Notation length := List.length.

(** ** Numbers in results are of their types *)

Lemma answer_ok : forall cf name module addr value size, value <= addr -> addr < two64 -> result_ok (answer cf name module addr value size).
Proof. intros cf name module addr value size H1 H2. repeat split; cbn [sy_addr sy_offset]; unfold two64 in *; try lia. constructor. Qed.
Lemma elf_ok : forall cf module st dt addr r, addr < two64 -> elf_answer cf module st dt addr r -> result_ok r.
Proof.
  intros cf module st dt addr r Ha [(s & Hc & n & _ & ->)|[(_ & s & Hc & n & _ & ->)|(_ & _ & ->)]]; try exact I;
    (apply answer_ok; [|exact Ha]; destruct Hc as (_ & _ & _ & _ & (Hv & _) & _); exact Hv).
Qed.
Lemma offset_ok : forall cf module e st dt off r, segments_ok e -> elf_offset_answer cf module e st dt off r -> result_ok r.
Proof.
  intros cf module e st dt off r Hs [(p & Hl & Hi & H)|[_ ->]]; [|exact I]. eapply elf_ok; [|exact H].
  destruct (Hs p Hl) as (H1 & H2). unfold in_file in Hi. lia.
Qed.
Lemma object_ok : forall x cf module ptr data off P r, object_describes x cf module ptr data off P -> P r -> result_ok r.
Proof. intros x cf module ptr data off P r [e st dt (_ & Hs & _)] H. eapply offset_ok; eauto. Qed.
Lemma archive_ok : forall x cf module ptr data off P r, archive_describes x cf module ptr data off P -> P r -> result_ok r.
Proof. intros x cf module ptr data off P r [rs1 c rs2 name start contents P1 _ _ _ _ H|rs _ _] H1; [eapply object_ok; eauto|]. subst r. exact I. Qed.

Definition small (c : code_info) : Prop := opt_lt (2 ^ 32) (ci_line c) /\ opt_lt (2 ^ 16) (ci_column c).
Lemma frames_ok : forall loc sites l, frame_locs (Some loc) (map Some sites) l -> small loc -> Forall small sites -> Forall opt_code_ok l.
Proof.
  intros loc sites l (H1 & H2 & H3) Hl Hs. apply Forall_forall. intros c Hc. apply In_nth_error in Hc. destruct Hc as (i & Hi).
  rewrite map_length in *. assert (L : (i < length l)%nat) by (apply nth_error_Some; congruence).
  destruct (Nat.eq_dec i (length sites)) as [->|Hne]; [rewrite Hi in H3; injection H3 as ->; exact Hl|].
  destruct (nth_error sites i) as [s|] eqn:E; [|apply nth_error_None in E; lia].
  assert (E' : nth_error (map Some sites) i = Some (Some s)) by now rewrite nth_error_map, E.
  rewrite (H2 i _ E') in Hi. injection Hi as <-. rewrite Forall_forall in Hs. apply Hs. eapply nth_error_In; eauto.
Qed.
Lemma framed_ok : forall cf name module addr start size loc names sites r, framed cf name module addr start size loc names sites r ->
  start <= addr -> addr < two64 -> small loc -> Forall small sites -> result_ok r.
Proof.
  intros cf name module addr start size loc names sites r (y & -> & _ & _ & Ea & Eo & _ & _ & Hf) H1 H2 Hl Hs.
  pose proof (frames_ok _ _ _ Hf Hl Hs) as F. inversion F as [|? ? F1 F2]; subst. unfold two64 in *. split; [lia|]. split; [lia|]. split; [exact F1|].
  apply Forall_forall. intros f Hf'. rewrite Forall_forall in F2. apply F2. now apply in_map.
Qed.

Section Gsym.
  Import GsymSpec.
  Lemma fit_rows : forall h ops s, states_fit h s ops -> Forall (fun r => (0 <= ls_line r < 2 ^ 31)%Z) (rows h s ops).
  Proof.
    intros h ops. induction ops as [|o ops IH]; intros s Hx; [constructor|]. cbn [rows]. destruct Hx as (_ & Hs & Hf).
    assert (Ho : (0 <= ls_line (step_op h s o) < 2 ^ 31)%Z) by (destruct ops; exact (proj1 (proj2 Hf))).
    destruct (emits o); [constructor|]; auto.
  Qed.
  Lemma row_line : forall start addr infos r, Forall (info_ok start) infos -> row_of start addr infos r -> Z.to_N (ls_line r) < 2 ^ 32.
  Proof.
    intros start addr infos r HF (pre & h & ops & post & -> & (i & Hi & _) & _).
    apply Forall_app in HF. destruct HF as (_ & HF). inversion HF as [|? ? H0 _]; subst. destruct H0 as (_ & Hs & _).
    pose proof (fit_rows h ops _ Hs) as F. rewrite Forall_forall in F. specialize (F r (nth_error_In _ _ Hi)). cbv beta in F. lia.
  Qed.
  Lemma loc_small : forall d file line ci, loc_at d file line ci -> line < 2 ^ 32 -> small ci.
  Proof. intros d file line ci (a & b & dir & name & _ & _ & _ & ->) H. split; [exact H|exact I]. Qed.

  Scheme tree_ind' := Induction for enc_tree Sort Prop with forest_ind' := Induction for enc_forest Sort Prop.
  Lemma tree_lines : forall t b, enc_tree t b -> forall base addr, Forall (fun c => c_line c < 2 ^ 32) (tree_chain base addr t).
  Proof.
    apply (tree_ind' (fun t b _ => forall base addr, Forall (fun c => c_line c < 2 ^ 32) (tree_chain base addr t))
             (fun f b _ => forall base addr, Forall (fun c => c_line c < 2 ^ 32) (forest_chain base addr f))).
    - intros ranges name file line b1 b2 b3 b4 _ _ _ _ _ Hl _ _ base addr. cbn [tree_chain forest_chain].
      destruct (covered base addr ranges); [|constructor]. rewrite app_nil_r. destruct (name =? 0); repeat constructor. exact Hl.
    - intros ranges name file line kids b1 b2 flag b3 b4 b5 _ _ _ _ _ _ Hl _ _ _ IH base addr. cbn [tree_chain].
      destruct (covered base addr ranges); [|constructor]. apply Forall_app. split; [destruct (name =? 0); repeat constructor; exact Hl|apply IH].
    - intros b _ base addr. constructor.
    - intros t f b bs _ IH1 _ IH2 base addr. cbn [forest_chain]. apply Forall_app. split; auto.
  Qed.
  Lemma chain_lines : forall infos b, enc_infos infos b -> forall start addr, Forall (fun c => c_line c < 2 ^ 32) (chain_of start addr infos).
  Proof.
    intros infos b H start addr. induction H as [|i l b bs Hi Hl IH]; [constructor|]. cbn [chain_of].
    destruct Hi as [h ops b0 _ _|t b0 j Ht _|typ b0 _ _]; auto.
    pose proof (tree_lines t b0 Ht start addr) as F. destruct (tree_chain start addr t); auto.
  Qed.
  Lemma gsym_small : forall cf ptr data d addr P r, gsym_ok ptr data d -> gsym_describes cf d addr P -> addr < two64 -> P r -> result_ok r.
  Proof.
    intros cf ptr data d addr P r (Hg & _ & _ & _) [Hno|f name (Hn & _) _|f name loc (Hn & _) Hi (row & Hr & Hl) _|f name loc root calls rname names sites (Hn & _) Hi (row & Hr & Hl) _ Hch _ _ Hs] Ha HP.
    - subst r. exact I.
    - subst r. apply answer_ok; [exact (proj1 (proj2 Hn))|exact Ha].
    - eapply framed_ok; [exact HP|exact (proj1 (proj2 Hn))|exact Ha| |constructor]. eapply loc_small; [exact Hl|]. eapply row_line; eauto.
    - eapply framed_ok; [exact HP|exact (proj1 (proj2 Hn))|exact Ha| |].
      + eapply loc_small; [exact Hl|]. eapply row_line; eauto.
      + destruct Hg as (_ & _ & _ & _ & _ & _ & _ & _ & _ & _ & _ & Hf). rewrite Forall_forall in Hf. destruct (Hf f (proj1 Hn)) as (b & Hb & _).
        pose proof (chain_lines _ _ Hb (gf_base d + f_start f) addr) as F. rewrite Hch in F. inversion F as [|? ? _ F1]; subst. clear - F1 Hs.
        induction Hs as [|c s calls sites H _ IH]; [constructor|]. inversion F1; subst. constructor; [eapply loc_small; eauto|auto].
  Qed.
End Gsym.

Lemma described_ok : forall x h cf src k a P r, describes x h cf src k a P -> (forall p, src <> SBreakpad p) -> a < two64 -> P r -> result_ok r.
Proof.
  intros x h cf src k a P r [p ptr data e st dt addr _ _ _|p ptr data off P0 _ _ H|p ptr data off P0 _ _ H|p ptr data d addr P0 _ Hg H|data d addr P0 Hg H|p ptr data rs addr P0 _ _ _|p o vs a0 P0 _ _ _ H] Hb Ha HP.
  - eapply elf_ok; eauto.
  - eapply object_ok; eauto.
  - eapply archive_ok; eauto.
  - eapply gsym_small; eauto.
  - eapply gsym_small; eauto.
  - exfalso. exact (Hb (path_of p) eq_refl).
  - destruct H as [v q ptr data P1 _ _ _ _ _ [[_ H]|[_ H]]|v start data P1 _ _ _ _ _ H|v ptr data es f _ _ _ _ _ _ _ _ _ Hf|_].
    + eapply archive_ok; eauto.
    + eapply object_ok; eauto.
    + eapply object_ok; eauto.
    + subst r. apply answer_ok; [|exact Ha]. destruct Hf as [Hf|[_ Hf]]; lia.
    + subst r. exact I.
Qed.

(** ** Structures *)
Import CapiSpec CapiIn CapiEnd CapiEndSpec.

Lemma input_known : forall f, In (input_of f) input_tys. Proof. intros []; cbn; tauto. Qed.
Lemma taken : forall t c m, In t input_tys -> struct_at c m -> unknown_zero (it_effective t) c ->
  exists o, take_input false t m = Ok (Some o) /\ forall off n, off + N.of_nat n <= it_size t -> field off (N.of_nat n) o = value c off n.
Proof.
  intros t c m Ht (Hc & rest & ->) U. destruct (C47_taken t c rest Ht Hc) as (A & _). destruct (A U) as (o & E & _ & H). eauto.
Qed.
Lemma flag_there : forall t i c o b, (forall off n, off + N.of_nat n <= it_size t -> field off (N.of_nat n) o = value c off n) ->
  size_of (nth i (it_members t) CU8) = 1 -> offset_of (it_members t) i + 1 <= it_size t ->
  flag_at c (offset_of (it_members t) i) b -> flag t i o = Ok b.
Proof.
  intros t i c o b H Hs Hb Hf. rewrite (flag_set t i c o H Hs Hb).
  - unfold set_at, flag_at in *. rewrite Hf. now destruct b.
  - unfold is_flag, flag_at in *. rewrite Hf. destruct b; auto.
Qed.
Ltac at_ := first [eassumption|match goal with |- flag_at ?c ?i ?b => let v := eval vm_compute in i in change (flag_at c v b); assumption end|vm_compute; first [reflexivity|discriminate]].
Lemma slice_ok : forall g p data, has g p data -> p <> 0 -> slice_of_bytes g p (nlen data) = Ok data.
Proof.
  intros g p data H Hp. unfold slice_of_bytes. destruct (N.eqb_spec p 0); [congruence|]. unfold nlen. rewrite Nnat.Nat2N.id. now apply read_has.
Qed.
Lemma source_ok : forall g fuel c f src k o, means g fuel c f src k ->
  (forall off n, off + N.of_nat n <= it_size (input_of f) -> field off (N.of_nat n) o = value c off n) ->
  c_source g fuel f o = Ok src /\ kind_of f = k.
Proof.
  intros g fuel c f src k o [p debug perf nm nv Hp H1 H2 H3 H4|path debug (Hs & Hl) Hd|path debug (Hs & Hl) Hd|data Hh Hn Hl|path (Hs & Hl)] Ho; (split; [|reflexivity]);
    unfold c_source, elf_src, gsym_data_src, gsym_file_src, process_src; cbn [input_of] in Ho.
  - rewrite (flag_there _ 2 c o debug Ho) by at_. rewrite (flag_there _ 3 c o perf Ho) by at_. rewrite (flag_there _ 4 c o nm Ho) by at_. rewrite (flag_there _ 5 c o nv Ho) by at_.
    cbn [bind]. rewrite (member_value _ 1 4 c o Ho) by at_. change (offset_of (it_members blaze_symbolize_src_process) 1) with 8.
    unfold pid_of. destruct Hp as [(-> & E)|(-> & E)].
    + now rewrite E.
    + destruct (N.eqb_spec (value c 8 4) 0); [congruence|reflexivity].
  - rewrite (member_value _ 1 8 c o Ho) by at_. change (offset_of (it_members blaze_symbolize_src_elf) 1) with 8.
    rewrite (read_string _ _ _ _ Hs Hl). cbn [bind]. now rewrite (flag_there _ 2 c o debug Ho) by at_.
  - rewrite (member_value _ 1 8 c o Ho) by at_. change (offset_of (it_members blaze_symbolize_src_elf) 1) with 8.
    rewrite (read_string _ _ _ _ Hs Hl). cbn [bind]. now rewrite (flag_there _ 2 c o debug Ho) by at_.
  - rewrite !(member_value _ _ 8 c o Ho) by at_. change (offset_of (it_members blaze_symbolize_src_gsym_data) 1) with 8. change (offset_of (it_members blaze_symbolize_src_gsym_data) 2) with 16.
    rewrite Hl, slice_ok by auto. reflexivity.
  - rewrite (member_value _ 1 8 c o Ho) by at_. change (offset_of (it_members blaze_symbolize_src_gsym_file) 1) with 8.
    now rewrite (read_string _ _ _ _ Hs Hl).
Qed.

(** ** Creating symbolizers *)

(** Flags and directories are those of the options; what the program's header does not have is
    off, and the directories are the usual ones. *)
Theorem C78_options : forall g fuel c rest auto_reload code_info inlined_fns demangle dirs, declares c -> unknown_zero 40 c ->
  flag_at c 24 auto_reload -> flag_at c 25 code_info -> flag_at c 26 inlined_fns -> flag_at c 27 demangle -> dirs_at g fuel c dirs ->
  exists b, blaze_symbolizer_new_opts g fuel (c ++ rest) = Ok (0%Z, Some b) /\
    b_auto_reload b = auto_reload /\ b_debug_dirs b = dirs /\ b_dispatch b = value c 32 8 /\
    forall rust cpp self, let cf := config_of rust cpp self b in
      (cf_opts cf = Basic <-> code_info = false) /\ (cf_opts cf = WithInlined <-> code_info = true /\ inlined_fns = true) /\
      forall name lang, (demangle = false -> cf_demangle cf name lang = name) /\
        (demangle = true -> cf_demangle cf name lang = cf_demangle (Demangle.build_default rust cpp self) name lang).
Proof.
  intros g fuel c rest ar ci inl dm dirs Hc U H1 H2 H3 H4 Hd.
  destruct (taken blaze_symbolizer_opts c (c ++ rest)) as (o & E & Ho); [cbn; tauto|split; eauto|exact U|].
  unfold blaze_symbolizer_new_opts. rewrite E. cbn [bind]. unfold symbolizer_flags.
  rewrite (flag_there _ 3 c o ar Ho) by at_. rewrite (flag_there _ 4 c o ci Ho) by at_. rewrite (flag_there _ 5 c o inl Ho) by at_. rewrite (flag_there _ 6 c o dm Ho) by at_. cbn [bind].
  rewrite !(member_value _ _ 8 c o Ho) by at_. change (offset_of (it_members blaze_symbolizer_opts) 1) with 8.
  change (offset_of (it_members blaze_symbolizer_opts) 2) with 16. change (offset_of (it_members blaze_symbolizer_opts) 8) with 32.
  assert (G : forall b, b_auto_reload b = ar -> b_code_info b = ci -> b_inlined_fns b = inl -> b_demangle b = dm -> b_debug_dirs b = dirs -> b_dispatch b = value c 32 8 ->
    b_auto_reload b = ar /\ b_debug_dirs b = dirs /\ b_dispatch b = value c 32 8 /\
    forall rust cpp self, let cf := config_of rust cpp self b in
      (cf_opts cf = Basic <-> ci = false) /\ (cf_opts cf = WithInlined <-> ci = true /\ inl = true) /\
      forall name lang, (dm = false -> cf_demangle cf name lang = name) /\
        (dm = true -> cf_demangle cf name lang = cf_demangle (Demangle.build_default rust cpp self) name lang)).
  { intros b <- <- <- <- <- <-. repeat (split; [reflexivity|]). intros rust cpp self. unfold config_of, Demangle.build, Demangle.build_default. cbn [cf_opts cf_demangle].
    split; [|split].
    - destruct (b_code_info b), (b_inlined_fns b); cbn; split; congruence.
    - destruct (b_code_info b), (b_inlined_fns b); cbn; split; try congruence; try (intros []; congruence); auto.
    - intros name lang. split; intros ->; reflexivity. }
  destruct Hd as [H0|ps dirs H0 Ha Hl Hf].
  - rewrite H0. cbn [N.eqb bind]. eexists. split; [reflexivity|]. apply G; reflexivity.
  - destruct (N.eqb_spec (value c 8 8) 0); [congruence|]. rewrite Hl. unfold nlen. rewrite Nnat.Nat2N.id, (C68_arrays g _ ps Ha). cbn [bind].
    assert (Em : CapiCalls.map_res (CapiCalls.read_cstr g fuel) ps = Ok dirs).
    { clear - Hf. induction Hf as [|p d ps dirs (H1 & H2) _ IH]; [reflexivity|]. cbn [CapiCalls.map_res]. rewrite (read_string _ _ _ _ H1 H2). cbn [bind]. now rewrite IH. }
    rewrite Em. cbn [bind]. eexists. split; [reflexivity|]. apply G; reflexivity.
Qed.
Print Assumptions C78_options.
(** Options with members that are unknown are refused. *)
Theorem C78_options_refused : forall g fuel c rest, declares c -> ~ unknown_zero 40 c ->
  blaze_symbolizer_new_opts g fuel (c ++ rest) = Ok (-256, None)%Z.
Proof.
  intros g fuel c rest Hc U. unfold blaze_symbolizer_new_opts.
  destruct (C47_taken blaze_symbolizer_opts c rest ltac:(cbn; tauto) Hc) as (_ & B). now rewrite (B U).
Qed.
Print Assumptions C78_options_refused.
(** Without options, everything is on. *)
Theorem C78_default : exists b, blaze_symbolizer_new = (0%Z, Some b) /\ b_auto_reload b = true /\ b_debug_dirs b = None /\ b_dispatch b = 0 /\
  forall rust cpp self, cf_opts (config_of rust cpp self b) = WithInlined /\
    cf_demangle (config_of rust cpp self b) = cf_demangle (Demangle.build_default rust cpp self).
Proof. eexists. split; [reflexivity|]. repeat split. Qed.
Print Assumptions C78_default.

(** ** Calls *)
Section Calls.
  Context {File Parser : Type}.
  Implicit Types (c : ccall File Parser) (s : state File Parser).

  (** What is made of the library's results *)
  Definition finish (m : mode) c (r : res (list symbolized)) : res (Z * option (block * N)) :=
    match r with
    | Ok [] => Ok (0%Z, None)
    | Ok l =>
        let* p := convert_results m (ca_alloc c l) l in
        match p with Some p => Ok (0%Z, Some p) | None => Ok ((-12)%Z, None) end
    | Err k => let* e := blaze_err_from k in Ok (e, None)
    | Panic => Panic
    | NoFuel => NoFuel
    end.
  Lemma asks_ok : forall m cf c src k addrs s, asks c src k addrs ->
    blaze_symbolize m cf c s = (finish m c (fst (symbolize m cf (ca_world c) src k addrs s)), snd (symbolize m cf (ca_world c) src k addrs s)).
  Proof.
    intros m cf c src k addrs s ((t & Ht & U & Hm) & Ha & Hc). unfold blaze_symbolize.
    destruct (taken _ t _ (input_known (ca_fn c)) Ht U) as (o & -> & Ho). cbn [then_].
    destruct (source_ok _ _ _ _ _ _ o Hm Ho) as (-> & Ek). cbn [then_]. unfold symbolize_impl. rewrite Hc, (C68_arrays _ _ _ Ha). cbn [then_]. rewrite Ek.
    destruct (symbolize m cf (ca_world c) src k addrs s) as [[[|r l]|e| |] s']; cbn [fst snd finish]; reflexivity.
  Qed.
  Lemma too_new_ok : forall m cf c s, too_new c -> blaze_symbolize m cf c s = (Ok (-256, None)%Z, s).
  Proof.
    intros m cf c s (t & Ht & U). unfold blaze_symbolize. destruct (struct_ok _ t _ (input_known (ca_fn c)) Ht) as (_ & B). now rewrite (B U).
  Qed.
  Lemma run_ok : forall m cf cs ops, requests m cf cs ops -> forall s, blaze_run m cf cs s = run ops s.
  Proof.
    intros m cf cs ops H. induction H as [|c src k addrs cs ops Ha _ IH|c cs ops Ht _ IH]; intros s; [reflexivity|..]; unfold blaze_run, run in *; cbn [fold_left].
    - rewrite IH. f_equal. rewrite (asks_ok _ _ _ _ _ _ _ Ha). reflexivity.
    - rewrite IH. f_equal. rewrite (too_new_ok _ _ _ _ Ht). reflexivity.
  Qed.

  (** Structures with members the library does not know are refused, and nothing
      else happens. *)
  Theorem C78_refused : forall m cf c s, too_new c -> blaze_symbolize m cf c s = (Ok (-256, None)%Z, s).
  Proof. exact too_new_ok. Qed.
  (** Errors of the library, and running out of memory, are told apart by the last error. *)
  Theorem C78_error : forall m cf c src k addrs s e, asks c src k addrs -> e <> ENone ->
    fst (symbolize m cf (ca_world c) src k addrs s) = Err e -> fst (blaze_symbolize m cf c s) = Ok (code_of e, None).
  Proof. intros m cf c src k addrs s e Ha He E. rewrite (asks_ok _ _ _ _ _ _ _ Ha), E. cbn [fst finish]. now rewrite code_from. Qed.
  (** No results are [NULL], which is not an error. *)
  Theorem C78_nothing : forall m cf c src k addrs s, asks c src k addrs ->
    fst (symbolize m cf (ca_world c) src k addrs s) = Ok [] -> fst (blaze_symbolize m cf c s) = Ok (0%Z, None).
  Proof. intros m cf c src k addrs s Ha E. now rewrite (asks_ok _ _ _ _ _ _ _ Ha), E. Qed.
  Theorem C78_no_memory : forall m cf c src k addrs s rs, asks c src k addrs ->
    fst (symbolize m cf (ca_world c) src k addrs s) = Ok rs -> rs <> [] -> results_room rs <= 2 ^ 63 - 8 -> ca_alloc c rs = 0 ->
    fst (blaze_symbolize m cf c s) = Ok ((-12)%Z, None).
  Proof.
    intros m cf c src k addrs s rs Ha E Hne Hr H0. rewrite (asks_ok _ _ _ _ _ _ _ Ha), E. cbn [fst finish]. rewrite H0.
    assert (Hz : fits (lists_room [])) by (vm_compute; discriminate).
    destruct rs as [|r rs]; [congruence|]. now rewrite (proj1 (C48_no_memory m (r :: rs) [] Hr Hz)).
  Qed.
  Lemma given_ok : forall m c rs, allocates c -> rs <> [] -> results_room rs <= 2 ^ 63 - 8 -> Forall result_ok rs ->
    exists b p, finish m c (Ok rs) = Ok (0%Z, Some (b, p)) /\ gets b p rs.
  Proof.
    intros m c rs Ha Hne Hr Hok. destruct (Ha rs Hr) as (A1 & A2 & A3).
    destruct (C48_results m (ca_alloc c rs) rs (conj A1 (conj A2 A3)) Hr Hok) as (g & parts & E & H1 & H2 & H3 & H4).
    unfold finish. destruct rs as [|r rs]; [congruence|]. rewrite E. cbn [bind]. eexists _, _. split; [reflexivity|].
    exists parts. split; [lia|]. repeat (split; [assumption|]). exact H4.
  Qed.
End Calls.
Print Assumptions C78_refused.
Print Assumptions C78_error.
Print Assumptions C78_no_memory.
Print Assumptions C78_nothing.

(** ** From files to memory *)
Section Files.
  Context (x : ext) (m : mode) (pick : N -> N -> N) (rest : world (N * list N) parser) (h : host) (cf : config).
  Notation w := (host_world x m pick rest h).
  Context (Hx : sorts x) (Hnd : w_apk_dispatch rest = None) (Hdi : w_dispatch rest = None).

  (** After any calls of the program with the same symbolizer *)
  Theorem C78_symbolize : forall cs ops c src k addrs Ps,
    requests m cf cs ops -> asks c src k addrs -> ca_world c = w -> undisturbed (ops ++ [OSymbolize m cf w src k addrs]) ->
    addrs <> [] -> Forall2 (describes x h cf src k) addrs Ps ->
    allocates c -> (forall rs, Forall2 (fun P r => P r) Ps rs -> results_room rs <= 2 ^ 63 - 8) ->
    exists rs b p, fst (blaze_symbolize m cf c (blaze_run m cf cs (s_new true))) = Ok (0%Z, Some (b, p)) /\
      gets b p rs /\ Forall2 (fun P r => P r) Ps rs.
  Proof.
    intros cs ops c src k addrs Ps Hr Ha Hw Hu Hne HF Hal Hroom. rewrite (asks_ok _ _ _ _ _ _ _ Ha). cbn [fst].
    rewrite (run_ok _ _ _ _ Hr), Hw.
    assert (Hun : Forall unforced ops) by (clear - Hr; induction Hr; repeat constructor; auto).
    destruct (C77_symbolize x m pick rest h cf Hx Hnd Hdi ops src k addrs Ps Hun Hu Hne HF) as (rs & E & HP). rewrite E.
    assert (Hnb : forall p, src <> SBreakpad p) by (destruct Ha as ((t & _ & _ & Hm) & _); inversion Hm; subst; discriminate).
    assert (Hok : Forall result_ok rs).
    { destruct Ha as (_ & (_ & Hnum) & _). clear - HF HP Hnb Hnum.
      assert (Ha : Forall (fun a => a < two64) addrs).
      { apply Forall_forall. intros a Hin. apply In_nth_error in Hin. destruct Hin as (i & Hi). destruct (Hnum i a Hi) as (l & Hl & Hb & <- & _).
        pose proof (le_val_lt l Hb) as B. unfold nlen in B. rewrite Hl in B. exact B. }
      clear Hnum. revert rs HP. induction HF as [|a P addrs Ps H _ IH]; intros rs HP; inversion HP; subst; constructor.
      - inversion Ha; subst. eapply described_ok; eauto.
      - inversion Ha; subst. now apply IH. }
    assert (Hrs : rs <> []) by (destruct HF; [congruence|]; inversion HP; discriminate).
    destruct (given_ok m c rs Hal Hrs (Hroom rs HP) Hok) as (b & p & Ef & Hg). exists rs, b, p. auto.
  Qed.
End Files.
Print Assumptions C78_symbolize.

(** ** Example: a program asking for the files and the process of C77's example *)

Definition cx_mem : mem := fun a =>
  if a <? 4099 then None else nth_error (le_bytes 8 4294967290 ++ le_bytes 8 0 ++ le_bytes 8 4107 ++ [47; 103; 0]) (N.to_nat (a - 4099)).
Lemma cx_has : forall p l, forallb (fun i => match cx_mem (p + N.of_nat i) with Some b => b =? nth i l 0 | None => false end) (seq 0 (length l)) = true -> has cx_mem p l.
Proof.
  intros p l H i b E. rewrite forallb_forall in H. assert (L : (i < length l)%nat) by (apply nth_error_Some; congruence).
  specialize (H i ltac:(apply in_seq; lia)). rewrite (nth_error_nth l i 0 E) in H. destruct (cx_mem (p + N.of_nat i)) as [b'|]; [|discriminate]. apply N.eqb_eq in H. congruence.
Qed.
Lemma cx_num : forall p v, v < 2 ^ 64 -> forallb (fun i => match cx_mem (p + N.of_nat i) with Some b => b =? nth i (le_bytes 8 v) 0 | None => false end) (seq 0 8) = true -> num cx_mem p 8 v.
Proof.
  intros p v Hv H. exists (le_bytes 8 v). pose proof (le_bytes_length 8 v) as L. split; [exact L|]. split; [apply le_bytes_is_bytes|]. split; [now apply le_val_bytes|].
  apply cx_has. now rewrite L.
Qed.
Lemma cx_known : forall n c, (N.to_nat n <= length c)%nat -> forallb (fun j => nth j c 0 =? 0) (seq (N.to_nat n) (length c - N.to_nat n)) = true -> unknown_zero n c.
Proof.
  intros n c L K i Hi. unfold byte. destruct (Nat.ltb_spec (N.to_nat i) (length c)) as [L'|L']; [|now apply nth_overflow].
  rewrite forallb_forall in K. apply N.eqb_eq, K, in_seq. lia.
Qed.
Lemma cx_struct : forall c, is_bytes c -> declares c -> struct_at c c.
Proof. intros c _ H. split; [exact H|]. exists []. now rewrite app_nil_r. Qed.
(** Of a process, with today's header, and of a file, with one without the room
    for members to come *)
Definition cx_process : list N := le_bytes 8 32 ++ le_bytes 4 7 ++ [0; 1; 0; 0] ++ repeat 0 16.
Definition cx_file : list N := le_bytes 8 16 ++ le_bytes 8 4123.
Definition cx_call f src addrs cnt : ccall (N * list N) parser := CCall cx_mem 9 ex_w (fun _ => 4096) f src addrs cnt.
Definition cx_c := cx_call FProcess cx_process 4099 2.
Definition cx_before := [cx_call FGsymFile cx_file 4115 1; cx_call FProcess newer_src 4099 2; cx_c].
Lemma cx_asks_process : asks cx_c (SProcess (Pid 7) ex_opts) AbsAddr [4294967290; 0].
Proof.
  split; [|split; [|reflexivity]].
  - exists cx_process. split; [|split].
    + apply cx_struct; [repeat constructor; reflexivity|]. split; [repeat constructor; reflexivity|]. split; [vm_compute; split; [discriminate|reflexivity]|reflexivity].
    + apply cx_known; vm_compute; [lia|reflexivity].
    + apply (MnProcess _ _ cx_process (Pid 7) false true false false); try reflexivity. right. split; [reflexivity|]. vm_compute. discriminate.
  - split; [discriminate|]. intros [|[|i]] v E; cbn in E; try (destruct i; discriminate); injection E as <-; apply cx_num; reflexivity.
Qed.
Lemma cx_asks_file : asks (cx_call FGsymFile cx_file 4115 1) (SGsymFile (path_of [47; 103])) VirtOffset [4107].
Proof.
  split; [|split; [|reflexivity]].
  - exists cx_file. split; [|split].
    + apply cx_struct; [repeat constructor; reflexivity|]. split; [repeat constructor; reflexivity|]. split; [vm_compute; split; [discriminate|reflexivity]|reflexivity].
    + apply cx_known; vm_compute; [lia|reflexivity].
    + apply (MnGsymFile _ _ cx_file [47; 103]). split; [|cbn; lia]. split; [cbn; lia|]. apply cx_has. reflexivity.
  - split; [discriminate|]. intros [|i] v E; cbn in E; try (destruct i; discriminate). injection E as <-. apply cx_num; reflexivity.
Qed.
Lemma cx_too_new : too_new (cx_call FProcess newer_src 4099 2).
Proof. exists newer_src. split; [exact newer_src_at|]. intros U. specialize (U 39 ltac:(vm_compute; discriminate)). discriminate U. Qed.
Example C78_symbolize_example : exists b p,
  fst (blaze_symbolize Checked ex_cf cx_c (blaze_run Checked ex_cf cx_before (s_new true))) = Ok (0%Z, Some (b, p)) /\
  gets b p [answer ex_cf [108; 97; 115; 116] None 4294967290 4294967280 (Some 15); Unknown Unmapped].
Proof.
  pose proof ex_described as HD. inversion HD as [|? ? ? ? _ HD1]; subst. inversion HD1 as [|? ? ? ? _ HD2]; subst. inversion HD2 as [|? ? ? ? Hperf HD3]; subst.
  inversion HD3 as [|? ? ? ? _ HD4]; subst. inversion HD4 as [|? ? ? ? Hnone _]; subst. clear HD HD1 HD2 HD3 HD4.
  set (P1 := answer ex_cf [108; 97; 115; 116] None 4294967290 4294967280 (Some 15)) in *.
  destruct (C78_symbolize ElfExample.no_ext Checked (fun _ _ => 0) ex_rest ex_host ex_cf ElfExample.no_ext_sorts eq_refl eq_refl cx_before
    [OSymbolize Checked ex_cf ex_w (SGsymFile (path_of [47; 103])) VirtOffset [4107]; OSymbolize Checked ex_cf ex_w (SProcess (Pid 7) ex_opts) AbsAddr [4294967290; 0]]
    cx_c (SProcess (Pid 7) ex_opts) AbsAddr [4294967290; 0] [eq P1; eq (Unknown Unmapped)]) as (rs & b & p & E & G & HP).
  - apply (RqAsks Checked ex_cf (cx_call FGsymFile cx_file 4115 1) _ _ _ _ _ cx_asks_file), RqTooNew; [exact cx_too_new|].
    apply (RqAsks Checked ex_cf cx_c _ _ _ _ _ cx_asks_process), RqNil.
  - exact cx_asks_process.
  - reflexivity.
  - apply ex_undisturbed. constructor; [|constructor; [|constructor; [|constructor]]]; (split; [reflexivity|]); [right; now left|do 4 right; now left..].
  - discriminate.
  - constructor; [exact Hperf|]. constructor; [exact Hnone|constructor].
  - intros l Hl. cbn [cx_c cx_call ca_alloc]. lia.
  - intros rs H. inversion H as [|? ? ? ? H1 H']; subst. inversion H' as [|? ? ? ? H2 H'']; subst. inversion H''; subst. vm_compute. discriminate.
  - inversion HP as [|? ? ? ? H1 H']; subst. inversion H' as [|? ? ? ? H2 H'']; subst. inversion H''; subst. eauto.
Qed.
(** Options of a program whose header is older, with directories that are not
    the usual ones: no more than addresses are named, and names are not
    demangled. *)
Definition cx_dirs_mem : mem := fun a => if a <? 4096 then None else nth_error (le_bytes 8 4104 ++ [47; 100; 0]) (N.to_nat (a - 4096)).
Example C78_options_example :
  blaze_symbolizer_new_opts cx_dirs_mem 9 (le_bytes 8 28 ++ le_bytes 8 4096 ++ le_bytes 8 1 ++ [1; 0; 0; 0] ++ [255; 255]) =
    Ok (0%Z, Some (Built true false false false (Some [[47; 100]]) 0)) /\
  blaze_symbolizer_new_opts cx_dirs_mem 9 (le_bytes 8 48 ++ repeat 0 32 ++ repeat 1 8) = Ok (-256, None)%Z.
Proof. split; vm_compute; reflexivity. Qed.
