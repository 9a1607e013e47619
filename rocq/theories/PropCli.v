(** * C74: what the command line tool prints *)

From Verif Require Import Base Num Maps ModMap FileCache Sym Inspect Depmod Symbolizer SymbolizerSpec PropSymBatch Normalize
  Inspector Host HostNorm Cli CliSpec CliProofs Lists.
From Verif Require Import Nom.
From Coq Require Import String Permutation Sorted.
Local Close Scope string_scope.
Local Open Scope N_scope.
Local Notation length := List.length.

(** ** Symbolization: the text *)
Lemma path_join_ok : forall d f, joined (Some d) f (path_join d f).
Proof.
  intros d f. assert (H : hd_error f = Some 47 \/ hd_error f <> Some 47).
  { destruct f as [|b f]; [right; discriminate|]. destruct (N.eq_dec b 47) as [->|]; [now left|right; simpl; congruence]. }
  destruct H as [H|H].
  - destruct f as [|b f]; [discriminate|]. injection H as ->. now apply j_absolute.
  - assert (E : path_join d f = match d with [] => f | _ => if last d 0 =? 47 then d ++ f else d ++ 47 :: f end).
    { destruct f as [|b f]; [reflexivity|]. assert (Hb : b <> 47) by (intros ->; apply H; reflexivity).
      unfold path_join. destruct b as [|p]; [reflexivity|]. do 6 (destruct p as [p|p|]; try reflexivity). congruence. }
    rewrite E. clear E. destruct (list_eq_dec N.eq_dec d []) as [->|Hn]; [apply j_empty|].
    destruct (@exists_last _ d Hn) as (d' & b & ->). rewrite last_last.
    replace (match d' ++ [b] with [] => f | _ => if b =? 47 then (d' ++ [b]) ++ f else (d' ++ [b]) ++ 47 :: f end)
      with (if b =? 47 then (d' ++ [b]) ++ f else (d' ++ [b]) ++ 47 :: f) by (destruct d'; reflexivity). destruct (N.eqb_spec b 47) as [->|Hb].
    + rewrite <- app_assoc. now apply j_slash.
    + rewrite <- app_assoc. now apply j_other.
Qed.
Lemma code_text_ok : forall c, exists p t, place_of c p /\ place_text p t /\ code_text c = 32 :: t.
Proof.
  intros c. assert (J : joined (ci_dir c) (ci_file c) (to_path c)).
  { unfold to_path. destruct (ci_dir c); [apply path_join_ok|constructor]. }
  pose proof (place_of_intro c _ J) as P. unfold code_text.
  destruct (ci_line c) as [l|] eqn:El; [destruct (ci_column c) as [k|] eqn:Ec|]; (eexists; eexists; split; [exact P|split; [|reflexivity]]).
  - apply (pt_column (to_path c) l (fmt_dec l) k (fmt_dec k)); apply fmt_dec_ok.
  - apply pt_line, fmt_dec_ok.
  - rewrite app_nil_r. constructor.
Qed.
Lemma code_after : forall c, exists p, place_of_opt c p /\
  after [32] p (match c with Some c => code_text c | None => [] end) /\
  after (bs " @ "%string) p (match c with Some c => bs " @"%string ++ code_text c | None => [] end).
Proof.
  intros [c|].
  - destruct (code_text_ok c) as (p & t & H1 & H2 & ->). exists (Some p). split; [now constructor|]. split.
    + now apply (af_some [32]).
    + now apply (af_some (bs " @ "%string)).
  - exists None. repeat constructor.
Qed.
Lemma inlined_ok : forall i, exists f l, frame_of (if_name i) (if_code_info i) f /\ inlined_line f l /\
  print_frame (if_name i) None (if_code_info i) = l ++ [10].
Proof.
  intros i. destruct (code_after (if_code_info i)) as (p & H1 & _ & H2). exists (Frame (if_name i) p). eexists.
  split; [split; auto|]. split; [apply il; exact H2|]. cbn [print_frame fr_name].
  change (left_pad 16 (bs " "%string) ++ bs "  "%string ++ if_name i ++
    match if_code_info i with Some c => bs " @"%string ++ code_text c | None => [] end ++ bs " [inlined]"%string ++ [10] =
    (repeat 32 18 ++ if_name i ++ match if_code_info i with Some c => bs " @"%string ++ code_text c | None => [] end ++ bs " [inlined]"%string) ++ [10]).
  rewrite <- !app_assoc. reflexivity.
Qed.
Lemma print_sym_ok : forall a y, exists x l ls, answer_of y x /\ header a x l /\ Forall2 inlined_line (inlined_of x) ls /\
  print_sym a y = text (l :: ls).
Proof.
  intros a [s|why].
  - assert (Hi : exists fs ls, Forall2 (fun i f => frame_of (if_name i) (if_code_info i) f) (sy_inlined s) fs /\
      Forall2 inlined_line fs ls /\ flat_map (fun f => print_frame (if_name f) None (if_code_info f)) (sy_inlined s) = text ls).
    { induction (sy_inlined s) as [|i is IH]; [exists [], []; repeat constructor|].
      destruct IH as (fs & ls & H1 & H2 & E). destruct (inlined_ok i) as (f & l & G1 & G2 & G3).
      exists (f :: fs), (l :: ls). split; [now constructor|]. split; [now constructor|]. cbn [flat_map]. now rewrite E, G3. }
    destruct Hi as (fs & ls & H1 & H2 & E). destruct (code_after (sy_code_info s)) as (p & P1 & P2 & _).
    exists (Found (sy_addr s) (sy_offset s) (Frame (sy_name s) p) fs). eexists. exists ls. split; [constructor; auto; now split|].
    split; [apply h_found; [apply hex_16_ok|apply hex_0x_ok|apply hex_0x_ok|exact P2]|]. split; auto.
    unfold print_sym. rewrite E. cbn [print_frame text flat_map fr_name]. fold (text ls). rewrite <- !app_assoc. reflexivity.
  - exists Nothing. eexists. exists []. split; [constructor|]. split; [apply h_nothing, hex_16_ok|]. split; [constructor|].
    cbn [print_sym text flat_map]. rewrite app_nil_r, <- app_assoc. reflexivity.
Qed.
Lemma print_syms_ok : forall addrs ys, length ys = length addrs -> exists xs lines, Forall2 answer_of ys xs /\
  report (combine addrs xs) lines /\ print_syms addrs ys = text lines.
Proof.
  unfold print_syms. induction addrs as [|a addrs IH]; intros [|y ys] E; try discriminate; [exists [], []; repeat constructor|].
  injection E as E. destruct (IH ys E) as (xs & lines & H1 & H2 & H3). destruct (print_sym_ok a y) as (x & l & ls & G1 & G2 & G3 & G4).
  exists (x :: xs), (l :: ls ++ lines). split; [now constructor|]. split; [now constructor|].
  cbn [combine flat_map]. rewrite H3, G4. change (l :: ls ++ lines) with ((l :: ls) ++ lines). now rewrite text_app.
Qed.

(** ** Reading it back *)
Lemma place_text_fun : forall p q t, Forall (fun b => b <> 58) (pl_path p) -> Forall (fun b => b <> 58) (pl_path q) ->
  place_text p t -> place_text q t -> p = q.
Proof.
  intros p q t Hp Hq H1 H2.
  assert (G : forall p t, place_text p t -> exists r, t = pl_path p ++ r /\ ends 58 r /\
    match pl_line p, pl_column p with
    | None, None => r = []
    | Some l, None => exists tl, shown_dec l tl /\ r = 58 :: tl
    | Some l, Some c => exists tl tc, shown_dec l tl /\ shown_dec c tc /\ r = 58 :: tl ++ 58 :: tc
    | None, Some _ => False
    end).
  { intros p0 t0 [p' | p' l tl H | p' l tl c tc H H']; cbn [pl_path pl_line pl_column].
    - exists []. rewrite app_nil_r. split; auto. split; auto. now left.
    - exists (58 :: tl). split; auto. split; [right; eauto|eauto].
    - exists (58 :: tl ++ 58 :: tc). split; auto. split; [right; eauto|]. exists tl, tc. auto. }
  destruct (G _ _ H1) as (r1 & E1 & X1 & D1). destruct (G _ _ H2) as (r2 & E2 & X2 & D2). rewrite E1 in E2.
  destruct (split_char 58 _ _ _ _ Hp Hq X1 X2 E2) as [Ep Er]. clear G H1 H2 E1 E2 X1 X2.
  assert (A : forall v s, shown_dec v s -> Forall (fun b => b <> 58) s).
  { intros v s H. eapply alnum_not; [|eapply shown_dec_chars; eauto]. unfold alnum. lia. }
  destruct p as [pp pl pc], q as [qp ql qc]; cbn [pl_path pl_line pl_column] in *. subst.
  destruct pl as [l|], pc as [c|], ql as [l'|], qc as [c'|]; try tauto.
  - destruct D1 as (tl & tc & T1 & T2 & E1), D2 as (tl' & tc' & T3 & T4 & E2). rewrite E1 in E2. injection E2 as E2.
    destruct (split_char 58 tl tl' (58 :: tc) (58 :: tc')) as [<- E]; eauto; try (right; eauto). injection E as <-.
    now rewrite (shown_dec_fun _ _ _ T1 T3), (shown_dec_fun _ _ _ T2 T4).
  - exfalso. destruct D1 as (tl & tc & T1 & T2 & E1), D2 as (tl' & T3 & E2). rewrite E1 in E2. injection E2 as E2.
    apply A in T3. rewrite <- E2 in T3. apply Forall_app in T3. destruct T3 as [_ T3]. apply Forall_inv in T3. auto.
  - exfalso. destruct D1 as (tl & tc & _ & _ & E1). congruence.
  - exfalso. destruct D1 as (tl' & T3 & E2), D2 as (tl & tc & T1 & T2 & E1). rewrite E1 in E2. injection E2 as E2.
    apply A in T3. rewrite <- E2 in T3. apply Forall_app in T3. destruct T3 as [_ T3]. apply Forall_inv in T3. auto.
  - destruct D1 as (tl & T1 & E1), D2 as (tl' & T2 & E2). rewrite E1 in E2. injection E2 as <-. now rewrite (shown_dec_fun _ _ _ T1 T2).
  - exfalso. destruct D1 as (tl & _ & E1). congruence.
  - exfalso. destruct D2 as (tl & tc & _ & _ & E1). congruence.
  - exfalso. destruct D2 as (tl & _ & E1). congruence.
Qed.
Lemma after_one_line : forall sep p t, Forall (fun b => b <> 10) sep ->
  match p with Some p => one_line (pl_path p) | None => True end -> after sep p t -> one_line t.
Proof.
  intros sep p t Hs Hp H0. revert Hp. destruct H0 as [|q t' H]; intros Hp; [constructor|]. apply Forall_app. split; auto.
  assert (A : forall v s, shown_dec v s -> one_line s).
  { intros v s Hv. eapply alnum_not; [|eapply shown_dec_chars; eauto]. unfold alnum. lia. }
  assert (B : one_line [58]) by (constructor; [lia|constructor]).
  destruct H; cbn [pl_path] in Hp; auto; unfold one_line in *;
    repeat match goal with |- Forall _ (_ ++ _) => apply Forall_app; split end; eauto.
Qed.
Lemma alnum_one_line : forall s, Forall alnum s -> Forall (fun b => b <> 10) s.
Proof. intros s. apply alnum_not. unfold alnum. lia. Qed.
Ltac lines := repeat match goal with |- Forall _ (_ ++ _) => apply Forall_app; split end; auto; try (repeat constructor; discriminate);
  eauto using alnum_one_line, shown_addr_chars, shown_hex_chars.
Lemma header_one_line : forall a x l, clean x -> header a x l -> one_line l.
Proof.
  intros a x l Hc H0. revert Hc. destruct H0 as [ta H|addr off fn fs ta t1 t2 tp H1 H2 H3 H4]; intros Hc; unfold one_line; lines.
  - destruct Hc as [[Hc _] _]. exact Hc.
  - destruct Hc as [(_ & _ & Hc) _]. eapply after_one_line; [|  |exact H4]; [repeat constructor; discriminate|].
    destruct (fr_place fn); tauto.
Qed.
Lemma inlined_one_line : forall f l, clean_frame f -> inlined_line f l -> one_line l.
Proof.
  intros f l (H1 & _ & H2) [tp H]. unfold one_line. lines.
  eapply after_one_line; [| |exact H]; [repeat constructor; discriminate|]. destruct (fr_place f); tauto.
Qed.
Lemma header_fun : forall a x b y l, clean x -> clean y -> header a x l -> header b y l ->
  a = b /\ match x, y with
           | Nothing, Nothing => True
           | Found ad off fn _, Found ad' off' fn' _ => ad = ad' /\ off = off' /\ fn = fn'
           | _, _ => False
           end.
Proof.
  intros a x b y l Cx Cy H1 H2.
  assert (G : forall a x l, header a x l -> exists ta r, shown_addr a ta /\ l = ta ++ 58 :: 32 :: r /\
    match x with
    | Nothing => r = bs "<no-symbol>"%string
    | Found ad off fn _ => exists t1 t2 tp, shown_hex ad t1 /\ shown_hex off t2 /\ after [32] (fr_place fn) tp /\
        r = fr_name fn ++ 32 :: 64 :: 32 :: t1 ++ 43 :: t2 ++ tp
    end).
  { clear. intros a x l [ta H|addr off fn fs ta t1 t2 tp H1 H2 H3 H4]; exists ta; eexists; (split; [auto|]).
    - split; [reflexivity|]. reflexivity.
    - split; [reflexivity|]. exists t1, t2, tp. repeat split; auto. }
  destruct (G _ _ _ H1) as (ta & r & T1 & E1 & D1). destruct (G _ _ _ H2) as (tb & r' & T2 & E2 & D2). rewrite E1 in E2. clear G H1 H2 E1.
  destruct (split_char 58 ta tb (58 :: 32 :: r) (58 :: 32 :: r')) as [<- E]; auto; try (right; eauto);
    try (eapply alnum_not; [|eapply shown_addr_chars; eauto]; unfold alnum; lia).
  injection E as <-. split; [eapply shown_addr_fun; eauto|].
  destruct x as [|ad off fn fs], y as [|ad' off' fn' fs']; auto.
  - exfalso. destruct D2 as (t1 & t2 & tp & _ & _ & _ & E). rewrite D1 in E.
    assert (F : Forall (fun b => b <> 64) (bs "<no-symbol>"%string)) by (repeat constructor; discriminate).
    rewrite E in F. apply Forall_app in F. destruct F as [_ F]. apply Forall_inv_tail, Forall_inv in F. auto.
  - exfalso. destruct D1 as (t1 & t2 & tp & _ & _ & _ & E). rewrite D2 in E.
    assert (F : Forall (fun b => b <> 64) (bs "<no-symbol>"%string)) by (repeat constructor; discriminate).
    rewrite E in F. apply Forall_app in F. destruct F as [_ F]. apply Forall_inv_tail, Forall_inv in F. auto.
  - destruct D1 as (t1 & t2 & tp & N1 & N2 & N3 & E1), D2 as (t1' & t2' & tp' & N1' & N2' & N3' & E3).
    rewrite E1 in E3. destruct Cx as [(_ & C1 & C2) _], Cy as [(_ & C1' & C2') _].
    destruct (split_pair 32 64 (fr_name fn) (fr_name fn') (32 :: t1 ++ 43 :: t2 ++ tp) (32 :: t1' ++ 43 :: t2' ++ tp')) as [En E]; auto; [discriminate|].
    injection E as E.
    destruct (split_char 43 t1 t1' (43 :: t2 ++ tp) (43 :: t2' ++ tp')) as [<- E']; auto; try (right; eauto);
      try (eapply alnum_not; [|eapply shown_hex_chars; eauto]; unfold alnum; lia).
    injection E' as E'.
    destruct (split_char 32 t2 t2' tp tp') as [<- ->]; auto;
      try (eapply alnum_not; [|eapply shown_hex_chars; eauto]; unfold alnum; lia).
    { destruct N3; [now left|right; simpl; eauto]. }
    { destruct N3'; [now left|right; simpl; eauto]. }
    split; [eapply shown_hex_fun; eauto|]. split; [eapply shown_hex_fun; eauto|].
    destruct fn as [n1 p1], fn' as [n2 p2]. cbn [fr_name fr_place] in *. subst. f_equal.
    inversion N3 as [Ep Et|p t Hp Ep Et]; inversion N3' as [Ep' Et'|p' t' Hp' Ep' Et']; subst; auto; try discriminate.
    injection Et' as ->. f_equal. eapply place_text_fun; [| |exact Hp|exact Hp']; tauto.
Qed.
Lemma inlined_fun : forall f g l, clean_frame f -> clean_frame g -> inlined_line f l -> inlined_line g l -> f = g.
Proof.
  intros f g l (_ & C1 & C2) (_ & C1' & C2') H1 H2. inversion H1 as [tp A1 E1]. inversion H2 as [tp' A2 E2]. rewrite <- E1 in E2.
  apply app_inv_head in E2. rewrite !app_assoc in E2. apply app_inv_tail in E2. clear H1 H2 E1.
  destruct f as [n1 p1], g as [n2 p2]. cbn [fr_name fr_place] in *.
  inversion A1 as [Ep Et|p t Hp Ep Et]; inversion A2 as [Ep' Et'|p' t' Hp' Ep' Et']; subst.
  - rewrite !app_nil_r in E2. now subst.
  - exfalso. rewrite app_nil_r in E2. eapply C1. exact (eq_sym E2).
  - exfalso. rewrite app_nil_r in E2. eapply C1'. exact E2.
  - destruct (split_pair 32 64 n1 n2 (32 :: t) (32 :: t')) as [-> E]; auto; [discriminate|]. injection E as ->. do 2 f_equal.
    eapply place_text_fun; [| |exact Hp|exact Hp']; tauto.
Qed.
Lemma header_starts : forall a x l, header a x l -> exists r, l = 48 :: r.
Proof. intros a x l [ta [] | addr off fn fs ta t1 t2 tp [] _ _ _]; simpl; eauto. Qed.
Lemma inlined_starts : forall f l, inlined_line f l -> exists r, l = 32 :: r.
Proof. intros f l []; simpl; eauto. Qed.
Lemma report_lines : forall xs lines, Forall (fun p => clean (snd p)) xs -> report xs lines -> Forall one_line lines.
Proof.
  intros xs lines H R. induction R as [|a x xs l ls rest Hh Hi R IH]; [constructor|]. apply Forall_cons_iff in H. destruct H as [Hx H].
  cbn [snd] in Hx. constructor; [eapply header_one_line; eauto|]. apply Forall_app. split; auto.
  assert (Hf : Forall clean_frame (inlined_of x)) by (destruct x; [constructor|apply Hx]).
  clear - Hi Hf. induction Hi; constructor; inversion Hf; subst; eauto using inlined_one_line.
Qed.
Lemma report_fun : forall xs lines, report xs lines -> forall ys, Forall (fun p => clean (snd p)) xs -> Forall (fun p => clean (snd p)) ys ->
  report ys lines -> xs = ys.
Proof.
  intros xs lines R. induction R as [|a x xs l ls rest Hh Hi R IH]; intros ys Hx Hy R'; [now inversion R'|].
  inversion R' as [|b y ys' l' ls' rest' Hh' Hi' R'' Ey El]; subst. apply Forall_cons_iff in Hx, Hy. destruct Hx as [Cx Hx], Hy as [Cy Hy]. cbn [snd] in *.
  destruct (header_fun a x b y l Cx Cy Hh Hh') as [<- D].
  assert (Hcx : Forall clean_frame (inlined_of x)) by (destruct x; [constructor|apply Cx]).
  assert (Hcy : Forall clean_frame (inlined_of y)) by (destruct y; [constructor|apply Cy]).
  assert (N : forall zs rs, report zs rs -> rs = [] \/ exists r rs', rs = (48 :: r) :: rs').
  { intros zs rs [|? ? ? ? ? ? Hz]; [now left|]. right. apply header_starts in Hz. destruct Hz as [r ->]. eauto. }
  apply N in R as NR. apply N in R'' as NR'.
  assert (G : inlined_of x = inlined_of y /\ ls = ls' /\ rest = rest').
  { symmetry in H. rename H into E. clear - E Hi Hi' Hcx Hcy NR NR'. revert ls' Hi' E Hcy. generalize (inlined_of y) as gs.
    induction Hi as [|f l fs ls Hl Hi IH]; intros gs ls' Hi' E Hcy.
    - destruct Hi' as [|g l' gs ls' Hl' Hi']; [now auto|]. exfalso. apply inlined_starts in Hl'. destruct Hl' as [r ->]. cbn [app] in E.
      destruct NR as [->|(r' & rs & ->)]; discriminate.
    - destruct Hi' as [|g l' gs ls' Hl' Hi'].
      + exfalso. apply inlined_starts in Hl. destruct Hl as [r ->]. cbn [app] in E. destruct NR' as [->|(r' & rs & ->)]; discriminate.
      + cbn [app] in E. injection E as -> E. apply Forall_cons_iff in Hcx, Hcy. destruct Hcx as [Cf Hcx], Hcy as [Cg Hcy].
        destruct (IH Hcx gs ls' Hi' E Hcy) as (-> & -> & ->). split; auto. f_equal. eapply inlined_fun; eauto. }
  destruct G as (Gi & -> & ->). rewrite (IH ys' Hx Hy R''). f_equal. f_equal.
  destruct x, y; try tauto. cbn [inlined_of] in Gi. destruct D as (-> & -> & ->). now subst.
Qed.

(** *** Everything but processes: a header per address, in order, showing what
    the address on its own gives, inlined functions below it *)
Definition clean_report (xs : list (N * answer)) : Prop := Forall (fun p => clean (snd p)) xs.
Section Symbolize.
  Context {File Parser : Type}.
  Context (m : mode) (cf : config) (w : world File Parser).
  (** What commands and their options are about: cli/src/args.rs lines 196-288 *)
  Inductive asks : request -> Symbolizer.source -> kind -> Prop :=
  | asks_breakpad : forall p, asks (RBreakpad p) (SBreakpad p) FileOffset
  | asks_elf : forall p, asks (RElf p false) (SElf p true) VirtOffset
  | asks_elf_symbols : forall p, asks (RElf p true) (SElf p false) VirtOffset
  | asks_gsym : forall p, asks (RGsym p) (SGsymFile p) VirtOffset
  | asks_kernel : forall n, asks (RKernel n) (SKernel n) AbsAddr.
  Definition alone (src : Symbolizer.source) (k : kind) (a : N) : res symbolized := fst (symbolize_single m cf w src k a (s_new true)).
  Lemma asks_source : forall r src k, asks r src k -> source_of r = (src, k) /\ is_process src = false.
  Proof. intros r src k []; auto. Qed.

  Lemma new_reachable : reachable (s_new true : state File Parser).
  Proof. exists true, []. reflexivity. Qed.
  Lemma cli_syms_alone : forall r src k addrs l, asks r src k -> cli_syms m cf w r addrs = Ok l ->
    Forall2 (fun a y => reports (alone src k a) y) addrs l.
  Proof.
    intros r src k addrs l Hr E. destruct (asks_source r src k Hr) as (Es & Hp). unfold cli_syms in E. unfold alone. rewrite Es in E.
    destruct addrs as [|a [|b addrs]].
    - pose proof (C43_batch m cf w src k [] (s_new true) new_reachable Hp) as B. rewrite E in B. exact B.
    - destruct (fst (symbolize_single m cf w src k a (s_new true))) as [x|e| |] eqn:Ex; try discriminate. injection E as <-.
      repeat constructor. rewrite Ex. constructor.
    - pose proof (C43_batch m cf w src k (a :: b :: addrs) (s_new true) new_reachable Hp) as B. rewrite E in B. exact B.
  Qed.
  Theorem C74_symbolize : forall r src k addrs t, asks r src k -> cli_symbolize m cf w r addrs = Ok t ->
    exists xs lines, Forall2 (fun a x => exists y, reports (alone src k a) y /\ answer_of y x) addrs xs /\
      report (combine addrs xs) lines /\ t = text lines.
  Proof.
    intros r src k addrs t Hr E. unfold cli_symbolize in E. destruct (cli_syms m cf w r addrs) as [l|e| |] eqn:El; try discriminate. injection E as <-.
    pose proof (cli_syms_alone r src k addrs l Hr El) as H. pose proof (Forall2_length _ _ _ _ _ H) as Hl.
    destruct (print_syms_ok addrs l (eq_sym Hl)) as (xs & lines & H1 & H2 & H3). exists xs, lines. split; auto.
    clear - H H1. revert xs H1. induction H as [|a y addrs l Hy H IH]; intros xs H1; inversion H1; subst; constructor; eauto.
  Qed.
  (** One address: an error if symbolizing it is one. Several: only if that is
      one for any address, like a file that is not there. *)
  Theorem C74_error : forall r src kd addrs k, asks r src kd -> cli_symbolize m cf w r addrs = Err k ->
    match addrs with
    | [a] => alone src kd a = Err k
    | _ => forall a, alone src kd a = Err k
    end.
  Proof.
    intros r src kd addrs k Hr E. destruct (asks_source r src kd Hr) as (Es & Hp). unfold cli_symbolize, cli_syms in E. unfold alone. rewrite Es in E.
    destruct addrs as [|a [|b addrs]].
    - pose proof (C43_batch m cf w src kd [] (s_new true) new_reachable Hp) as B. destruct (fst (symbolize m cf w src kd [] (s_new true))); try discriminate.
      cbn [bind] in E. injection E as ->. exact B.
    - destruct (fst (symbolize_single m cf w src kd a (s_new true))) as [x|e| |]; try discriminate. cbn [bind] in E. injection E as ->. reflexivity.
    - pose proof (C43_batch m cf w src kd (a :: b :: addrs) (s_new true) new_reachable Hp) as B.
      destruct (fst (symbolize m cf w src kd (a :: b :: addrs) (s_new true))); try discriminate. cbn [bind] in E. injection E as ->. exact B.
  Qed.
  (** Processes *)
  Theorem C74_process : forall p nd nm es addrs t,
    let o := POpts (negb nd) true (negb nm) true in
    uses_vmas w p (s_new true) es -> ordered es -> settled w p o es (s_new true) ->
    cli_symbolize m cf w (RProcess p nd nm) addrs = Ok t ->
    exists xs lines, Forall2 (fun a x => exists y, fst (symbolize_single m cf w (SProcess p o) AbsAddr a (s_new true)) = Ok y /\ answer_of y x) addrs xs /\
      report (combine addrs xs) lines /\ t = text lines.
  Proof.
    intros p nd nm es addrs t o Hu Ho Hs E. unfold cli_symbolize in E. destruct (cli_syms m cf w _ addrs) as [l|k| |] eqn:El; try discriminate. injection E as <-.
    assert (H : Forall2 (fun a y => fst (symbolize_single m cf w (SProcess p o) AbsAddr a (s_new true)) = Ok y) addrs l).
    { unfold cli_syms in El. cbn [source_of] in El. fold o in El.
      pose proof (fun l => C43_process m cf w p o es l (s_new true) new_reachable Hu Ho Hs) as B.
      destruct addrs as [|a [|b addrs]].
      - specialize (B []). rewrite El in B. exact B.
      - destruct (fst (symbolize_single m cf w (SProcess p o) AbsAddr a (s_new true))) as [x|e| |] eqn:Ex; try discriminate. injection El as <-. repeat constructor. auto.
      - specialize (B (a :: b :: addrs)). rewrite El in B. exact B. }
    pose proof (Forall2_length _ _ _ _ _ H) as Hl.
    destruct (print_syms_ok addrs l (eq_sym Hl)) as (xs & lines & H1 & H2 & H3). exists xs, lines. split; auto.
    clear - H H1. revert xs H1. induction H as [|a y addrs l Hy H IH]; intros xs H1; inversion H1; subst; constructor; eauto.
  Qed.
End Symbolize.

(** *** The text says it all: what was asked for and all answers can be told from
    it *)
Theorem C74_unambiguous : forall xs ys lines lines', clean_report xs -> clean_report ys ->
  report xs lines -> report ys lines' -> text lines = text lines' -> xs = ys.
Proof.
  intros xs ys lines lines' Hx Hy R R' E.
  apply text_inj in E; [|exact (report_lines xs lines Hx R)|exact (report_lines ys lines' Hy R')].
  rewrite E in R. exact (report_fun xs lines' R ys Hx Hy R').
Qed.
(** As many headers as addresses *)
Theorem C74_headers : forall xs lines, report xs lines ->
  length (filter (fun l => match l with 48 :: _ => true | _ => false end) lines) = length xs /\
  length lines = fold_right (fun p n => (1 + length (inlined_of (snd p)) + n)%nat) 0%nat xs.
Proof.
  intros xs lines R. induction R as [|a x xs l ls rest Hh Hi R IH]; [auto|]. destruct IH as [I1 I2].
  apply header_starts in Hh. destruct Hh as [r ->]. cbn [filter length fold_right snd]. rewrite filter_app, !app_length, I1, I2.
  rewrite <- (Forall2_length _ _ _ _ _ Hi). split; [|lia]. f_equal.
  replace (filter _ ls) with (@nil (list N)); auto. symmetry.
  induction Hi as [|f l fs ls Hl Hi IH]; auto. apply inlined_starts in Hl. destruct Hl as [r' ->]. exact IH.
Qed.

(** *** Columns *)
Theorem C74_columns : forall a, a < 2 ^ 56 ->
  (forall ad off fn fs l, header a (Found ad off fn fs) l -> exists pre r, l = pre ++ fr_name fn ++ r /\ length pre = 18%nat) /\
  forall f l, inlined_line f l -> exists pre r, l = pre ++ fr_name f ++ r /\ length pre = 18%nat.
Proof.
  intros a Ha. split.
  - intros ad off fn fs l H.
    assert (G : exists ta r, shown_addr a ta /\ l = (ta ++ [58; 32]) ++ fr_name fn ++ r)
      by (inversion H; subst; eexists; eexists; (split; [eassumption|rewrite <- app_assoc; reflexivity])).
    destruct G as (ta & r & T & E). exists (ta ++ [58; 32]), r. split; auto. rewrite app_length.
    destruct T as [s H1 H2 H3 H4]. rewrite app_length. cbn [str_0x length]. destruct H4 as [H4|H4]; [lia|].
    assert (length s <= 14)%nat; [|lia].
    destruct H4 as [H4|H4]; [lia|]. destruct s as [|c s]; [simpl; lia|].
    destruct H1 as (ds & D1 & _ & D2). destruct ds as [|d ds]; [inversion D1|]. inversion D1 as [|? ? ? ? Hc Hs]; subst.
    assert (Hd : 1 <= d).
    { assert (c <> 48) by (intros ->; apply H4; reflexivity). apply Forall_inv in H2. unfold lower, hex_digit in *. lia. }
    assert (G : forall ds acc, acc * 16 ^ N.of_nat (length ds) <= fold_left (fun a d => a * 16 + d) ds acc).
    { clear. induction ds as [|d ds IH]; intros acc; cbn [fold_left length]; [change (N.of_nat 0) with 0; rewrite N.pow_0_r; lia|].
      specialize (IH (acc * 16 + d)). rewrite Nat2N.inj_succ, N.pow_succ_r'. nia. }
    cbn [fold_left] in Ha. specialize (G ds (0 * 16 + d)). apply Forall2_length in Hs. cbn [length] in *. rewrite Hs.
    destruct (Nat.le_gt_cases (length ds) 13) as [L|L]; [lia|]. exfalso.
    assert (16 ^ 14 <= 16 ^ N.of_nat (length ds)) by (apply N.pow_le_mono_r; lia). change (16 ^ 14) with (2 ^ 56) in *. nia.
  - intros f l []. exists (repeat 32 18). eexists. split; reflexivity.
Qed.
(** Addresses of the kernel take more space. *)
Theorem C74_columns_refuted : exists a ta, a < 2 ^ 64 /\ shown_addr a ta /\ length (ta ++ [58; 32]) = 20%nat.
Proof. exists (2 ^ 64 - 2 ^ 31), (hex_16 (2 ^ 64 - 2 ^ 31)). split; [reflexivity|]. split; [apply hex_16_ok|vm_compute; reflexivity]. Qed.

(** ** Examples *)
From Verif Require PropHost PropHostNorm.
Section Examples.
  Let w := host_world ElfExample.no_ext Checked (fun _ _ => 0) PropHost.ex_rest PropHost.ex_host.
  Let ask := cli_symbolize Checked PropHost.ex_cf w.
  (** A library, one that is not there, a process *)
  Example C74_symbolize_ex :
    ask (RElf (path_of PropHost.ex_q) true) [4098; 5] =
      Ok (text [bs "0x00000000001002: main @ 0x1000+0x2"%string; bs "0x00000000000005: <no-symbol>"%string]) /\
    ask (RElf (path_of PropHost.ex_gone) true) [4098; 5] = Err ENotFound /\
    ask (RProcess (Pid 7) true false) [4194304 + 178; 7340032 + 178; 0] =
      Ok (text [bs "0x000000004000b2: main @ 0x1000+0x2"%string; bs "0x000000007000b2: main @ 0x1000+0x2"%string;
                bs "0x00000000000000: <no-symbol>"%string]).
  Proof. split; [|split]; vm_compute; reflexivity. Qed.
  (** Breakpad files: lines and inlined functions *)
  Example C74_breakpad_ex :
    cli_symbolize Checked (Config WithInlined (fun n _ => n) 1) w (RBreakpad (path_of [47; 98])) [4101; 4200] =
    Ok (text [bs "0x00000000001005: f @ 0x1000+0x5 src/a.c:9"%string;
              bs "                  g @ src/a.c:7 [inlined]"%string;
              bs "0x00000000001068: <no-symbol>"%string]).
  Proof. vm_compute. reflexivity. Qed.
End Examples.

Example C74_unambiguous_ex : clean (Found 4096 5 (Frame (bs "f"%string) (Some (Place (bs "src/a.c"%string) (Some 9) None)))
  [Frame (bs "g"%string) (Some (Place (bs "src/a.c"%string) (Some 7) None))]).
Proof.
  assert (A : forall c, no_pair 32 64 [c]) by (intros c [|x a] b E; [discriminate|destruct a; discriminate]).
  split; [|constructor; [|constructor]]; (split; [repeat constructor; discriminate|]); (split; [apply A|]); split; repeat constructor; discriminate.
Qed.

Print Assumptions C74_symbolize.
Print Assumptions C74_error.
Print Assumptions C74_process.
Print Assumptions C74_unambiguous.
Print Assumptions C74_headers.
Print Assumptions C74_columns.
Print Assumptions C74_columns_refuted.
