(** * Perf maps

    Claim C37 of /verif/properties.jsonl. *)

From Coq Require Import String Permutation.
From Verif Require Import Base Lists Util UtilProofs Text Nom Maps MapsProofs Num Sym PerfMap PerfSpec.
Local Close Scope string_scope.
Local Open Scope N_scope.

(** ** Reading *)
Lemma gap_ws : forall c, gap c -> is_ws c = true.
Proof. intros c [->|[->| ->]]; reflexivity. Qed.
Lemma parse_line_ok : forall e s, perf_line e s -> parse_perf_map_line s = Ok e.
Proof.
  intros e s H. destruct H as [name addr size a c1 sz c2 Ha H1 Hs H2 Hn Hu Hva Hvs].
  unfold parse_perf_map_line.
  rewrite split_once_app by (try apply gap_ws; auto; apply word_ws, (hex_word addr a Ha)). cbn [of_option bind].
  rewrite (utf8_ascii a) by (eapply number_ascii; exact Ha). rewrite (hex_ok two64 addr a Ha Hva). cbn [of_option bind].
  rewrite split_once_app by (try apply gap_ws; auto; apply word_ws, (hex_word size sz Hs)). cbn [of_option bind].
  rewrite (utf8_ascii sz) by (eapply number_ascii; exact Hs). rewrite (hex_ok two64 size sz Hs Hvs). cbn [of_option bind].
  apply utf8_valid_iff in Hu. now rewrite Hu.
Qed.
Lemma hex_digit_nl : forall c d, hex_digit c d -> ~ nl c.
Proof. unfold hex_digit, nl. intros. lia. Qed.
Lemma hex_no_nl : forall v s, hex_text v s -> Forall (fun c => ~ nl c) s.
Proof. intros v s (ds & H & _). induction H; constructor; auto. eapply hex_digit_nl; eauto. Qed.
Lemma perf_line_nl : forall e s, perf_line e s -> Forall (fun c => ~ nl c) s /\ s <> [].
Proof.
  intros e s H. destruct H as [name addr size a c1 sz c2 Ha H1 Hs H2 Hn Hu Hva Hvs]. split.
  - apply Forall_app. split; [eapply hex_no_nl; eauto|]. constructor; [unfold gap, nl in *; lia|].
    apply Forall_app. split; [eapply hex_no_nl; eauto|]. constructor; auto. unfold gap, nl in *; lia.
  - destruct a; discriminate.
Qed.
Definition nlb (b : N) : bool := (b =? 10) || (b =? 13).
Lemma nlb_true : forall c, nl c -> nlb c = true.
Proof. intros c [->| ->]; reflexivity. Qed.
Lemma nlb_false : forall c, ~ nl c -> nlb c = false.
Proof.
  intros c H. unfold nlb, nl in *. destruct (N.eqb_spec c 10); [tauto|]. destruct (N.eqb_spec c 13); [tauto|reflexivity].
Qed.
Lemma collect_ok : forall es t, perf_text es t ->
  collect parse_perf_map_line (filter (fun line => negb (is_empty line)) (split nlb t)) = Ok es.
Proof.
  intros es t H. induction H as [|es c t Hc H IH|e s He|e s es c t He Hc H IH].
  - reflexivity.
  - cbn [split]. rewrite nlb_true by auto. exact IH.
  - destruct (perf_line_nl e s He) as [Hn Hs].
    rewrite split_last by (eapply Forall_impl; [|exact Hn]; exact nlb_false). cbn [filter].
    destruct s; [congruence|]. cbn [is_empty negb collect]. now rewrite (parse_line_ok e).
  - destruct (perf_line_nl e s He) as [Hn Hs].
    rewrite split_app; [|eapply Forall_impl; [|exact Hn]; exact nlb_false|now apply nlb_true]. cbn [filter].
    destruct s; [congruence|]. cbn [is_empty negb collect]. rewrite (parse_line_ok e) by auto. cbn [bind].
    now rewrite IH.
Qed.

Lemma pf_leb_iff : forall a b, pf_leb a b = true <->
  pf_addr a < pf_addr b \/ (pf_addr a = pf_addr b /\ pf_size a <= pf_size b).
Proof. intros a b. unfold pf_leb. rewrite orb_true_iff, andb_true_iff, N.ltb_lt, N.eqb_eq, N.leb_le. tauto. Qed.
Lemma pf_total : forall a b, pf_leb a b = true \/ pf_leb b a = true.
Proof. intros a b. rewrite !pf_leb_iff. lia. Qed.
Lemma pf_trans : forall a b c, pf_leb a b = true -> pf_leb b c = true -> pf_leb a c = true.
Proof. intros a b c. rewrite !pf_leb_iff. lia. Qed.

(** Every line is honoured, and nothing else. *)
Theorem C37_parse : forall es t, perf_text es t ->
  exists fs, parse_perf_map t = Ok fs /\ Permutation es fs /\
    StronglySorted (fun a b => pf_addr a < pf_addr b \/ (pf_addr a = pf_addr b /\ pf_size a <= pf_size b)) fs.
Proof.
  intros es t H. exists (isort pf_leb es). unfold parse_perf_map. fold nlb. rewrite (collect_ok es t H). cbn [bind].
  split; [reflexivity|]. split; [apply isort_perm|].
  pose proof (isort_sorted pf_leb pf_total pf_trans es) as Hs. unfold sorted in Hs.
  induction Hs as [|x l Hs IH HF]; constructor; auto.
  eapply Forall_impl; [|exact HF]. intros y Hy. now apply pf_leb_iff.
Qed.
Print Assumptions C37_parse.

(** ** Lookups *)
Section Find.
  Context (m : mode) (fs : list pfn).
  Hypothesis Hs : StronglySorted (fun a b => pf_addr a < pf_addr b \/ (pf_addr a = pf_addr b /\ pf_size a <= pf_size b)) fs.

  Lemma fs_ksorted : ksorted pf_addr fs.
  Proof.
    apply StronglySorted_ksorted. clear - Hs. induction Hs as [|x l H IH HF]; constructor; auto.
    eapply Forall_impl; [|exact HF]. cbv beta. intros. lia.
  Qed.
  (** What the loop finds *)
  Lemma find_loop_sound : forall addr l f, (forall g, In g l -> pf_addr g < 2 ^ 64) ->
    find_loop m addr l = Ok (Some f) -> In f l /\ at_fn f addr.
  Proof.
    intros addr. induction l as [|g l IH]; intros f Hb H; cbn [find_loop] in H; [discriminate|].
    destruct (N.ltb_spec addr (pf_addr g)); [discriminate|].
    destruct ((pf_addr g =? addr) && (pf_size g =? 0)) eqn:Ez.
    { injection H as <-. apply andb_true_iff in Ez. destruct Ez as [E1 E2]. apply N.eqb_eq in E1, E2.
      split; [now left|]. right. auto. }
    unfold add64 in H. ib H e0 E. destruct (N.ltb_spec addr e0) as [Hlt|Hge].
    - injection H as <-. split; [now left|]. left. split; auto. unfold uadd, wrap in E.
      destruct (_ <? _); [injection E as <-; auto|]. destruct m; [discriminate|]. injection E as <-.
      pose proof (N.mod_le (pf_addr g + pf_size g) two64 ltac:(discriminate)). lia.
    - apply IH in H; [|intros; apply Hb; now right]. destruct H. split; auto. now right.
  Qed.
  Lemma find_loop_none : forall addr l, StronglySorted (fun a b => pf_addr a <= pf_addr b) l -> Forall fits l ->
    (exists f, find_loop m addr l = Ok (Some f)) \/
    (find_loop m addr l = Ok None /\ forall f, In f l -> ~ at_fn f addr).
  Proof.
    intros addr l Hl Hf. induction Hl as [|g l Hl IH HF]; cbn [find_loop]; [right; auto|].
    inversion Hf as [|? ? Hg Hf']; subst. specialize (IH Hf').
    destruct (N.ltb_spec addr (pf_addr g)) as [Hlt|Hge].
    { right. split; auto. intros f [<-|Hin] Hat; unfold at_fn in Hat; [lia|].
      rewrite Forall_forall in HF. apply HF in Hin. lia. }
    destruct ((pf_addr g =? addr) && (pf_size g =? 0)) eqn:Ez; [left; eauto|].
    unfold add64. rewrite uadd_small by (unfold two64; exact Hg). cbn [bind].
    destruct (N.ltb_spec addr (pf_addr g + pf_size g)) as [Hlt|Hge2]; [left; eauto|].
    destruct IH as [IH|[IH1 IH2]]; [now left|]. right. split; auto. intros f [<-|Hin]; [|now apply IH2].
    intros [Hat|[Hz ->]]; [lia|]. rewrite N.eqb_refl in Ez. apply N.eqb_eq in Hz. rewrite Hz in Ez. discriminate.
  Qed.
End Find.

Definition sym_of (f : pfn) : resolved_sym :=
  ResolvedSym (pf_name f) None (pf_addr f) (Some (pf_size f)) LangUnknown None [].

(** A function that is reported has the address, and starts closest. *)
Theorem C37_sound : forall m es t fs addr s, perf_text es t -> parse_perf_map t = Ok fs ->
  perf_find_sym m fs addr = Ok (inl s) ->
  exists f, In f es /\ at_fn f addr /\ closest_fn es f addr /\ reported_fn f s.
Proof.
  intros m es t fs addr s Ht Hp H. destruct (C37_parse es t Ht) as (fs' & E & Hperm & Hs).
  rewrite Hp in E. injection E as <-. unfold perf_find_sym in H.
  assert (Hlt : forall g, In g fs -> pf_addr g < 2 ^ 64).
  { intros g Hg. apply (Permutation_in g (Permutation_sym Hperm)) in Hg. clear - Ht Hg.
    induction Ht as [| |e s He|e s es c t He Hc Ht IH]; auto; [destruct Hg| |].
    - destruct Hg as [<-|[]]. destruct He; auto.
    - destruct Hg as [<-|Hg]; auto. destruct He; auto. }
  pose proof (fs_ksorted fs Hs) as Hk.
  assert (Hgo : forall i e, nth_error fs i = Some e -> pf_addr e <= addr ->
    (forall y, In y fs -> pf_addr y <= addr -> pf_addr y <= pf_addr e) ->
    forall f, find_loop m addr (skipn i fs) = Ok (Some f) -> In f es /\ at_fn f addr /\ closest_fn es f addr).
  { intros i e He Hle Hmax f Hf. apply find_loop_sound in Hf; [|intros g Hg; apply Hlt; now apply in_skipn in Hg].
    destruct Hf as [Hin Hat]. apply skipn_in_nth in Hin. destruct Hin as (j & Hj & Hj').
    assert (Hin : In f fs) by (eapply nth_error_In; eauto).
    split; [apply (Permutation_in f (Permutation_sym Hperm)); auto|]. split; auto. split.
    - unfold at_fn in Hat. lia.
    - intros g Hg Hga. apply (Permutation_in g Hperm) in Hg. apply Hmax in Hg; auto.
      pose proof (Hk _ _ _ _ Hj He Hj'). lia. }
  destruct (flb_cases pf_addr fs addr Hk) as [[E _]|[(i & e & E & He & Hx & _)|(i & e & E & He & Hx & Hmax & _)]];
    rewrite E in H; [discriminate|..].
  - ib H o Ef. destruct o as [f|]; [|discriminate]. injection H as <-. exists f.
    destruct (Hgo i e He ltac:(lia) ltac:(intros; lia) f Ef) as (H1 & H2 & H3). repeat split; auto; apply H3.
  - ib H o Ef. destruct o as [f|]; [|discriminate]. injection H as <-. exists f.
    destruct (Hgo i e He ltac:(lia) Hmax f Ef) as (H1 & H2 & H3). repeat split; auto; apply H3.
Qed.
Print Assumptions C37_sound.

(** A function having the address is found, if none starts in between. *)
Theorem C37_closest : forall m es t fs f addr, perf_text es t -> parse_perf_map t = Ok fs -> Forall fits es ->
  In f es -> at_fn f addr -> closest_fn es f addr ->
  exists s, perf_find_sym m fs addr = Ok (inl s).
Proof.
  intros m es t fs f addr Ht Hp Hf Hin Hat [Hle Hcl]. destruct (C37_parse es t Ht) as (fs' & E & Hperm & Hs).
  rewrite Hp in E. injection E as <-. unfold perf_find_sym.
  pose proof (fs_ksorted fs Hs) as Hk.
  assert (Hin' : In f fs) by now apply (Permutation_in f Hperm).
  assert (Hff : Forall fits fs) by now apply (Permutation_Forall Hperm).
  assert (Hgo : forall i, (exists g, In g (skipn i fs) /\ at_fn g addr) ->
    exists s, (let* o := find_loop m addr (skipn i fs) in
      match o with
      | Some f => Ok (inl (ResolvedSym (pf_name f) None (pf_addr f) (Some (pf_size f)) LangUnknown None []))
      | None => Ok (inr UnknownAddr)
      end) = Ok (inl s)).
  { intros i (g & Hg & Hga).
    destruct (find_loop_none m addr (skipn i fs)) as [[h Hh]|[_ Hno]].
    - apply skipn_sorted. now apply ksorted_StronglySorted.
    - apply Forall_forall. intros h Hh. apply in_skipn in Hh. rewrite Forall_forall in Hff. auto.
    - rewrite Hh. cbn [bind]. eauto.
    - exfalso. eapply Hno; eauto. }
  apply In_nth_error in Hin'. destruct Hin' as [k Hkf].
  destruct (flb_cases pf_addr fs addr Hk) as [[E Hno]|[(i & e & E & He & Hx & Hrun)|(i & e & E & He & Hx & Hmax & Hrun)]];
    rewrite E.
  - exfalso. apply nth_error_In in Hkf. apply Hno in Hkf. lia.
  - apply Hgo. exists f. split; auto. apply nth_in_skipn with k; auto.
    assert (Hfa : pf_addr f = addr).
    { assert (pf_addr e <= pf_addr f); [|lia]. apply Hcl; [|lia]. apply (Permutation_in e (Permutation_sym Hperm)).
      eapply nth_error_In; eauto. }
    destruct (Nat.le_gt_cases i k); auto. exfalso. apply (Hrun k e f); auto. congruence.
  - assert (Hfe : pf_addr f = pf_addr e).
    { apply N.le_antisymm; [apply Hmax; auto; eapply nth_error_In; eauto|]. apply Hcl; [|lia].
      apply (Permutation_in e (Permutation_sym Hperm)). eapply nth_error_In; eauto. }
    apply Hgo. destruct Hrun as [[_ Hrun]|[_ Hrun]].
    + exists f. split; auto. apply nth_in_skipn with k; auto.
      destruct (Nat.le_gt_cases i k); auto. exfalso. apply (Hrun k e f); auto.
    + (* the last of them is the largest *)
      exists e. split; [apply nth_in_skipn with i; auto|].
      destruct (Nat.eq_dec i k) as [->|Hne]; [assert (e = f) by congruence; now subst|].
      assert (Hki : (k < i)%nat).
      { destruct (Nat.le_gt_cases i k); auto. exfalso. apply (Hrun k e f); auto. lia. }
      pose proof (StronglySorted_nth _ _ fs k i f e Hs Hki Hkf He) as Hsz. cbv beta in Hsz.
      left. unfold at_fn in Hat. lia.
Qed.
Print Assumptions C37_closest.

(** So, without overlaps, all are found. *)
Theorem C37_found : forall m es t fs f addr, perf_text es t -> parse_perf_map t = Ok fs -> Forall fits es ->
  disjoint_fns es -> In f es -> at_fn f addr ->
  exists s, perf_find_sym m fs addr = Ok (inl s) /\ reported_fn f s.
Proof.
  intros m es t fs f addr Ht Hp Hf Hd Hin Hat.
  assert (Hmax : closest_fn es f addr).
  { split; [unfold at_fn in Hat; lia|]. intros g Hg Hga.
    destruct (N.le_gt_cases (pf_addr g) (pf_addr f)) as [|Hgt]; auto. exfalso.
    apply In_nth_error in Hin, Hg. destruct Hin as [i Hi], Hg as [j Hj].
    assert (i = j).
    { apply (Hd i j f g (pf_addr g)); auto.
      - left. unfold at_fn in Hat. lia.
      - unfold at_fn. destruct (N.eq_dec (pf_size g) 0); [right; auto|left; lia]. }
    subst j. assert (f = g) by congruence. subst. lia. }
  destruct (C37_closest m es t fs f addr Ht Hp Hf Hin Hat Hmax) as [s Hs]. exists s. split; auto.
  destruct (C37_sound m es t fs addr s Ht Hp Hs) as (g & Hg & Hga & _ & Hr).
  apply In_nth_error in Hin, Hg. destruct Hin as [i Hi], Hg as [j Hj].
  assert (i = j) by (apply (Hd i j f g addr); auto). subst j. congruence.
Qed.
Print Assumptions C37_found.

(** Other addresses are unknown. *)
Theorem C37_unknown : forall m es t fs addr, perf_text es t -> parse_perf_map t = Ok fs -> Forall fits es ->
  (forall f, In f es -> ~ at_fn f addr) -> perf_find_sym m fs addr = Ok (inr UnknownAddr).
Proof.
  intros m es t fs addr Ht Hp Hf Hno. destruct (C37_parse es t Ht) as (fs' & E' & Hperm & Hs).
  rewrite Hp in E'. injection E' as <-.
  assert (H : exists r, perf_find_sym m fs addr = Ok r /\ forall r', r = inr r' -> r' = UnknownAddr).
  { unfold perf_find_sym. destruct (find_match_or_lower_bound_by_key fs addr pf_addr) as [i|].
    2: { eexists. split; [reflexivity|]. congruence. }
    destruct (find_loop_none m addr (skipn i fs)) as [[h Hh]|[Hh _]]; try rewrite Hh; cbn [bind].
    - apply skipn_sorted, ksorted_StronglySorted, fs_ksorted, Hs.
    - apply Forall_forall. intros h Hh. apply in_skipn in Hh. apply (Permutation_Forall Hperm) in Hf.
      rewrite Forall_forall in Hf. auto.
    - eexists. split; [reflexivity|]. discriminate.
    - eexists. split; [reflexivity|]. congruence. }
  destruct H as ([s|r] & E & Hr).
  - exfalso. destruct (C37_sound m es t fs addr s Ht Hp E) as (f & H1 & H2 & _). eapply Hno; eauto.
  - rewrite E. now rewrite (Hr r eq_refl).
Qed.
Print Assumptions C37_unknown.

(** ** Examples *)

(** A map, checked by printing it again *)
Definition ex_text : list N := bs "10 8 first
"%string ++ [13; 10] ++ bs "0020	4 void f(int, char *)
30 0 stub
FFFFfff0 f last"%string.
Definition ex_fns : list pfn :=
  [PFn (bs "first"%string) 16 8; PFn (bs "void f(int, char *)"%string) 32 4;
   PFn (bs "stub"%string) 48 0; PFn (bs "last"%string) 4294967280 15].
Lemma line_check : forall name addr size a c1 s c2,
  digits_loop 16 (2 ^ 70) 0 a = Some addr -> a <> [] -> gap c1 ->
  digits_loop 16 (2 ^ 70) 0 s = Some size -> s <> [] -> gap c2 ->
  forallb (fun c => negb (nlb c)) name = true -> utf8_valid name = true -> addr < 2 ^ 64 -> size < 2 ^ 64 ->
  perf_line (PFn name addr size) (a ++ c1 :: s ++ c2 :: name).
Proof.
  intros. constructor; auto using hex_check.
  - apply Forall_forall. intros c Hc. rewrite forallb_forall in H5. apply H5 in Hc. intros Hn.
    rewrite nlb_true in Hc by auto. discriminate.
  - now apply utf8_valid_iff.
Qed.
Ltac line a c1 s c2 := apply (line_check _ _ _ a c1 s c2); vm_compute; try reflexivity; try discriminate; auto.
Lemma ex_perf : perf_text ex_fns ex_text.
Proof.
  change ex_text with (bs "10 8 first"%string ++ 10 :: 13 :: 10 :: bs "0020	4 void f(int, char *)"%string ++ 10 ::
    bs "30 0 stub"%string ++ 10 :: bs "FFFFfff0 f last"%string).
  unfold ex_fns. apply PTCons; [line (bs "10"%string) 32 (bs "8"%string) 32|now left|].
  apply PTBlank; [now right|]. apply PTBlank; [now left|].
  apply PTCons; [line (bs "0020"%string) 9 (bs "4"%string) 32|now left|].
  apply PTCons; [line (bs "30"%string) 32 (bs "0"%string) 32|now left|].
  apply PTLast. line (bs "FFFFfff0"%string) 32 (bs "f"%string) 32.
Qed.
Example C37_example :
  perf_text ex_fns ex_text /\ Forall fits ex_fns /\ disjoint_fns ex_fns /\
  parse_perf_map ex_text = Ok ex_fns /\
  map (perf_find_sym Checked ex_fns) [15; 16; 23; 24; 35; 48; 49; 4294967294] =
    [Ok (inr UnknownAddr); Ok (inl (sym_of (PFn (bs "first"%string) 16 8)));
     Ok (inl (sym_of (PFn (bs "first"%string) 16 8))); Ok (inr UnknownAddr);
     Ok (inl (sym_of (PFn (bs "void f(int, char *)"%string) 32 4)));
     Ok (inl (sym_of (PFn (bs "stub"%string) 48 0))); Ok (inr UnknownAddr);
     Ok (inl (sym_of (PFn (bs "last"%string) 4294967280 15)))].
Proof.
  split; [exact ex_perf|]. split; [repeat constructor|]. split; [|split; vm_compute; reflexivity].
  intros i j f g a Hi Hj Hf Hg. unfold ex_fns in Hi, Hj.
  destruct i as [|[|[|[|i]]]]; try (destruct i; discriminate); injection Hi as <-;
    (destruct j as [|[|[|[|j]]]]; try (destruct j; discriminate); injection Hj as <-); auto;
    exfalso; unfold at_fn in *; cbn [pf_addr pf_size] in *; lia.
Qed.

(** An address of a function behind another one within it is unknown. *)
Theorem C37_nested_refuted : exists m es t fs f addr,
  perf_text es t /\ parse_perf_map t = Ok fs /\ Forall fits es /\ In f es /\ at_fn f addr /\
  perf_find_sym m fs addr = Ok (inr UnknownAddr).
Proof.
  exists Checked, [PFn (bs "f"%string) 16 64; PFn (bs "g"%string) 32 8], (bs "10 40 f
20 8 g
"%string), [PFn (bs "f"%string) 16 64; PFn (bs "g"%string) 32 8], (PFn (bs "f"%string) 16 64), 48.
  split.
  { change (bs "10 40 f
20 8 g
"%string) with (bs "10 40 f"%string ++ 10 :: bs "20 8 g"%string ++ 10 :: []).
    apply PTCons; [line (bs "10"%string) 32 (bs "40"%string) 32|now left|].
    apply PTCons; [line (bs "20"%string) 32 (bs "8"%string) 32|now left|constructor]. }
  split; [reflexivity|]. split; [repeat constructor|]. split; [now left|]. split; [left; cbn; lia|reflexivity].
Qed.
Print Assumptions C37_nested_refuted.

(** A function up to the end of the address space is lost, or the end of the
    program. *)
Theorem C37_overflow_refuted : exists es t fs f addr,
  perf_text es t /\ parse_perf_map t = Ok fs /\ disjoint_fns es /\ In f es /\ at_fn f addr /\
  perf_find_sym Wrapping fs addr = Ok (inr UnknownAddr) /\ perf_find_sym Checked fs addr = Panic.
Proof.
  exists [PFn (bs "f"%string) 18446744073709551600 16], (bs "fffffffffffffff0 10 f"%string), [PFn (bs "f"%string) 18446744073709551600 16],
    (PFn (bs "f"%string) 18446744073709551600 16), 18446744073709551601.
  split; [apply PTLast; line (bs "fffffffffffffff0"%string) 32 (bs "10"%string) 32|].
  split; [reflexivity|]. split.
  { intros [|[|i]] [|[|j]] f g a Hi Hj; try reflexivity; discriminate. }
  split; [now left|]. split; [left; cbn; lia|]. split; reflexivity.
Qed.
Print Assumptions C37_overflow_refuted.

(** One line that is no function costs all others. *)
Theorem C37_malformed_refuted : exists e s rest k, perf_line e s /\ parse_perf_map (s ++ 10 :: rest) = Err k.
Proof.
  exists (PFn (bs "f"%string) 16 64), (bs "10 40 f"%string), (bs "20 8"%string), EInvalidData.
  split; [line (bs "10"%string) 32 (bs "40"%string) 32|]. reflexivity.
Qed.
Print Assumptions C37_malformed_refuted.

(** ** The file *)

From Verif Require Import PropMaps FileCache Normalize Symbolizer.

(** The map of a process is /tmp/perf-<its process ID>.map, that of the process itself
    being found by its own ID. *)
Theorem C37_path : forall cf p, exists digits,
  perf_path cf p = path_of (bs "/tmp/perf-"%string ++ digits ++ bs ".map"%string) /\
  forall n, (p = Pid n \/ p = Slf /\ n = cf_self cf) -> shortest_text 10 digits n.
Proof.
  intros cf p. eexists. split; [reflexivity|]. intros n H.
  destruct (fmt_num_spec 10 (match p with Slf => cf_self cf | Pid n => n end) ltac:(lia)) as (k & E & Hk).
  destruct H as [-> |[-> ->]]; exists k; unfold fmt_dec; rewrite E, text_of_num_text by lia; auto.
Qed.
Print Assumptions C37_path.
(** Names of files are told apart by their identifiers. *)
Lemma path_of_inj : forall a b, Forall (fun x => x < 256) a -> Forall (fun x => x < 256) b -> path_of a = path_of b -> a = b.
Proof.
  unfold path_of. induction a as [|x a IH]; intros [|y b] Ha Hb E; auto; cbn [fold_right] in E.
  - lia.
  - lia.
  - inversion Ha; inversion Hb; subst.
    set (A := fold_right (fun b acc => b + 1 + 257 * acc) 0 a) in *. set (B := fold_right (fun b acc => b + 1 + 257 * acc) 0 b) in *.
    assert (x = y) by (apply (f_equal (fun v => v mod 257)) in E; rewrite !(N.mul_comm 257), !N.mod_add, !N.mod_small in E by lia; lia).
    subst y. f_equal. apply IH; auto. fold A B. lia.
Qed.
