(** * Results of inspection on the heap *)

From Coq Require Import ZArith Permutation.
From Verif Require Import Base Util UtilProofs Text Bytes Sym Inspect Symbolizer Normalize Inspector CapiIn CapiSpec CapiOut CapiProofs CapiCalls CapiCallsSpec CapiEnd CapiEndSpec CapiNorm CapiNormSpec CapiNormProofs CapiInsp CapiInspSpec CapiWrite PropCapiOut PropCapiCalls PropCapiNorm.
Local Open Scope N_scope.
Local Notation length := List.length.

(** ** Sizes *)
Lemma results_size_ok : forall m l, fits (results_room l) -> results_size m l = Ok (results_room l).
Proof.
  intros m l Hf. unfold fits in *. assert (L64 : two64 = 2 ^ 64) by reflexivity. unfold results_room in Hf. unfold results_size.
  rewrite totals_ok by lia. cbn [bind]. rewrite !N.add_0_l. rewrite size_syms, size_sym, size_inlined.
  rewrite add64_ok by lia. cbn [bind]. rewrite add64_ok by lia. cbn [bind].
  rewrite mul64_ok by lia. cbn [bind]. rewrite add64_ok by lia. cbn [bind].
  rewrite mul64_ok by lia. cbn [bind]. rewrite add64_ok by lia. cbn [bind].
  rewrite layout8_ok by (unfold fits; lia). f_equal. unfold results_room. lia.
Qed.
Lemma syms_list_size_ok : forall m l, fits (lists_room l) -> syms_list_size m l = Ok (lists_room l).
Proof.
  intros m l Hi. unfold fits in *. assert (L64 : two64 = 2 ^ 64) by reflexivity. unfold lists_room in Hi. fold list_infos in Hi. unfold syms_list_size.
  rewrite (sum_ok _ _ _ list_infos).
  2: { lia. }
  2: { intros x Hx. now apply add64_ok. }
  cbn [bind].
  rewrite (sum_ok _ _ _ (sum_room info_room)).
  2: { lia. }
  2: { intros x Hx. apply (sum_ok _ _ _ info_room); auto. intros y Hy. now apply info_size_ok. }
  cbn [bind]. rewrite !N.add_0_l.
  rewrite mul64_ok by lia. cbn [bind].
  replace ((8 * nlen l + 7) / 8) with (nlen l).
  2: { rewrite N.mul_comm. rewrite N.div_add_l by discriminate. change (7 / 8) with 0. lia. }
  rewrite mul64_ok by lia. cbn [bind]. rewrite size_info.
  rewrite mul64_ok by lia. cbn [bind]. rewrite add64_ok by lia. cbn [bind].
  rewrite add64_ok by lia. cbn [bind]. rewrite add64_ok by lia. cbn [bind].
  rewrite layout8_ok by (unfold fits; lia). f_equal. unfold lists_room. fold list_infos. lia.
Qed.

(** ** What is read stays *)
Lemma c_lists_agree : forall g g' l a rs, c_lists g a l rs -> agree g g' rs -> c_lists g' a l rs.
Proof.
  intros g g'. induction l as [|i l IH]; intros a rs H E; simpl in *; auto. destruct H as (p & r1 & r2 & H1 & H2 & H3 & ->).
  exists p, r1, r2. split.
  { eapply num_agree; [exact H1|]. intros j Hj. apply (E (a, 8) j); [now left|exact Hj]. }
  split. { eapply c_infos_agree; [exact H2|]. intros r j Hr. apply E. right. apply in_or_app. auto. }
  split; [|reflexivity]. apply IH; auto. intros r j Hr. apply E. right. apply in_or_app. auto.
Qed.
Lemma c_syms_agree : forall g g' p l rs, c_syms g p l rs -> agree g g' rs -> c_syms g' p l rs.
Proof.
  intros g g' p l rs (r & H1 & H2 & ->) E. exists r. split; [|split; [|reflexivity]].
  - eapply num_agree; [exact H1|]. intros j Hj. apply (E (p, 8) j); [now left|exact Hj].
  - eapply c_sym_array_agree; [exact H2|]. intros q j Hq. apply E. now right.
Qed.
Lemma block_agree : forall g g' p (there there' : list region -> Prop) bs, in_block g p there bs ->
  (forall rs, there rs -> agree g g' rs -> there' rs) -> (forall i, covered bs i -> g' i = g i) -> in_block g' p there' bs.
Proof.
  intros g g' p there there' bs (size & front & parts & H8 & Hf & Hl & Hv & Hs & Ht & Ha & Hi & ->) Hag E.
  assert (E' : forall i, p - 8 <= i < p - 8 + size -> g' i = g i) by (intros i Hi'; apply E; constructor; exact Hi').
  exists size, front, parts. split; [exact H8|]. split; [eapply has_agree; [exact Hf|]; intros i Hi'; apply E'; unfold nlen in Hi'; rewrite Hl in Hi'; lia|].
  split; [exact Hl|]. split; [exact Hv|]. split; [exact Hs|]. split; [|split; [exact Ha|split; [exact Hi|reflexivity]]].
  apply Hag; [exact Ht|]. intros r i Hr Hri. rewrite Forall_forall in Hi. destruct (Hi r Hr) as (K1 & K2). apply E'. lia.
Qed.
Lemma thing_agree : forall g g' p t bs, c_thing g p t bs -> (forall i, covered bs i -> g' i = g i) -> c_thing g' p t bs.
Proof.
  intros g g' p t bs H E. destruct t as [l|l|o|b]; cbn [c_thing] in *.
  - eapply block_agree; [exact H| |exact E]. intros rs Hr Ha. eapply c_syms_agree; eauto.
  - eapply block_agree; [exact H| |exact E]. intros rs Hr Ha. eapply c_lists_agree; eauto.
  - eapply c_user_output_agree; eauto.
  - destruct H as (Hp & Hb & ->). split; [exact Hp|]. split; [|reflexivity]. eapply has_agree; [exact Hb|]. intros i Hi. apply E. constructor. cbn. lia.
Qed.

(** ** Allocations with their sizes in front *)
Lemma read_back_has : forall n b a l, read_back b a n = Ok l -> length l = n /\ has (blk_get b) a l.
Proof.
  induction n as [|n IH]; intros b a l H; cbn [read_back] in H.
  - injection H as <-. split; [reflexivity|]. intros [|i] v E; discriminate E.
  - destruct ((blk_base b <=? a) && (a <? blk_base b + blk_size b)); [|discriminate].
    destruct (blk_get b a) as [v|] eqn:Eg; cbn [unwrap bind] in H; [|discriminate].
    destruct (read_back b (a + 1) n) as [l'| | |] eqn:Er; cbn [bind] in H; try discriminate. injection H as <-.
    destruct (IH _ _ _ Er) as (Hl & Hh). split; [cbn; now rewrite Hl|]. change (v :: l') with ([v] ++ l'). apply has_app. split; [|exact Hh].
    intros [|[|i]] u Eu; try discriminate Eu. injection Eu as <-. now rewrite N.add_0_r.
Qed.
Section Alloc.
  Context (al : allocator) (Hal : sound al).
  Lemma block_made : forall SZ conv (there : mem -> N -> list region -> Prop) h, 8 <= SZ -> fits SZ ->
    (forall base, place base SZ -> exists g rs, conv base = Ok (Some (Block base SZ g, base + 8)) /\ there g (base + 8) rs /\ all_apart rs /\
       Forall (inside (base + 8) (base + SZ)) rs /\ free_syms (Block base SZ g) (base + 8) = Ok (base, SZ)) ->
    conv 0 = Ok None -> (forall g g' p rs, there g p rs -> agree g g' rs -> there g' p rs) ->
    (exists p h' bs, new_block al (Ok SZ) conv h = Ok (Some (p, h')) /\ in_block (hp_get h') p (there (hp_get h') p) bs /\ grows h h' bs 0 0) \/
    (new_block al (Ok SZ) conv h = Ok None /\ al h SZ 8 = 0).
  Proof.
    intros SZ conv there h H8 Hf Hc H0 Ht. unfold new_block. cbn [bind].
    destruct (N.eq_dec (al h SZ 8) 0) as [E|E]; [right; rewrite E, H0; auto|left].
    destruct (Hal h SZ 8 ltac:(lia) E) as (A1 & A2 & A3). set (base := al h SZ 8) in *.
    destruct (Hc base) as (g & rs & -> & Th & Ap & In_ & Fr); [split; [lia|auto]|]. cbn [bind].
    exists (base + 8), (with_block (Block base SZ g) h), [Lay base SZ 8]. split; [reflexivity|].
    assert (E2 : forall i, base <= i < base + SZ -> hp_get (with_block (Block base SZ g) h) i = g i).
    { intros i Hi. cbn [with_block hp_get blk_base blk_size blk_get]. unfold in_lay. cbn [l_base l_size]. destruct (N.leb_spec base i); [|lia]. destruct (N.ltb_spec i (base + SZ)); [reflexivity|lia]. }
    unfold free_syms in Fr. replace (base + 8 - 8) with base in Fr by lia.
    destruct (read_back (Block base SZ g) base 8) as [front| | |] eqn:Er; cbn [bind] in Fr; try discriminate.
    destruct (read_back_has _ _ _ _ Er) as (Fl & Fh). cbn [blk_get] in Fh.
    assert (Fv : le_val front = SZ) by (unfold layout8 in Fr; destruct (le_val front <=? 2 ^ 63 - 8); cbn [bind] in Fr; congruence).
    split.
    - exists SZ, front, rs. replace (base + 8 - 8) with base by lia. split; [lia|]. split.
      { eapply has_agree; [exact Fh|]. intros i Hi. unfold nlen in Hi. rewrite Fl in Hi. apply E2. lia. }
      split; [exact Fl|]. split; [exact Fv|]. split; [unfold fits in Hf; lia|]. split; [|split; [exact Ap|split; [exact In_|reflexivity]]].
      eapply Ht; [exact Th|]. intros r i Hr Hi. rewrite Forall_forall in In_. destruct (In_ r Hr) as (K1 & K2). apply E2. lia.
    - constructor.
      + apply Permutation_refl.
      + constructor; [exact A3|constructor].
      + constructor; constructor.
      + intros i Hi _. cbn [with_block hp_get blk_base blk_size]. unfold in_lay. cbn [l_base l_size]. destruct (N.leb_spec base i); [|reflexivity].
        destruct (N.ltb_spec i (base + SZ)); [|reflexivity]. exfalso. apply Hi. constructor. cbn. lia.
  Qed.
  Lemma c_infos_made : forall m l h, thing_ok (TInfos l) ->
    (exists p h' bs, convert_syms_list_to_c al m l h = Ok (Some (p, h')) /\ c_thing (hp_get h') p (TInfos l) bs /\ grows h h' bs 0 0) \/
    (convert_syms_list_to_c al m l h = Ok None /\ al h (lists_room l) 8 = 0).
  Proof.
    intros m l h (Hok & Hf). unfold convert_syms_list_to_c. rewrite syms_list_size_ok by exact Hf.
    apply (block_made (lists_room l) (fun base => convert_syms_list m base l) (fun g p => c_lists g p l)); auto.
    - unfold lists_room. lia.
    - intros base Hp. now apply C48_infos.
    - apply (C48_no_memory m []); [vm_compute; discriminate|exact Hf].
    - intros. eapply c_lists_agree; eauto.
  Qed.
  Lemma c_syms_made : forall m l h, thing_ok (TSyms l) ->
    (exists p h' bs, convert_results_to_c al m l h = Ok (Some (p, h')) /\ c_thing (hp_get h') p (TSyms l) bs /\ grows h h' bs 0 0) \/
    (convert_results_to_c al m l h = Ok None /\ al h (results_room l) 8 = 0).
  Proof.
    intros m l h (Hok & Hf). unfold convert_results_to_c. rewrite results_size_ok by exact Hf.
    apply (block_made (results_room l) (fun base => convert_results m base l) (fun g p => c_syms g p l)); auto.
    - unfold results_room. lia.
    - intros base Hp. now apply C48_results.
    - apply (C48_no_memory m l []); [exact Hf|vm_compute; discriminate].
    - intros. eapply c_syms_agree; eauto.
  Qed.
  Lemma malloc_ok : forall size h,
    (exists p h', malloc al size h = (p, h') /\ p <> 0 /\ grows h h' [Lay p (N.max 1 size) 16] 0 0) \/
    (malloc al size h = (0, h) /\ al h (N.max 1 size) 16 = 0).
  Proof.
    intros size h. unfold malloc. set (n := N.max 1 size). assert (Hn : 0 < n) by lia.
    destruct (N.eqb_spec (al h n 16) 0) as [E|E]; [right; rewrite E; auto|left]. destruct (Hal h n 16 Hn E) as (A1 & A2 & A3).
    eexists _, _. split; [reflexivity|]. split; [exact E|]. constructor.
    - apply Permutation_refl.
    - constructor; [exact A3|constructor].
    - constructor; constructor.
    - intros i Hi _. cbn [hp_get]. unfold in_lay. cbn [l_base l_size]. destruct (N.leb_spec (al h n 16) i); [|reflexivity].
      destruct (N.ltb_spec i (al h n 16 + n)); [|reflexivity]. exfalso. apply Hi. constructor. cbn. lia.
  Qed.
End Alloc.
