(** * Lemmas about results handed to C programs *)

From Verif Require Import Base Util UtilProofs Bytes Inspect Sym Symbolizer CapiIn CapiOut CapiSpec.
Local Open Scope N_scope.

(** ** Memory *)

Definition frame (lo hi : N) (g g' : mem) : Prop := forall i, i < lo \/ hi <= i -> g' i = g i.
Definition agree (g g' : mem) (rs : list region) : Prop :=
  forall r i, In r rs -> fst r <= i < fst r + snd r -> g' i = g i.

Lemma write_other : forall l a g i, i < a \/ a + nlen l <= i -> write a l g i = g i.
Proof.
  induction l as [|x l IH]; intros a g i H; simpl; auto.
  rewrite nlen_cons in H. rewrite IH by lia. destruct (N.eqb_spec i a); auto. lia.
Qed.
Lemma write_has : forall l a g, has (write a l g) a l.
Proof.
  induction l as [|x l IH]; intros a g i y H; simpl.
  - now destruct i.
  - destruct i as [|i]; simpl in H.
    + injection H as <-. rewrite write_other by (simpl; lia).
      change (N.of_nat 0) with 0. rewrite N.add_0_r, N.eqb_refl. reflexivity.
    + replace (a + N.of_nat (S i)) with (a + 1 + N.of_nat i) by lia. now apply IH.
Qed.

Lemma put_ok : forall al a l B S g, a mod al = 0 -> B <= a -> a + nlen l <= B + S ->
  exists g', put al a l (Block B S g) = Ok (Block B S g') /\ has g' a l /\ frame a (a + nlen l) g g'.
Proof.
  intros al a l B S g H1 H2 H3. unfold put. simpl.
  destruct (N.eqb_spec (a mod al) 0); [|contradiction].
  destruct (N.leb_spec B a); [|lia]. destruct (N.leb_spec (a + nlen l) (B + S)); [|lia]. simpl.
  eexists. split; [reflexivity|]. split; [apply write_has|]. intros i Hi. now apply write_other.
Qed.

Lemma mod_1 : forall a, a mod 1 = 0. Proof. intros. now rewrite N.mod_1_r. Qed.

Lemma putn_ok : forall al n a v B S g, v < 256 ^ N.of_nat n -> a mod al = 0 -> B <= a -> a + N.of_nat n <= B + S ->
  exists g', put al a (le_bytes n v) (Block B S g) = Ok (Block B S g') /\ num g' a n v /\ frame a (a + N.of_nat n) g g'.
Proof.
  intros al n a v B S g Hv H1 H2 H3.
  destruct (put_ok al a (le_bytes n v) B S g H1 H2) as (g' & E & Hh & Hf).
  { now rewrite le_bytes_nlen. }
  rewrite le_bytes_nlen in Hf. exists g'. split; auto. split; auto.
  exists (le_bytes n v). split; [apply le_bytes_length|]. split; [apply le_bytes_is_bytes|].
  split; [now apply le_val_bytes|auto].
Qed.

Lemma has_agree : forall g g' a l, has g a l -> (forall i, a <= i < a + nlen l -> g' i = g i) -> has g' a l.
Proof.
  intros g g' a l H E i x Hi. rewrite E; auto.
  assert (nth_error l i <> None) by congruence. apply nth_error_Some in H0. unfold nlen. lia.
Qed.
Lemma num_agree : forall g g' a n v, num g a n v -> (forall i, a <= i < a + N.of_nat n -> g' i = g i) ->
  num g' a n v.
Proof.
  intros g g' a n v (l & Hl & Hb & Hv & H) E. exists l. repeat split; auto.
  eapply has_agree; [exact H|]. unfold nlen. now rewrite Hl.
Qed.
Lemma has_app : forall g a l k, has g a (l ++ k) <-> has g a l /\ has g (a + nlen l) k.
Proof.
  intros g a l k. split.
  - intros H. split.
    + intros i x Hi. apply H. rewrite nth_error_app1; auto. apply nth_error_Some. congruence.
    + intros i x Hi. replace (a + nlen l + N.of_nat i) with (a + N.of_nat (length l + i)) by (unfold nlen; lia).
      apply H. rewrite nth_error_app2 by lia. now replace (length l + i - length l)%nat with i by lia.
  - intros (H1 & H2) i x Hi. destruct (Nat.lt_ge_cases i (length l)) as [L|L].
    + apply H1. now rewrite nth_error_app1 in Hi.
    + rewrite nth_error_app2 in Hi by lia. specialize (H2 _ _ Hi).
      replace (a + N.of_nat i) with (a + nlen l + N.of_nat (i - length l)) by (unfold nlen; lia). exact H2.
Qed.
Lemma num_has : forall g a n v, v < 256 ^ N.of_nat n -> has g a (le_bytes n v) -> num g a n v.
Proof.
  intros g a n v Hv H. exists (le_bytes n v). split; [apply le_bytes_length|].
  split; [apply le_bytes_is_bytes|]. split; [now apply le_val_bytes|auto].
Qed.

(** The visible part of a string is at the start of its copy. *)
Lemma c_string_split : forall s, exists r, s ++ [0] = (c_string s ++ [0]) ++ r.
Proof.
  induction s as [|b s IH]; simpl.
  - exists []. reflexivity.
  - destruct (N.eqb_spec b 0) as [->|].
    + exists (s ++ [0]). reflexivity.
    + destruct IH as (r & E). exists r. simpl. now rewrite E.
Qed.
Lemma c_string_len : forall s, nlen (c_string s ++ [0]) <= nlen s + 1.
Proof.
  intros s. destruct (c_string_split s) as (r & E). apply (f_equal nlen) in E.
  rewrite (nlen_app _ s), (nlen_app _ (c_string s ++ [0])) in E. unfold nlen in *. simpl in *. lia.
Qed.
Lemma has_c_str : forall g p s, p <> 0 -> has g p (s ++ [0]) -> c_str g p s [(p, str_room s)].
Proof.
  intros g p s Hp H. destruct (c_string_split s) as (r & E). rewrite E in H. apply has_app in H.
  split; auto. split; [tauto|reflexivity].
Qed.

(** ** What is visible depends on its regions only *)

Lemma agree_app : forall g g' a b, agree g g' (a ++ b) <-> agree g g' a /\ agree g g' b.
Proof.
  intros g g' a b. unfold agree. split.
  - intros H. split; intros r i Hr; apply H; apply in_or_app; auto.
  - intros (H1 & H2) r i Hr. apply in_app_or in Hr. destruct Hr; eauto.
Qed.
Lemma c_str_agree : forall g g' p s rs, c_str g p s rs -> agree g g' rs -> c_str g' p s rs.
Proof.
  intros g g' p s rs (Hp & H & ->) E. split; auto. split; auto.
  eapply has_agree; [exact H|]. intros i Hi. apply (E _ i (or_introl eq_refl)).
  simpl. pose proof (c_string_len s). lia.
Qed.
Lemma c_opt_str_agree : forall g g' p s rs, c_opt_str g p s rs -> agree g g' rs -> c_opt_str g' p s rs.
Proof. intros g g' p [s|] rs H E; simpl in *; auto. eapply c_str_agree; eauto. Qed.
Lemma c_code_info_agree : forall g g' a c rs, c_code_info g a c rs ->
  (forall i, a <= i < a + 32 -> g' i = g i) -> agree g g' rs -> c_code_info g' a c rs.
Proof.
  intros g g' a c rs (dir & file & r1 & r2 & H1 & H2 & H3 & H4 & H5 & H6 & ->) E Er.
  apply agree_app in Er. destruct Er as (E1 & E2).
  exists dir, file, r1, r2.
  split; [eapply num_agree; [exact H1|intros; apply E; lia]|].
  split; [eapply num_agree; [exact H2|intros; apply E; lia]|].
  split; [eapply c_opt_str_agree; eauto|]. split; [eapply c_opt_str_agree; eauto|].
  split; [eapply num_agree; [exact H5|intros; apply E; lia]|].
  split; [eapply num_agree; [exact H6|intros; apply E; lia]|]. reflexivity.
Qed.
Lemma c_inlined_agree : forall g g' l a rs, c_inlined g a l rs ->
  (forall i, a <= i < a + 48 * nlen l -> g' i = g i) -> agree g g' rs -> c_inlined g' a l rs.
Proof.
  intros g g'. induction l as [|f l IH]; intros a rs H E Er; simpl in *; auto.
  rewrite nlen_cons in E.
  destruct H as (name & r1 & r2 & r3 & H1 & H2 & H3 & H4 & ->).
  apply agree_app in Er. destruct Er as (E1 & Er). apply agree_app in Er. destruct Er as (E2 & E3).
  exists name, r1, r2, r3.
  split; [eapply num_agree; [exact H1|intros; apply E; lia]|].
  split; [eapply c_str_agree; eauto|].
  split; [eapply c_code_info_agree; [exact H3|intros; apply E; lia|auto]|].
  split; [|reflexivity]. apply IH; auto. intros i Hi. apply E. lia.
Qed.
Lemma c_sym_agree : forall g g' a r rs, c_sym g a r rs -> agree g g' rs -> c_sym g' a r rs.
Proof.
  intros g g' a [s|r] rs H Er; simpl in *.
  - destruct H as (name & module & inl & r1 & r2 & r3 & r4 & H1 & H2 & H3 & H4 & H5 & H6 & H7 & H8 & H9 &
      H10 & H11 & H12 & ->).
    assert (E : forall i, a <= i < a + 104 -> g' i = g i).
    { intros i Hi. apply (Er (a, 104) i); simpl; auto. }
    assert (E' : forall i, inl <= i < inl + 48 * nlen (sy_inlined s) -> g' i = g i).
    { intros i Hi. apply (Er (inl, 48 * nlen (sy_inlined s)) i); simpl; auto. }
    assert (Es : agree g g' (r1 ++ r2 ++ r3 ++ r4)).
    { intros r i Hr. apply Er. simpl. auto. }
    apply agree_app in Es. destruct Es as (E1 & Es). apply agree_app in Es. destruct Es as (E2 & Es).
    apply agree_app in Es. destruct Es as (E3 & E4).
    exists name, module, inl, r1, r2, r3, r4.
    repeat match goal with
    | |- num _ _ _ _ /\ _ => split; [eapply num_agree; [eassumption|intros; apply E; lia]|]
    | |- c_str _ _ _ _ /\ _ => split; [eapply c_str_agree; eauto|]
    | |- c_opt_str _ _ _ _ /\ _ => split; [eapply c_opt_str_agree; eauto|]
    | |- c_code_info _ _ _ _ /\ _ =>
        split; [eapply c_code_info_agree; [eassumption|intros; apply E; lia|auto]|]
    | |- c_inlined _ _ _ _ /\ _ => split; [eapply c_inlined_agree; eauto|]
    end. reflexivity.
  - destruct H as (H1 & H2 & ->).
    assert (E : forall i, a <= i < a + 104 -> g' i = g i).
    { intros i Hi. apply (Er (a, 104) i); simpl; auto. }
    split; [eapply has_agree; [exact H1|intros i Hi; apply E; unfold nlen in Hi; simpl length in Hi; lia]|].
    split; [eapply num_agree; [exact H2|intros; apply E; lia]|]. reflexivity.
Qed.
Lemma c_sym_array_agree : forall g g' l a rs, c_sym_array g a l rs -> agree g g' rs -> c_sym_array g' a l rs.
Proof.
  intros g g'. induction l as [|r l IH]; intros a rs H E; simpl in *; auto.
  destruct H as (r1 & r2 & H1 & H2 & ->). apply agree_app in E. destruct E as (E1 & E2).
  exists r1, r2. split; [eapply c_sym_agree; eauto|]. split; auto.
Qed.
Lemma c_infos_agree : forall g g' l a rs, c_infos g a l rs -> agree g g' rs -> c_infos g' a l rs.
Proof.
  intros g g'. induction l as [|s l IH]; intros a rs H Er; simpl in *.
  - destruct H as (H & ->). split; auto. eapply has_agree; [exact H|].
    intros i Hi. apply (Er (a, 64) i); simpl; auto.
  - destruct H as (name & module & r1 & r2 & r3 & H1 & H2 & H3 & H4 & H5 & H6 & H7 & H8 & H9 & ->).
    assert (E : forall i, a <= i < a + 64 -> g' i = g i).
    { intros i Hi. apply (Er (a, 64) i); simpl; auto. }
    assert (Es : agree g g' (r1 ++ r2 ++ r3)).
    { intros r i Hr. apply Er. simpl. auto. }
    apply agree_app in Es. destruct Es as (E1 & Es). apply agree_app in Es. destruct Es as (E2 & E3).
    exists name, module, r1, r2, r3.
    repeat match goal with
    | |- num _ _ _ _ /\ _ => split; [eapply num_agree; [eassumption|intros; apply E; lia]|]
    | |- c_str _ _ _ _ /\ _ => split; [eapply c_str_agree; eauto|]
    | |- c_opt_str _ _ _ _ /\ _ => split; [eapply c_opt_str_agree; eauto|]
    end. split; [now apply IH|reflexivity].
Qed.

(** ** Regions *)

Definition within (lo hi : N) (rs : list region) : Prop := Forall (inside lo hi) rs.
Lemma within_app : forall lo hi a b, within lo hi (a ++ b) <-> within lo hi a /\ within lo hi b.
Proof. intros. apply Forall_app. Qed.
Lemma within_weaken : forall lo hi lo' hi' rs, within lo hi rs -> lo' <= lo -> hi <= hi' -> within lo' hi' rs.
Proof.
  intros lo hi lo' hi' rs H H1 H2. eapply Forall_impl; [|exact H]. intros r (A & B). split; lia.
Qed.
Lemma apart_app : forall a b, all_apart a -> all_apart b ->
  (forall r s, In r a -> In s b -> apart r s) -> all_apart (a ++ b).
Proof.
  induction a as [|r a IH]; intros b Ha Hb H; simpl; auto.
  inversion Ha as [|? ? H1 H2]; subst. constructor.
  - apply Forall_app. split; auto. apply Forall_forall. intros s Hs. apply H; simpl; auto.
  - apply IH; auto. intros r' s Hr Hs. apply H; simpl; auto.
Qed.
Lemma apart_consecutive : forall lo mid hi a b, all_apart a -> all_apart b ->
  within lo mid a -> within mid hi b -> all_apart (a ++ b).
Proof.
  intros lo mid hi a b Ha Hb Wa Wb. apply apart_app; auto. intros r s Hr Hs.
  unfold within in *. rewrite Forall_forall in *. left.
  destruct (Wa r Hr), (Wb s Hs). lia.
Qed.
Lemma apart_one : forall r, all_apart [r]. Proof. intros r. repeat constructor. Qed.
Lemma apart_nil : all_apart []. Proof. constructor. Qed.
Global Hint Resolve apart_one apart_nil : core.

(** A frame leaves regions elsewhere alone. *)
Lemma frame_agree : forall lo hi g g' rs, frame lo hi g g' ->
  Forall (fun r => fst r + snd r <= lo \/ hi <= fst r) rs -> agree g g' rs.
Proof.
  intros lo hi g g' rs F H r i Hr Hi. rewrite Forall_forall in H. specialize (H r Hr). apply F. lia.
Qed.
Lemma within_below : forall lo hi rs x, within lo hi rs -> hi <= x ->
  forall y, Forall (fun r => fst r + snd r <= x \/ y <= fst r) rs.
Proof. intros lo hi rs x H Hx y. eapply Forall_impl; [|exact H]. intros r (A & B). left. lia. Qed.
Lemma within_above : forall lo hi rs y, within lo hi rs -> y <= lo ->
  forall x, Forall (fun r => fst r + snd r <= x \/ y <= fst r) rs.
Proof. intros lo hi rs y H Hy x. eapply Forall_impl; [|exact H]. intros r (A & B). right. lia. Qed.

(** ** Strings *)

Lemma make_cstr_ok : forall s B S g I P, 0 < B -> B <= P -> P + str_room s <= B + S ->
  exists g', make_cstr s (Cursors (Block B S g) I P) = Ok (P, Cursors (Block B S g') I (P + str_room s)) /\
    c_str g' P s [(P, str_room s)] /\ frame P (P + str_room s) g g'.
Proof.
  intros s B S g I P H0 H1 H2. unfold str_room in *. unfold make_cstr. cbn [cu_str cu_block cu_inlined].
  destruct (put_ok 1 P s B S g (mod_1 _) H1 ltac:(lia)) as (g1 & E1 & Hh1 & F1). rewrite E1. cbn [bind].
  unfold put8. destruct (put_ok 1 (P + nlen s) (le_bytes 1 0) B S g1 (mod_1 _) ltac:(lia)) as (g2 & E2 & Hh2 & F2).
  { rewrite le_bytes_nlen. lia. }
  rewrite E2. cbn [bind]. exists g2. split; [reflexivity|]. rewrite le_bytes_nlen in F2. split.
  - apply has_c_str; [lia|]. apply has_app. split; [|exact Hh2].
    eapply has_agree; [exact Hh1|]. intros i Hi. apply F2. lia.
  - intros i Hi. rewrite F2 by lia. apply F1. lia.
Qed.

Lemma make_opt_cstr_ok : forall s B S g I P, 0 < B -> B <= P -> P + opt_room str_room s <= B + S ->
  exists g' p rs, make_opt_cstr s (Cursors (Block B S g) I P)
      = Ok (p, Cursors (Block B S g') I (P + opt_room str_room s)) /\
    c_opt_str g' p s rs /\ frame P (P + opt_room str_room s) g g' /\ p < B + S /\
    within P (P + opt_room str_room s) rs /\ all_apart rs.
Proof.
  intros [s|] B S g I P H0 H1 H2; simpl in *.
  - destruct (make_cstr_ok s B S g I P H0 H1 H2) as (g' & E & Hs & F).
    exists g', P, [(P, str_room s)]. split; auto. split; auto. split; auto.
    split; [unfold str_room in *; lia|].
    split; auto. repeat constructor; simpl; lia.
  - exists g, 0, []. rewrite N.add_0_r. split; auto. split; auto. split; [intros i _; reflexivity|].
    split; [lia|]. split; [constructor|auto].
Qed.

(** ** Structures *)

Lemma offsets_code : forall i, offset_of code_info_ty i = nth i [0; 8; 16; 20; 22] 0.
Proof. intros i. reflexivity. Qed.
Lemma offsets_inlined : forall i, offset_of inlined_fn_ty i = nth i [0; 8; 40] 0.
Proof. intros i. reflexivity. Qed.
Lemma offsets_sym : forall i, offset_of sym_ty i = nth i [0; 8; 16; 24; 32; 40; 72; 80; 88; 89] 0.
Proof. intros i. reflexivity. Qed.
Lemma size_inlined : size_of (CStruct inlined_fn_ty) = 48. Proof. reflexivity. Qed.
Lemma size_sym : size_of (CStruct sym_ty) = 104. Proof. reflexivity. Qed.
Lemma size_syms : size_of (CStruct syms_ty) = 8. Proof. reflexivity. Qed.
Lemma size_info : size_of (CStruct sym_info_ty) = 64. Proof. reflexivity. Qed.

Lemma aligned : forall a k n, n <> 0 -> a mod 8 = 0 -> 8 mod n = 0 -> k mod n = 0 -> (a + k) mod n = 0.
Proof.
  intros a k n Hn Ha H8 Hk.
  apply N.mod_divide in Ha; [|discriminate]. apply N.mod_divide in H8; [|exact Hn].
  apply N.mod_divide in Hk; [|exact Hn]. apply N.mod_divide; [exact Hn|].
  apply N.divide_add_r; [exact (N.divide_trans _ _ _ H8 Ha)|exact Hk].
Qed.
Ltac aligns := solve [assumption | apply mod_1 | apply aligned; [lia|assumption|reflexivity|reflexivity]].

(** Storing a number, with the place and the continuation in the goal. *)
Lemma on_put_ok : forall al n a v B S g I P, v < 256 ^ N.of_nat n -> a mod al = 0 -> B <= a ->
  a + N.of_nat n <= B + S ->
  exists g', on_block (put al a (le_bytes n v)) (Cursors (Block B S g) I P) = Ok (Cursors (Block B S g') I P) /\
    num g' a n v /\ frame a (a + N.of_nat n) g g'.
Proof.
  intros al n a v B S g I P Hv H1 H2 H3.
  destruct (putn_ok al n a v B S g Hv H1 H2 H3) as (g' & E & Hn & F).
  exists g'. unfold on_block. cbn [cu_block cu_inlined cu_str]. rewrite E. auto.
Qed.
