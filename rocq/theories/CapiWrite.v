(** * What is written for C programs, and where *)

From Verif Require Import Base Util UtilProofs Bytes Inspect Sym Symbolizer CapiIn CapiOut CapiSpec CapiProofs.
Local Open Scope N_scope.

(** Untouched: outside of two or three ranges *)
Definition frame2 (a b c d : N) (g g' : mem) : Prop :=
  forall i, i < a \/ b <= i -> i < c \/ d <= i -> g' i = g i.
Definition frame3 (a b c d e f : N) (g g' : mem) : Prop :=
  forall i, i < a \/ b <= i -> i < c \/ d <= i -> i < e \/ f <= i -> g' i = g i.

Definition the_dir (c : option code_info) := match c with Some c => ci_dir c | None => None end.
Definition the_file (c : option code_info) := match c with Some c => Some (ci_file c) | None => None end.
Lemma code_room_split : forall c,
  opt_room code_room c = opt_room str_room (the_dir c) + opt_room str_room (the_file c).
Proof. intros [c|]; reflexivity. Qed.

Lemma str_room_pos : forall s, 0 < str_room s.
Proof. intros. unfold str_room. lia. Qed.
Lemma pow8 : 256 ^ N.of_nat 8 = 2 ^ 64. Proof. reflexivity. Qed.
Lemma pow4 : 256 ^ N.of_nat 4 = 2 ^ 32. Proof. reflexivity. Qed.
Lemma pow2 : 256 ^ N.of_nat 2 = 2 ^ 16. Proof. reflexivity. Qed.
Lemma pow1 : 256 ^ N.of_nat 1 = 256. Proof. reflexivity. Qed.

(** Store a number: new memory [g'], what is there [H] and what is not touched
    [F]. *)
Ltac store g' H F :=
  match goal with
  | |- context [on_block (put ?al ?a (le_bytes ?n ?v)) (Cursors (Block ?B ?S ?g) ?I ?P)] =>
      let E := fresh "E" in
      destruct (on_put_ok al n a v B S g I P) as (g' & E & H & F);
      [first [rewrite pow8|rewrite pow4|rewrite pow2|rewrite pow1]; try lia
      |try aligns |lia |try lia
      |rewrite E; cbn [bind]; clear E];
      try change (N.of_nat 8) with 8 in F; try change (N.of_nat 4) with 4 in F;
      try change (N.of_nat 2) with 2 in F; try change (N.of_nat 1) with 1 in F
  end.

Lemma convert_code_info_ok : forall info out B S g I P,
  0 < B -> B + S <= 2 ^ 64 -> out mod 8 = 0 -> B <= out -> out + 32 <= P ->
  P + opt_room code_room info <= B + S -> opt_code_ok info ->
  exists g' rs, convert_code_info info out (Cursors (Block B S g) I P)
      = Ok (Cursors (Block B S g') I (P + opt_room code_room info)) /\
    c_code_info g' out info rs /\ frame2 out (out + 32) P (P + opt_room code_room info) g g' /\
    within P (P + opt_room code_room info) rs /\ all_apart rs.
Proof.
  intros info out B S g I P H0 HS Ha H1 H2 H3 Hok. rewrite code_room_split in *.
  unfold convert_code_info. cbv zeta. fold (the_dir info). fold (the_file info).
  rewrite !offsets_code. cbn [nth].
  destruct (make_opt_cstr_ok (the_dir info) B S g I P H0 ltac:(lia) ltac:(lia))
    as (g1 & dir & r1 & E1 & S1 & F1 & P1 & W1 & A1).
  rewrite E1. cbn [bind]. unfold put64, put32, put16.
  store g2 N2 F2.
  destruct (make_opt_cstr_ok (the_file info) B S g2 I (P + opt_room str_room (the_dir info)) H0 ltac:(lia) ltac:(lia))
    as (g3 & file & r2 & E3 & S3 & F3 & P3 & W3 & A3).
  rewrite E3. cbn [bind].
  store g4 N4 F4.
  store g5 N5 F5. { destruct info as [c|]; [|lia]. destruct Hok as (L & _). destruct (ci_line c); simpl in *; lia. }
  store g6 N6 F6. { destruct info as [c|]; [|lia]. destruct Hok as (_ & L). destruct (ci_column c); simpl in *; lia. }
  exists g6, (r1 ++ r2). rewrite N.add_assoc. split; [reflexivity|].
  rewrite N.add_0_r in *.
  split.
  { exists dir, file, r1, r2.
    split. { eapply num_agree; [exact N2|]. intros i Hi. change (N.of_nat 8) with 8 in Hi.
      rewrite F6, F5, F4, F3 by lia. reflexivity. }
    split. { eapply num_agree; [exact N4|]. intros i Hi. change (N.of_nat 8) with 8 in Hi.
      rewrite F6, F5 by lia. reflexivity. }
    split. { eapply c_opt_str_agree; [exact S1|]. intros r i Hr Hi. unfold within in W1.
      rewrite Forall_forall in W1. destruct (W1 r Hr). rewrite F6, F5, F4, F3, F2 by lia. reflexivity. }
    split. { eapply c_opt_str_agree; [exact S3|]. intros r i Hr Hi. unfold within in W3.
      rewrite Forall_forall in W3. destruct (W3 r Hr). rewrite F6, F5, F4 by lia. reflexivity. }
    split. { eapply num_agree; [exact N5|]. intros i Hi. change (N.of_nat 4) with 4 in Hi.
      rewrite F6 by lia. reflexivity. }
    split; [exact N6|reflexivity]. }
  split. { intros i Hi1 Hi2. rewrite F6, F5, F4, F3, F2, F1 by lia. reflexivity. }
  split. { apply within_app. split.
    - eapply within_weaken; [exact W1|lia|lia].
    - eapply within_weaken; [exact W3|lia|lia]. }
  eapply apart_consecutive; eauto.
Qed.

Lemma convert_inlined_ok : forall l B S g I P,
  0 < B -> B + S <= 2 ^ 64 -> I mod 8 = 0 -> B <= I -> I + 48 * nlen l <= P ->
  P + sum_room inlined_room l <= B + S -> Forall (fun f => opt_code_ok (if_code_info f)) l ->
  exists g' rs, convert_inlined l (Cursors (Block B S g) I P)
      = Ok (Cursors (Block B S g') (I + 48 * nlen l) (P + sum_room inlined_room l)) /\
    c_inlined g' I l rs /\ frame2 I (I + 48 * nlen l) P (P + sum_room inlined_room l) g g' /\
    within P (P + sum_room inlined_room l) rs /\ all_apart rs.
Proof.
  induction l as [|f l IH]; intros B S g I P H0 HS Ha H1 H2 H3 Hok.
  - exists g, []. simpl. change (nlen []) with 0. rewrite !N.mul_0_r, !N.add_0_r.
    split; auto. split; auto. split; [intros i _ _; reflexivity|]. split; [constructor|auto].
  - inversion Hok as [|? ? Hf Hl]; subst. rewrite nlen_cons in *.
    cbn [sum_room fold_right] in *. fold (sum_room inlined_room l) in *.
    change (inlined_room f) with (str_room (if_name f) + opt_room code_room (if_code_info f)) in *.
    cbn [convert_inlined]. cbv zeta. rewrite !offsets_inlined, size_inlined. cbn [nth cu_inlined].
    destruct (make_cstr_ok (if_name f) B S g I P H0 ltac:(lia) ltac:(lia)) as (g1 & E1 & S1 & F1).
    rewrite E1. cbn [bind cu_inlined]. unfold put64.
    pose proof (str_room_pos (if_name f)).
    store g2 N2 F2.
    destruct (convert_code_info_ok (if_code_info f) (I + 8) B S g2 I (P + str_room (if_name f)))
      as (g3 & r2 & E3 & S3 & F3 & W3 & A3); try lia; try aligns; auto.
    rewrite E3. cbn [bind cu_block cu_inlined cu_str].
    destruct (IH B S g3 (I + 48) (P + str_room (if_name f) + opt_room code_room (if_code_info f)))
      as (g4 & r3 & E4 & S4 & F4 & W4 & A4); try lia; try aligns; auto.
    rewrite E4. exists g4, ([(P, str_room (if_name f))] ++ r2 ++ r3). rewrite N.add_0_r in *.
    split. { f_equal. f_equal; lia. }
    split.
    { exists P, [(P, str_room (if_name f))], r2, r3.
      split. { eapply num_agree; [exact N2|]. intros i Hi. change (N.of_nat 8) with 8 in Hi.
        rewrite F4, F3 by lia. reflexivity. }
      split. { eapply c_str_agree; [exact S1|]. intros r i [<-|[]] Hi. simpl in Hi.
        rewrite F4, F3, F2 by lia. reflexivity. }
      split. { eapply c_code_info_agree; [exact S3| |].
        - intros i Hi. rewrite F4 by lia. reflexivity.
        - intros r i Hr Hi. unfold within in W3. rewrite Forall_forall in W3. destruct (W3 r Hr).
          rewrite F4 by lia. reflexivity. }
      split; [exact S4|reflexivity]. }
    split. { intros i Hi1 Hi2. rewrite F4, F3, F2, F1 by lia. reflexivity. }
    assert (W1 : within P (P + str_room (if_name f)) [(P, str_room (if_name f))]).
    { repeat constructor; simpl; lia. }
    split. { apply within_app. split; [eapply within_weaken; [exact W1|lia|lia]|].
      apply within_app. split; [eapply within_weaken; [exact W3|lia|lia]|eapply within_weaken; [exact W4|lia|lia]]. }
    assert (A34 : all_apart (r2 ++ r3)) by (eapply apart_consecutive; eauto).
    eapply apart_consecutive; [auto|exact A34|exact W1|].
    apply within_app. split; [eapply within_weaken; [exact W3|lia|]|eapply within_weaken; [exact W4|lia|]].
    2: apply N.le_refl. lia.
Qed.

(** Regions of a symbol: the structure, the array and the strings are in three
    ranges *)
Definition zoned (a b c d e f : N) (rs : list region) : Prop :=
  Forall (fun r => inside a b r \/ inside c d r \/ inside e f r) rs.

Lemma c_size_shown : forall s, c_size s = shown_size s.
Proof.
  intros [n|]; simpl; auto. destruct (N.ltb_spec n (2 ^ 63)).
  - rewrite N.min_l; lia.
  - rewrite N.min_r; lia.
Qed.
Lemma shown_size_lt : forall s, shown_size s < 2 ^ 64.
Proof. intros [n|]; simpl; [|reflexivity]. eapply N.le_lt_trans; [apply N.le_min_r|reflexivity]. Qed.

Lemma convert_sym_ok : forall s out B S g I P,
  0 < B -> B + S <= 2 ^ 64 -> out mod 8 = 0 -> I mod 8 = 0 -> B <= out -> out + 104 <= I ->
  I + 48 * nlen (sy_inlined s) <= P -> P + sym_room s <= B + S -> sym_ok s ->
  exists g' rs, convert_sym s out (Cursors (Block B S g) I P)
      = Ok (Cursors (Block B S g') (I + 48 * nlen (sy_inlined s)) (P + sym_room s)) /\
    c_sym g' out (Known s) rs /\
    frame3 out (out + 104) I (I + 48 * nlen (sy_inlined s)) P (P + sym_room s) g g' /\
    zoned out (out + 104) I (I + 48 * nlen (sy_inlined s)) P (P + sym_room s) rs /\ all_apart rs.
Proof.
  intros s out B S g I P H0 HS Ha HaI H1 H2 H3 H4 (Haddr & Hoff & Hci & Hinl).
  pose proof (shown_size_lt (sy_size s)) as Hsz. rewrite <- c_size_shown in Hsz.
  unfold sym_room in *. unfold convert_sym. rewrite !offsets_sym. cbn [nth].
  destruct (make_cstr_ok (sy_name s) B S g I P H0 ltac:(lia) ltac:(lia)) as (g1 & E1 & S1 & F1).
  rewrite E1. cbn [bind]. clear E1. pose proof (str_room_pos (sy_name s)).
  destruct (make_opt_cstr_ok (sy_module s) B S g1 I (P + str_room (sy_name s)) H0 ltac:(lia) ltac:(lia))
    as (g2 & mo & r2 & E2 & S2 & F2 & P2 & W2 & A2).
  rewrite E2. cbn [bind]. clear E2. unfold put64, put8.
  store g3 N3 F3.
  store g4 N4 F4.
  store g5 N5 F5.
  store g6 N6 F6.
  store g7 N7 F7.
  destruct (convert_code_info_ok (sy_code_info s) (out + 40) B S g7 I
              (P + str_room (sy_name s) + opt_room str_room (sy_module s)))
    as (g8 & r3 & E8 & S8 & F8 & W8 & A8); try lia; try aligns; auto.
  rewrite E8. cbn [bind]. clear E8.
  store g9 N9 F9.
  cbn [cu_inlined].
  store g10 N10 F10.
  store g11 N11 F11.
  destruct (convert_inlined_ok (sy_inlined s) B S g11 I
              (P + str_room (sy_name s) + opt_room str_room (sy_module s) + opt_room code_room (sy_code_info s)))
    as (g12 & r4 & E12 & S12 & F12 & W12 & A12); try lia; try aligns; auto.
  rewrite E12. clear E12. rewrite N.add_0_r in *. change (256 ^ N.of_nat 8) with (2 ^ 64) in *.
  set (R1 := str_room (sy_name s)) in *. set (R2 := opt_room str_room (sy_module s)) in *.
  set (R3 := opt_room code_room (sy_code_info s)) in *. set (R4 := sum_room inlined_room (sy_inlined s)) in *.
  set (K := nlen (sy_inlined s)) in *.
  assert (W1 : within P (P + R1) [(P, R1)]).
  { repeat constructor; simpl; lia. }
  exists g12, ((out, 104) :: (I, 48 * K) :: [(P, R1)] ++ r2 ++ r3 ++ r4).
  split. { f_equal. f_equal; lia. }
  split.
  { exists P, mo, I, [(P, R1)], r2, r3, r4.
    split. { eapply num_agree; [exact N3|]. intros i Hi. change (N.of_nat 8) with 8 in Hi.
      rewrite F12, F11, F10, F9, F8, F7, F6, F5, F4 by lia. reflexivity. }
    split. { eapply c_str_agree; [exact S1|]. intros r i [<-|[]] Hi. simpl in Hi. fold R1 in Hi.
      rewrite F12, F11, F10, F9, F8, F7, F6, F5, F4, F3, F2 by lia. reflexivity. }
    split. { eapply num_agree; [exact N4|]. intros i Hi. change (N.of_nat 8) with 8 in Hi.
      rewrite F12, F11, F10, F9, F8, F7, F6, F5 by lia. reflexivity. }
    split. { eapply c_opt_str_agree; [exact S2|]. intros r i Hr Hi. unfold within in W2.
      rewrite Forall_forall in W2. destruct (W2 r Hr).
      rewrite F12, F11, F10, F9, F8, F7, F6, F5, F4, F3 by lia. reflexivity. }
    split. { eapply num_agree; [exact N5|]. intros i Hi. change (N.of_nat 8) with 8 in Hi.
      rewrite F12, F11, F10, F9, F8, F7, F6 by lia. reflexivity. }
    split. { eapply num_agree; [exact N6|]. intros i Hi. change (N.of_nat 8) with 8 in Hi.
      rewrite F12, F11, F10, F9, F8, F7 by lia. reflexivity. }
    split. { rewrite <- c_size_shown. eapply num_agree; [exact N7|]. intros i Hi. change (N.of_nat 8) with 8 in Hi.
      rewrite F12, F11, F10, F9, F8 by lia. reflexivity. }
    split. { eapply c_code_info_agree; [exact S8| |].
      - intros i Hi. rewrite F12, F11, F10, F9 by lia. reflexivity.
      - intros r i Hr Hi. unfold within in W8. rewrite Forall_forall in W8. destruct (W8 r Hr).
        rewrite F12, F11, F10, F9 by lia. reflexivity. }
    split. { eapply num_agree; [exact N9|]. intros i Hi. change (N.of_nat 8) with 8 in Hi.
      rewrite F12, F11, F10 by lia. reflexivity. }
    split. { eapply num_agree; [exact N10|]. intros i Hi. change (N.of_nat 8) with 8 in Hi.
      rewrite F12, F11 by lia. reflexivity. }
    split; [exact S12|].
    split. { eapply num_agree; [exact N11|]. intros i Hi. change (N.of_nat 1) with 1 in Hi.
      rewrite F12 by lia. reflexivity. }
    reflexivity. }
  split. { intros i Hi1 Hi2 Hi3. rewrite F12, F11, F10, F9, F8, F7, F6, F5, F4, F3, F2, F1 by lia. reflexivity. }
  assert (W34 : within (P + R1 + R2) (P + (R1 + R2 + R3 + R4)) (r3 ++ r4)).
  { apply within_app. split; [eapply within_weaken; [exact W8|lia|lia]|eapply within_weaken; [exact W12|lia|lia]]. }
  assert (A34 : all_apart (r3 ++ r4)) by (eapply apart_consecutive; eauto).
  assert (A234 : all_apart (r2 ++ r3 ++ r4)) by (eapply apart_consecutive; eauto).
  assert (W234 : within (P + R1) (P + (R1 + R2 + R3 + R4)) (r2 ++ r3 ++ r4)).
  { apply within_app. split; [eapply within_weaken; [exact W2|lia|lia]|eapply within_weaken; [exact W34|lia|lia]]. }
  assert (A1234 : all_apart ([(P, R1)] ++ r2 ++ r3 ++ r4)) by (eapply apart_consecutive; eauto).
  assert (W1234 : within P (P + (R1 + R2 + R3 + R4)) ([(P, R1)] ++ r2 ++ r3 ++ r4)).
  { apply within_app. split; [eapply within_weaken; [exact W1|lia|lia]|eapply within_weaken; [exact W234|lia|lia]]. }
  split.
  { constructor; [left; split; simpl; lia|]. constructor; [right; left; split; simpl; lia|].
    eapply Forall_impl; [|exact W1234]. intros r Hr. right. right. exact Hr. }
  constructor.
  { constructor; [left; simpl; lia|]. eapply Forall_impl; [|exact W1234].
    intros r (Hr & _). left. simpl. lia. }
  constructor; auto. eapply Forall_impl; [|exact W1234]. intros r (Hr & _). left. simpl. lia.
Qed.

(** ** All results *)

Lemma zoned_apart : forall a1 b1 c1 d1 e1 f1 a2 b2 c2 d2 e2 f2 x y,
  zoned a1 b1 c1 d1 e1 f1 x -> zoned a2 b2 c2 d2 e2 f2 y -> all_apart x -> all_apart y ->
  b1 <= a2 -> b2 <= c1 -> d1 <= c2 -> d2 <= e1 -> f1 <= e2 -> a2 <= b2 -> c1 <= d1 -> c2 <= d2 -> e1 <= f1 ->
  a1 <= b1 -> all_apart (x ++ y).
Proof.
  intros a1 b1 c1 d1 e1 f1 a2 b2 c2 d2 e2 f2 x y Hx Hy Ax Ay. intros.
  apply apart_app; auto. intros r s Hr Hs. unfold zoned in *. rewrite Forall_forall in Hx, Hy.
  specialize (Hx r Hr). specialize (Hy s Hs). unfold inside, apart in *. lia.
Qed.
Lemma zoned_weaken : forall a b c d e f a' b' c' d' e' f' rs, zoned a b c d e f rs ->
  a' <= a -> b <= b' -> c' <= c -> d <= d' -> e' <= e -> f <= f' -> zoned a' b' c' d' e' f' rs.
Proof.
  intros a b c d e f a' b' c' d' e' f' rs H. intros. eapply Forall_impl; [|exact H].
  intros r Hr. unfold inside in *. lia.
Qed.
Lemma zoned_app : forall a b c d e f x y, zoned a b c d e f (x ++ y) <-> zoned a b c d e f x /\ zoned a b c d e f y.
Proof. intros. apply Forall_app. Qed.

Lemma reason_code_shown : forall r, reason_code r = shown_reason r.
Proof. intros []; reflexivity. Qed.

Lemma convert_unknown_ok : forall r out B S g I P,
  out mod 8 = 0 -> B <= out -> out + 104 <= B + S ->
  exists g', (let* c := on_block (put 8 out (repeat 0 (N.to_nat (size_of (CStruct sym_ty)))))
                         (Cursors (Block B S g) I P) in
              on_block (put8 (out + offset_of sym_ty 8) (reason_code r)) c)
      = Ok (Cursors (Block B S g') I P) /\
    c_sym g' out (Unknown r) [(out, 104)] /\ frame out (out + 104) g g'.
Proof.
  intros r out B S g I P Ha H1 H2. rewrite size_sym, offsets_sym. cbn [nth].
  change (N.to_nat 104) with 104%nat.
  assert (L : nlen (repeat 0 104) = 104) by (unfold nlen; now rewrite repeat_length).
  destruct (put_ok 8 out (repeat 0 104) B S g Ha H1 ltac:(rewrite L; lia)) as (g1 & E1 & Hh & F1).
  rewrite L in F1. unfold on_block at 1. cbn [cu_block cu_inlined cu_str]. rewrite E1. cbn [bind]. unfold put8.
  store g2 N2 F2. { destruct r; reflexivity. }
  exists g2. split; [reflexivity|]. split.
  - split; [|split; [now rewrite <- reason_code_shown|reflexivity]].
    assert (Hh' : has g1 out (repeat 0 88)).
    { change (repeat 0 104) with (repeat 0 88 ++ repeat 0 16) in Hh. apply has_app in Hh. tauto. }
    eapply has_agree; [exact Hh'|]. intros i Hi. unfold nlen in Hi. rewrite repeat_length in Hi.
    apply F2. lia.
  - intros i Hi. rewrite F2, F1 by lia. reflexivity.
Qed.

Lemma convert_all_ok : forall l out B S g I P,
  0 < B -> B + S <= 2 ^ 64 -> out mod 8 = 0 -> I mod 8 = 0 -> B <= out -> out + 104 * nlen l <= I ->
  I + 48 * sum_room result_inlined l <= P -> P + sum_room result_room l <= B + S -> Forall result_ok l ->
  exists g' rs, convert_all l out (Cursors (Block B S g) I P)
      = Ok (Cursors (Block B S g') (I + 48 * sum_room result_inlined l) (P + sum_room result_room l)) /\
    c_sym_array g' out l rs /\
    frame3 out (out + 104 * nlen l) I (I + 48 * sum_room result_inlined l) P (P + sum_room result_room l) g g' /\
    zoned out (out + 104 * nlen l) I (I + 48 * sum_room result_inlined l) P (P + sum_room result_room l) rs /\
    all_apart rs.
Proof.
  induction l as [|r l IH]; intros out B S g I P H0 HS Ha HaI H1 H2 H3 H4 Hok.
  - exists g, []. simpl. rewrite !N.mul_0_r, !N.add_0_r.
    split; auto. split; auto. split; [intros i _ _ _; reflexivity|]. split; [constructor|auto].
  - inversion Hok as [|? ? Hr Hl]; subst. rewrite nlen_cons in *.
    cbn [sum_room fold_right] in *. fold (sum_room result_inlined l) in *. fold (sum_room result_room l) in *.
    assert (Step : exists g1 r1,
      match r with
      | Known s => convert_sym s out (Cursors (Block B S g) I P)
      | Unknown r =>
          let* c := on_block (put 8 out (repeat 0 (N.to_nat (size_of (CStruct sym_ty)))))
                      (Cursors (Block B S g) I P) in
          on_block (put8 (out + offset_of sym_ty 8) (reason_code r)) c
      end = Ok (Cursors (Block B S g1) (I + 48 * result_inlined r) (P + result_room r)) /\
      c_sym g1 out r r1 /\
      frame3 out (out + 104) I (I + 48 * result_inlined r) P (P + result_room r) g g1 /\
      zoned out (out + 104) I (I + 48 * result_inlined r) P (P + result_room r) r1 /\ all_apart r1).
    { destruct r as [s|u]; cbn [result_inlined result_room] in *.
      - apply convert_sym_ok; auto; lia.
      - destruct (convert_unknown_ok u out B S g I P Ha H1 ltac:(lia)) as (g1 & E & Hs & F).
        exists g1, [(out, 104)]. rewrite N.mul_0_r, !N.add_0_r. split; auto. split; auto.
        split; [intros i Hi _ _; now apply F|]. split; auto. repeat constructor; simpl; lia. }
    destruct Step as (g1 & r1 & E1 & S1 & F1 & Z1 & A1).
    cbn [convert_all]. rewrite E1. cbn [bind]. rewrite size_sym. clear E1.
    destruct (IH (out + 104) B S g1 (I + 48 * result_inlined r) (P + result_room r))
      as (g2 & r2 & E2 & S2 & F2 & Z2 & A2); try lia; auto.
    rewrite E2. clear E2. exists g2, (r1 ++ r2).
    split. { f_equal. f_equal; lia. }
    split.
    { exists r1, r2. split; [|split; auto]. eapply c_sym_agree; [exact S1|].
      intros q i Hq Hi. unfold zoned in Z1. rewrite Forall_forall in Z1. specialize (Z1 q Hq).
      unfold inside in Z1. rewrite F2 by lia. reflexivity. }
    split. { intros i Hi1 Hi2 Hi3. rewrite F2, F1 by lia. reflexivity. }
    split. { apply zoned_app. split.
      - eapply zoned_weaken; [exact Z1|lia..].
      - eapply zoned_weaken; [exact Z2|lia..]. }
    eapply zoned_apart; [exact Z1|exact Z2|auto|auto|lia..].
Qed.

(** ** Sizes *)

Lemma add64_ok : forall m a b, a + b < two64 -> add64 m a b = Ok (a + b).
Proof. intros. now apply uadd_small. Qed.
Lemma mul64_ok : forall m a b, a * b < two64 -> mul64 m a b = Ok (a * b).
Proof. intros. now apply umul_small. Qed.
Lemma str_size_ok : forall m s, str_room s < two64 -> c_str_size m s = Ok (str_room s).
Proof. intros. now apply add64_ok. Qed.
Lemma opt_size_ok : forall A (f : A -> res N) (r : A -> N) o, opt_room r o < two64 ->
  (forall x, r x < two64 -> f x = Ok (r x)) -> c_opt_size f o = Ok (opt_room r o).
Proof. intros A f r [x|] H E; simpl in *; auto. Qed.
Lemma sum_ok : forall A m (f : A -> res N) (r : A -> N) l acc, acc + sum_room r l < two64 ->
  (forall x, r x < two64 -> f x = Ok (r x)) -> c_sum m f acc l = Ok (acc + sum_room r l).
Proof.
  intros A m f r l. induction l as [|x l IH]; intros acc H E; simpl in *.
  - now rewrite N.add_0_r.
  - fold (sum_room r l) in *. rewrite E by lia. cbn [bind]. rewrite add64_ok by lia. cbn [bind].
    rewrite IH by (auto; lia). f_equal. lia.
Qed.
Lemma code_size_ok : forall m c, code_room c < two64 -> code_info_size m c = Ok (code_room c).
Proof.
  intros m c H. unfold code_room in *. unfold code_info_size.
  rewrite (opt_size_ok _ _ str_room) by (try lia; intros; now apply str_size_ok). cbn [bind].
  rewrite str_size_ok by lia. cbn [bind]. now apply add64_ok.
Qed.
Lemma inlined_size_ok : forall m f, inlined_room f < two64 -> inlined_fn_size m f = Ok (inlined_room f).
Proof.
  intros m f H. unfold inlined_room in *. unfold inlined_fn_size.
  rewrite str_size_ok by lia. cbn [bind].
  rewrite (opt_size_ok _ _ code_room) by (try lia; intros; now apply code_size_ok). cbn [bind].
  now apply add64_ok.
Qed.
Lemma sym_size_ok : forall m s, sym_room s < two64 -> sym_size m s = Ok (sym_room s).
Proof.
  intros m s H. unfold sym_room in *. unfold sym_size.
  rewrite str_size_ok by lia. cbn [bind].
  rewrite (opt_size_ok _ _ str_room) by (try lia; intros; now apply str_size_ok). cbn [bind].
  rewrite add64_ok by lia. cbn [bind].
  rewrite (opt_size_ok _ _ code_room) by (try lia; intros; now apply code_size_ok). cbn [bind].
  rewrite add64_ok by lia. cbn [bind].
  rewrite (sum_ok _ _ _ inlined_room) by (try lia; intros; now apply inlined_size_ok). cbn [bind].
  rewrite N.add_0_l. now apply add64_ok.
Qed.
Lemma info_size_ok : forall m s, info_room s < two64 -> sym_info_size m s = Ok (info_room s).
Proof.
  intros m s H. unfold info_room in *. unfold sym_info_size.
  rewrite str_size_ok by lia. cbn [bind].
  rewrite (opt_size_ok _ _ str_room) by (try lia; intros; now apply str_size_ok). cbn [bind].
  now apply add64_ok.
Qed.
Lemma totals_ok : forall m l strs inls, strs + sum_room result_room l < two64 ->
  inls + sum_room result_inlined l < two64 ->
  totals m strs inls l = Ok (strs + sum_room result_room l, inls + sum_room result_inlined l).
Proof.
  intros m. induction l as [|[s|r] l IH]; intros strs inls H1 H2; simpl in *;
    try fold (sum_room result_room l) in *; try fold (sum_room result_inlined l) in *.
  - now rewrite !N.add_0_r.
  - rewrite sym_size_ok by lia. cbn [bind]. rewrite !add64_ok by lia. cbn [bind].
    rewrite IH by lia. do 2 f_equal; lia.
  - rewrite IH by lia. do 2 f_equal; lia.
Qed.

(** ** Freeing *)

Lemma read_back_ok : forall n B S g a l, length l = n -> has g a l -> B <= a -> a + nlen l <= B + S ->
  read_back (Block B S g) a n = Ok l.
Proof.
  induction n as [|n IH]; intros B S g a l Hl Hh H1 H2; destruct l as [|x l]; try discriminate; simpl; auto.
  rewrite nlen_cons in H2. destruct (N.leb_spec B a); [|lia]. destruct (N.ltb_spec a (B + S)); [|lia]. simpl.
  specialize (Hh O x eq_refl) as Hx. change (N.of_nat 0) with 0 in Hx. rewrite N.add_0_r in Hx. rewrite Hx. simpl.
  rewrite (IH B S g (a + 1) l); auto; try lia.
  intros i y Hi. replace (a + 1 + N.of_nat i) with (a + N.of_nat (Datatypes.S i)) by lia. now apply Hh.
Qed.
Lemma free_ok : forall B S g, num g B 8 S -> 8 <= S <= 2 ^ 63 - 8 -> free_syms (Block B S g) (B + 8) = Ok (B, S).
Proof.
  intros B S g (l & Hl & Hb & Hv & Hh) H. unfold free_syms. replace (B + 8 - 8) with B by lia.
  rewrite (read_back_ok 8 B S g B l); auto; try lia; [|unfold nlen; lia]. cbn [bind]. rewrite Hv.
  unfold layout8. destruct (N.leb_spec S (2 ^ 63 - 8)); [reflexivity|lia].
Qed.

(** ** Symbols that were looked up *)

Definition zoned2 (c d e f : N) (rs : list region) : Prop :=
  Forall (fun r => inside c d r \/ inside e f r) rs.
Lemma zoned2_zoned : forall a b c d e f rs, zoned2 c d e f rs -> zoned a b c d e f rs.
Proof. intros a b c d e f rs H. eapply Forall_impl; [|exact H]. intros r Hr. now right. Qed.
Lemma zoned2_weaken : forall c d e f c' d' e' f' rs, zoned2 c d e f rs ->
  c' <= c -> d <= d' -> e' <= e -> f <= f' -> zoned2 c' d' e' f' rs.
Proof.
  intros c d e f c' d' e' f' rs H. intros. eapply Forall_impl; [|exact H].
  intros r Hr. unfold inside in *. lia.
Qed.
Lemma zoned2_apart : forall c1 d1 e1 f1 c2 d2 e2 f2 x y,
  zoned2 c1 d1 e1 f1 x -> zoned2 c2 d2 e2 f2 y -> all_apart x -> all_apart y ->
  d1 <= c2 -> d2 <= e1 -> f1 <= e2 -> c1 <= d1 -> c2 <= d2 -> e1 <= f1 -> all_apart (x ++ y).
Proof.
  intros c1 d1 e1 f1 c2 d2 e2 f2 x y Hx Hy Ax Ay. intros.
  apply (zoned_apart 0 0 c1 d1 e1 f1 0 0 c2 d2 e2 f2); auto using zoned2_zoned; lia.
Qed.

Lemma sym_type_code_shown : forall t, sym_type_code t = shown_type t.
Proof. intros []; reflexivity. Qed.

Lemma put_sym_info_ok : forall out name addr size off module ty B S g I P,
  out mod 8 = 0 -> B <= out -> out + 64 <= B + S ->
  name < 2 ^ 64 -> addr < 2 ^ 64 -> size < 2 ^ 64 -> off < 2 ^ 64 -> module < 2 ^ 64 -> ty < 256 ->
  exists g', put_sym_info out name addr size off module ty (Cursors (Block B S g) I P)
      = Ok (Cursors (Block B S g') I P) /\
    num g' out 8 name /\ num g' (out + 8) 8 addr /\ num g' (out + 16) 8 size /\ num g' (out + 24) 8 off /\
    num g' (out + 32) 8 module /\ num g' (out + 40) 1 ty /\ has g' (out + 41) (repeat 0 23) /\
    frame out (out + 64) g g'.
Proof.
  intros out name addr size off module ty B S g I P Ha H1 H2 V1 V2 V3 V4 V5 V6. unfold put_sym_info.
  set (bs := le_bytes 8 name ++ le_bytes 8 addr ++ le_bytes 8 size ++ le_bytes 8 off ++
             le_bytes 8 module ++ le_bytes 1 ty ++ repeat 0 23).
  assert (L : nlen bs = 64).
  { subst bs. rewrite !nlen_app, !le_bytes_nlen. reflexivity. }
  destruct (put_ok 8 out bs B S g Ha H1 ltac:(rewrite L; lia)) as (g1 & E1 & Hh & F1). rewrite L in F1.
  unfold on_block. cbn [cu_block cu_inlined cu_str]. rewrite E1. cbn [bind].
  exists g1. split; [reflexivity|].
  subst bs. repeat (apply has_app in Hh; let Hn := fresh "Hn" in destruct Hh as (Hn & Hh)).
  rewrite !le_bytes_nlen in *.
  change (N.of_nat 8) with 8 in *. change (N.of_nat 1) with 1 in *.
  rewrite <- !N.add_assoc in *. change (8 + 8) with 16 in *.
  split; [apply num_has; auto|]. split; [apply num_has; auto|]. split; [apply num_has; auto|].
  split; [apply num_has; auto|]. split; [apply num_has; auto|]. split; [apply num_has; auto|].
  split; [exact Hh|exact F1].
Qed.

Lemma convert_infos_ok : forall l B S g I P,
  0 < B -> B + S <= 2 ^ 64 -> I mod 8 = 0 -> B <= I -> I + 64 * (nlen l + 1) <= P ->
  P + sum_room info_room l <= B + S -> Forall info_ok l ->
  exists g' rs, convert_infos l (Cursors (Block B S g) I P)
      = Ok (Cursors (Block B S g') (I + 64 * (nlen l + 1)) (P + sum_room info_room l)) /\
    c_infos g' I l rs /\ frame2 I (I + 64 * (nlen l + 1)) P (P + sum_room info_room l) g g' /\
    zoned2 I (I + 64 * (nlen l + 1)) P (P + sum_room info_room l) rs /\ all_apart rs.
Proof.
  induction l as [|s l IH]; intros B S g I P H0 HS Ha H1 H2 H3 Hok.
  - cbn [convert_infos sum_room fold_right] in *. cbn [cu_inlined]. change (nlen []) with 0 in *.
    unfold put_sym_info.
    change (le_bytes 8 0 ++ le_bytes 8 0 ++ le_bytes 8 0 ++ le_bytes 8 0 ++ le_bytes 8 0 ++ le_bytes 1 0 ++ repeat 0 23)
      with (repeat 0 64).
    assert (L : nlen (repeat 0 64) = 64) by (unfold nlen; now rewrite repeat_length).
    destruct (put_ok 8 I (repeat 0 64) B S g Ha H1 ltac:(rewrite L; lia)) as (g1 & E1 & Hh & F1). rewrite L in F1.
    unfold on_block. cbn [cu_block cu_inlined cu_str]. rewrite E1. cbn [bind cu_block cu_inlined cu_str].
    rewrite size_info. change (64 * (0 + 1)) with 64. rewrite !N.add_0_r.
    exists g1, [(I, 64)]. split; auto. split; [split; auto|].
    split; [intros i Hi _; now apply F1|]. split; auto. constructor; [left; split; simpl; lia|constructor].
  - inversion Hok as [|? ? (Haddr & Hoff) Hl]; subst. rewrite nlen_cons in *.
    cbn [sum_room fold_right] in *. fold (sum_room info_room l) in *.
    change (info_room s) with (str_room (si_name s) + opt_room str_room (si_module s)) in *.
    cbn [convert_infos]. pose proof (str_room_pos (si_name s)).
    destruct (make_cstr_ok (si_name s) B S g I P H0 ltac:(lia) ltac:(lia)) as (g1 & E1 & S1 & F1).
    rewrite E1. cbn [bind]. clear E1.
    destruct (make_opt_cstr_ok (si_module s) B S g1 I (P + str_room (si_name s)) H0 ltac:(lia) ltac:(lia))
      as (g2 & mo & r2 & E2 & S2 & F2 & P2 & W2 & A2).
    rewrite E2. cbn [bind cu_inlined]. clear E2.
    pose proof (shown_size_lt (si_size s)) as Hsz. rewrite c_size_shown, sym_type_code_shown.
    fold (or_zero (si_file_offset s)).
    destruct (put_sym_info_ok I P (si_addr s) (shown_size (si_size s)) (or_zero (si_file_offset s)) mo
                (shown_type (si_type s)) B S g2 I (P + str_room (si_name s) + opt_room str_room (si_module s)))
      as (g3 & E3 & N1 & N2 & N3 & N4 & N5 & N6 & N7 & F3); try lia; auto.
    { destruct (si_file_offset s); simpl in *; lia. }
    { destruct (si_type s); reflexivity. }
    rewrite E3. cbn [bind cu_block cu_inlined cu_str]. clear E3. rewrite size_info.
    destruct (IH B S g3 (I + 64) (P + str_room (si_name s) + opt_room str_room (si_module s)))
      as (g4 & r4 & E4 & S4 & F4 & Z4 & A4); try lia; auto.
    rewrite E4. clear E4.
    set (R1 := str_room (si_name s)) in *. set (R2 := opt_room str_room (si_module s)) in *.
    exists g4, ([(I, 64); (P, R1)] ++ r2 ++ r4).
    split. { f_equal. f_equal; lia. }
    split.
    { exists P, mo, [(P, R1)], r2, r4.
      split. { eapply num_agree; [exact N1|]. intros i Hi. change (N.of_nat 8) with 8 in Hi.
        rewrite F4 by lia. reflexivity. }
      split. { eapply c_str_agree; [exact S1|]. intros r i [<-|[]] Hi. simpl in Hi. fold R1 in Hi.
        rewrite F4, F3, F2 by lia. reflexivity. }
      split. { eapply num_agree; [exact N2|]. intros i Hi. change (N.of_nat 8) with 8 in Hi.
        rewrite F4 by lia. reflexivity. }
      split. { eapply num_agree; [exact N3|]. intros i Hi. change (N.of_nat 8) with 8 in Hi.
        rewrite F4 by lia. reflexivity. }
      split. { eapply num_agree; [exact N4|]. intros i Hi. change (N.of_nat 8) with 8 in Hi.
        rewrite F4 by lia. reflexivity. }
      split. { eapply num_agree; [exact N5|]. intros i Hi. change (N.of_nat 8) with 8 in Hi.
        rewrite F4 by lia. reflexivity. }
      split. { eapply c_opt_str_agree; [exact S2|]. intros r i Hr Hi. unfold within in W2.
        rewrite Forall_forall in W2. destruct (W2 r Hr). rewrite F4, F3 by lia. reflexivity. }
      split. { eapply num_agree; [exact N6|]. intros i Hi. change (N.of_nat 1) with 1 in Hi.
        rewrite F4 by lia. reflexivity. }
      split; [exact S4|reflexivity]. }
    split. { intros i Hi1 Hi2. rewrite F4, F3, F2, F1 by lia. reflexivity. }
    assert (Z1 : zoned2 I (I + 64) P (P + R1 + R2) ([(I, 64); (P, R1)] ++ r2)).
    { apply Forall_app. split.
      - constructor; [left; split; simpl; lia|]. constructor; [right; split; simpl; lia|constructor].
      - eapply Forall_impl; [|exact W2]. intros r (A & C). right. split; lia. }
    assert (A12 : all_apart ([(I, 64); (P, R1)] ++ r2)).
    { apply apart_app; auto.
      - constructor; [|apply apart_one]. constructor; [left; simpl; lia|constructor].
      - intros r q [<-|[<-|[]]] Hq; unfold within in W2; rewrite Forall_forall in W2; destruct (W2 q Hq);
          left; simpl; lia. }
    rewrite app_assoc.
    split. { apply Forall_app. split.
      - eapply zoned2_weaken; [exact Z1|lia..].
      - eapply zoned2_weaken; [exact Z4|lia..]. }
    eapply zoned2_apart; [exact Z1|exact Z4|auto|auto|lia..].
Qed.

Lemma sum_room_cons : forall A (f : A -> N) x l, sum_room f (x :: l) = f x + sum_room f l.
Proof. reflexivity. Qed.
Definition list_infos (l : list sym_info) : N := nlen l + 1.
Lemma convert_lists_ok : forall l out B S g I P,
  0 < B -> B + S <= 2 ^ 64 -> out mod 8 = 0 -> I mod 8 = 0 -> B <= out -> out + 8 * nlen l <= I ->
  I + 64 * sum_room list_infos l <= P ->
  P + sum_room (sum_room info_room) l <= B + S -> Forall (Forall info_ok) l ->
  exists g' rs, convert_lists l out (Cursors (Block B S g) I P)
      = Ok (Cursors (Block B S g') (I + 64 * sum_room list_infos l) (P + sum_room (sum_room info_room) l)) /\
    c_lists g' out l rs /\
    frame3 out (out + 8 * nlen l) I (I + 64 * sum_room list_infos l) P (P + sum_room (sum_room info_room) l) g g' /\
    zoned out (out + 8 * nlen l) I (I + 64 * sum_room list_infos l) P (P + sum_room (sum_room info_room) l) rs /\
    all_apart rs.
Proof.
  induction l as [|x l IH]; intros out B S g I P H0 HS Ha HaI H1 H2 H3 H4 Hok.
  - exists g, []. simpl. rewrite !N.mul_0_r, !N.add_0_r.
    split; auto. split; auto. split; [intros i _ _ _; reflexivity|]. split; [constructor|auto].
  - inversion Hok as [|? ? Hx Hl]; subst. rewrite nlen_cons in *.
    rewrite !sum_room_cons in *. change (list_infos x) with (nlen x + 1) in *.
    cbn [convert_lists cu_inlined]. unfold put64.
    store g1 N1 F1.
    destruct (convert_infos_ok x B S g1 I P) as (g2 & r2 & E2 & S2 & F2 & Z2 & A2); try lia; auto.
    rewrite E2. cbn [bind]. clear E2.
    destruct (IH (out + 8) B S g2 (I + 64 * (nlen x + 1)) (P + sum_room info_room x))
      as (g3 & r3 & E3 & S3 & F3 & Z3 & A3); try lia; auto.
    rewrite E3. clear E3. exists g3, (((out, 8) :: r2) ++ r3).
    split. { f_equal. f_equal; lia. }
    split.
    { exists I, r2, r3.
      split. { eapply num_agree; [exact N1|]. intros i Hi. change (N.of_nat 8) with 8 in Hi.
        rewrite F3, F2 by lia. reflexivity. }
      split. { eapply c_infos_agree; [exact S2|]. intros r i Hr Hi. unfold zoned2 in Z2.
        rewrite Forall_forall in Z2. specialize (Z2 r Hr). unfold inside in Z2. rewrite F3 by lia. reflexivity. }
      split; [exact S3|reflexivity]. }
    split. { intros i Hi1 Hi2 Hi3. rewrite F3, F2, F1 by lia. reflexivity. }
    assert (Z12 : zoned out (out + 8) I (I + 64 * (nlen x + 1)) P (P + sum_room info_room x) ((out, 8) :: r2)).
    { constructor; [left; split; simpl; lia|]. now apply zoned2_zoned. }
    assert (A12 : all_apart ((out, 8) :: r2)).
    { constructor; auto. eapply Forall_impl; [|exact Z2]. intros r Hr. unfold inside in Hr. left. simpl. lia. }
    split. { apply zoned_app. split.
      - eapply zoned_weaken; [exact Z12|lia..].
      - eapply zoned_weaken; [exact Z3|lia..]. }
    eapply zoned_apart; [exact Z12|exact Z3|auto|auto|lia..].
Qed.
