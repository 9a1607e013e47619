(** * Lemmas about allocations handed to C programs *)

From Coq Require Import ZArith Permutation.
From Verif Require Import Base Util UtilProofs Bytes Sym Symbolizer Normalize CapiIn CapiSpec CapiOut CapiProofs CapiWrite CapiCalls CapiCallsSpec CapiNorm CapiNormSpec PropCapiOut.
Local Open Scope N_scope.
Local Notation length := List.length.

(** ** Regions *)
Lemma apart_sym : forall r s, apart r s -> apart s r.
Proof. unfold apart. intuition. Qed.
Lemma all_apart_perm : forall l l', Permutation l l' -> all_apart l -> all_apart l'.
Proof.
  intros l l' H. unfold all_apart. induction H as [|x l l' H IH|x y l|l1 l2 l3 _ IH1 _ IH2]; intros Ha; auto.
  - inversion Ha; subst. constructor; auto. eapply Permutation_Forall; eauto.
  - inversion Ha as [|? ? H1 H2]; subst. inversion H2 as [|? ? H3 H4]; subst. inversion H1; subst.
    constructor; [constructor; auto; now apply apart_sym|]. constructor; auto.
Qed.
Lemma all_apart_app : forall a b, all_apart (a ++ b) <-> all_apart a /\ all_apart b /\ Forall (fun x => Forall (apart x) b) a.
Proof.
  unfold all_apart. induction a as [|x a IH]; intros b; cbn [app].
  - split; [intros H; repeat split; auto; constructor|intros (_ & H & _); exact H].
  - split.
    + intros H. inversion H as [|? ? H1 H2]; subst. apply IH in H2. destruct H2 as (H2 & H3 & H4). apply Forall_app in H1.
      repeat split; [constructor; tauto|assumption|constructor; tauto].
    + intros (H1 & H2 & H3). inversion H1; subst. inversion H3; subst. constructor; [apply Forall_app; auto|]. apply IH. auto.
Qed.
Definition lays_apart (a b : list lay) : Prop := Forall (fun x => Forall (fun y => apart (region_of x) (region_of y)) b) a.
Lemma lays_apart_app_l : forall a a' b, lays_apart (a ++ a') b <-> lays_apart a b /\ lays_apart a' b.
Proof. intros. unfold lays_apart. apply Forall_app. Qed.
Lemma lays_apart_app_r : forall a b b', lays_apart a (b ++ b') <-> lays_apart a b /\ lays_apart a b'.
Proof.
  intros. unfold lays_apart. split.
  - intros H. split; (eapply Forall_impl; [|exact H]); intros x Hx; apply Forall_app in Hx; tauto.
  - intros (H & H'). apply Forall_forall. intros x Hx. rewrite Forall_forall in H, H'. apply Forall_app. auto.
Qed.
Lemma lays_apart_sym : forall a b, lays_apart a b -> lays_apart b a.
Proof.
  intros a b H. apply Forall_forall. intros y Hy. apply Forall_forall. intros x Hx. apply apart_sym.
  unfold lays_apart in H. rewrite Forall_forall in H. specialize (H x Hx). rewrite Forall_forall in H. auto.
Qed.
Lemma lays_apart_perm : forall a b b', Permutation b b' -> lays_apart a b -> lays_apart a b'.
Proof. intros a b b' H Ha. eapply Forall_impl; [|exact Ha]. intros x Hx. eapply Permutation_Forall; eauto. Qed.
Lemma lays_all : forall a b, all_apart (map region_of (a ++ b)) <-> all_apart (map region_of a) /\ all_apart (map region_of b) /\ lays_apart a b.
Proof.
  intros a b. rewrite map_app, all_apart_app. unfold lays_apart. rewrite Forall_map.
  assert (E : forall x, Forall (apart (region_of x)) (map region_of b) <-> Forall (fun y => apart (region_of x) (region_of y)) b) by (intros; apply Forall_map).
  split; intros (H1 & H2 & H3); repeat split; auto; (eapply Forall_impl; [|exact H3]); intros x Hx; now apply E.
Qed.
(** A byte of one is not in others that are apart. *)
Lemma not_covered : forall b bs i, Forall (fun y => apart (region_of b) (region_of y)) bs -> l_base b <= i < l_base b + l_size b -> ~ covered bs i.
Proof.
  intros b bs i H Hi Hc. unfold covered in Hc. rewrite Exists_exists in Hc. destruct Hc as (c & Hc & Hic). rewrite Forall_forall in H.
  specialize (H c Hc). unfold apart, region_of in H. cbn [fst snd] in H. lia.
Qed.
Lemma covered_app : forall a b i, covered (a ++ b) i <-> covered a i \/ covered b i.
Proof. intros. apply Exists_app. Qed.
Lemma covered_perm : forall a b i, Permutation a b -> covered a i -> covered b i.
Proof. intros a b i H Hc. unfold covered in *. rewrite Exists_exists in *. destruct Hc as (x & Hx & Hi). exists x. split; auto. eapply Permutation_in; eauto. Qed.

(** ** Growth of the heap *)
Record grows (h h' : heap) (bs : list lay) (lo hi : N) : Prop := Grows {
  gr_live : Permutation (hp_live h') (bs ++ hp_live h);
  gr_apart : lays_apart bs (hp_live h);
  gr_own : all_apart (map region_of bs);
  gr_same : forall i, ~ covered bs i -> i < lo \/ hi <= i -> hp_get h' i = hp_get h i
}.
Lemma grows_refl : forall h lo hi, grows h h [] lo hi.
Proof. intros. constructor; [apply Permutation_refl|constructor|constructor|reflexivity]. Qed.
Lemma grows_trans : forall h h1 h2 b1 b2 lo hi, grows h h1 b1 lo hi -> grows h1 h2 b2 lo hi -> grows h h2 (b1 ++ b2) lo hi.
Proof.
  intros h h1 h2 b1 b2 lo hi [L1 A1 O1 S1] [L2 A2 O2 S2].
  assert (A2' := lays_apart_perm _ _ _ L1 A2). apply lays_apart_app_r in A2'. destruct A2' as (A21 & A22). constructor.
  - rewrite L2, L1. rewrite <- !app_assoc. rewrite (app_assoc b2), (app_assoc b1). apply Permutation_app_tail, Permutation_app_comm.
  - apply lays_apart_app_l. auto.
  - apply lays_all. repeat split; auto. now apply lays_apart_sym.
  - intros i Hc Hi. rewrite covered_app in Hc. rewrite S2, S1; tauto.
Qed.
Lemma grows_wider : forall h h' bs lo hi lo' hi', grows h h' bs lo hi -> lo' <= lo -> hi <= hi' -> grows h h' bs lo' hi'.
Proof. intros h h' bs lo hi lo' hi' [L A O S] H1 H2. constructor; auto. intros i Hc Hi. apply S; auto. lia. Qed.
Lemma grows_in : forall h h' bs lo hi b, grows h h' bs lo hi -> In b (hp_live h) -> In b (hp_live h').
Proof. intros h h' bs lo hi b G H. eapply Permutation_in; [symmetry; exact (gr_live _ _ _ _ _ G)|]. apply in_or_app. auto. Qed.
Lemma grows_new : forall h h' bs lo hi b, grows h h' bs lo hi -> In b bs -> In b (hp_live h').
Proof. intros h h' bs lo hi b G H. eapply Permutation_in; [symmetry; exact (gr_live _ _ _ _ _ G)|]. apply in_or_app. auto. Qed.
(** Memory of an allocation in use from before *)
Lemma grows_kept : forall h h' bs lo hi b i, grows h h' bs lo hi -> In b (hp_live h) -> l_base b <= i < l_base b + l_size b -> i < lo \/ hi <= i ->
  hp_get h' i = hp_get h i.
Proof.
  intros h h' bs lo hi b i G Hb Hi Hw. apply (gr_same _ _ _ _ _ G); auto. apply (not_covered b); auto.
  pose proof (lays_apart_sym _ _ (gr_apart _ _ _ _ _ G)) as A. unfold lays_apart in A. rewrite Forall_forall in A. auto.
Qed.

(** ** Writing *)
Lemma hput : forall al a l h b, a mod al = 0 -> In b (hp_live h) -> l_base b <= a -> a + nlen l <= l_base b + l_size b ->
  exists g, h_put al a l h = Ok (Heap (hp_live h) g) /\ has g a l /\ grows h (Heap (hp_live h) g) [] a (a + nlen l).
Proof.
  intros al a l h b H1 H2 H3 H4. exists (write a l (hp_get h)). split.
  - unfold h_put. destruct (N.eqb_spec (nlen l) 0); [reflexivity|]. destruct (N.eqb_spec (a mod al) 0); [|contradiction]. cbn [orb andb].
    replace (existsb _ (hp_live h)) with true; [reflexivity|]. symmetry. apply existsb_exists. exists b. split; auto.
    destruct (N.leb_spec (l_base b) a); [|lia]. destruct (N.leb_spec (a + nlen l) (l_base b + l_size b)); [reflexivity|lia].
  - split; [apply write_has|]. constructor; [apply Permutation_refl|constructor|constructor|]. intros i _ Hi. cbn [hp_get]. now apply write_other.
Qed.
Lemma hputn : forall n a v h b, v < 256 ^ N.of_nat n -> a mod N.of_nat n = 0 -> In b (hp_live h) -> l_base b <= a -> a + N.of_nat n <= l_base b + l_size b ->
  exists g, put_num n a v h = Ok (Heap (hp_live h) g) /\ num g a n v /\ grows h (Heap (hp_live h) g) [] a (a + N.of_nat n).
Proof.
  intros n a v h b Hv H1 H2 H3 H4. destruct (hput (N.of_nat n) a (le_bytes n v) h b H1 H2 H3) as (g & E & Hh & G).
  { now rewrite le_bytes_nlen. }
  rewrite le_bytes_nlen in G. exists g. split; [exact E|]. split; [|exact G].
  exists (le_bytes n v). split; [apply le_bytes_length|]. split; [apply le_bytes_is_bytes|]. split; [now apply le_val_bytes|exact Hh].
Qed.

(** ** Running out of memory *)
Definition runs_out (al : allocator) : Prop := exists h size align, 0 < size /\ al h size align = 0.
Definition good {A} (al : allocator) (r : res A) (P : A -> Prop) : Prop :=
  (exists v, r = Ok v /\ P v) \/ (r = Err EOutOfMemory /\ runs_out al).
Lemma good_bind : forall A B al (r : res A) (f : A -> res B) (P : A -> Prop) (Q : B -> Prop),
  good al r P -> (forall v, P v -> good al (f v) Q) -> good al (bind r f) Q.
Proof.
  intros A B al r f P Q [(v & -> & H)|(-> & H)] Hf; [exact (Hf v H)|]. right. split; [reflexivity|exact H].
Qed.
Lemma good_ok : forall A al (v : A) (P : A -> Prop), P v -> good al (Ok v) P.
Proof. intros. left. eauto. Qed.
Lemma good_weaken : forall A al (r : res A) (P Q : A -> Prop), good al r P -> (forall v, P v -> Q v) -> good al r Q.
Proof. intros A al r P Q [(v & E & H)|H] HPQ; [left; eauto|right; exact H]. Qed.

Section Alloc.
  Context (al : allocator) (Hal : sound al).
  Lemma halloc : forall size align h lo hi, 0 < size -> size <= 2 ^ 63 - align ->
    good al (h_alloc al size align h) (fun '(p, h') => p <> 0 /\ p mod align = 0 /\ p + size <= 2 ^ 64 /\ grows h h' [Lay p size align] lo hi).
  Proof.
    intros size align h lo hi H0 H1. unfold h_alloc. destruct (N.eqb_spec size 0); [lia|]. destruct (N.ltb_spec (2 ^ 63 - align) size); [lia|].
    destruct (N.eqb_spec (al h size align) 0) as [E|E].
    - right. split; [reflexivity|]. exists h, size, align. auto.
    - apply good_ok. destruct (Hal h size align H0 E) as (A1 & A2 & A3). split; [exact E|]. split; [exact A1|]. split; [exact A2|]. constructor.
      + cbn [hp_live app]. apply Permutation_refl.
      + constructor; [|constructor]. exact A3.
      + repeat constructor.
      + intros i Hc _. cbn [hp_get]. unfold in_lay. cbn [l_base l_size].
        destruct (N.leb_spec (al h size align) i); [|reflexivity]. destruct (N.ltb_spec i (al h size align + size)); [|reflexivity].
        exfalso. apply Hc. constructor. cbn. lia.
  Qed.
  Lemma cstring_ok : forall s h lo hi, path_ok s ->
    good al (cstring_new al s h) (fun '(p, h') => p <> 0 /\ p + (nlen s + 1) <= 2 ^ 64 /\ string (hp_get h') p s /\ grows h h' [Lay p (nlen s + 1) 1] lo hi).
  Proof.
    intros s h lo hi (Hn & Hs). unfold cstring_new.
    replace (existsb (fun b => b =? 0) s) with false.
    2:{ symmetry. apply Bool.not_true_is_false. intros E. apply existsb_exists in E. destruct E as (x & Hx & E). apply N.eqb_eq in E. subst. auto. }
    eapply good_bind; [apply (halloc _ 1 h lo hi); lia|]. intros (p & h1) (Hp & _ & He & G).
    destruct (hput 1 p (s ++ [0]) h1 (Lay p (nlen s + 1) 1)) as (g & E & Hh & G').
    { apply mod_1. } { eapply grows_new; [exact G|left; reflexivity]. } { cbn. lia. } { cbn. rewrite nlen_app. change (nlen [0]) with 1. lia. }
    rewrite E. cbn [bind]. apply good_ok. split; [exact Hp|]. split; [exact He|]. split; [split; [exact Hn|exact Hh]|].
    destruct G as [L A O S], G' as [L' A' O' S']. constructor; auto.
    - intros i Hc Hi. rewrite S'; [apply S; auto|intros X; inversion X|]. rewrite nlen_app. change (nlen [0]) with 1.
      destruct (N.lt_ge_cases i p); [auto|]. right. destruct (N.le_gt_cases (p + (nlen s + 1)) i); [auto|]. exfalso. apply Hc. constructor. cbn. lia.
  Qed.
End Alloc.

(** ** What stays the same *)
Lemma string_agree : forall g g' p s, string g p s -> (forall i, p <= i < p + (nlen s + 1) -> g' i = g i) -> string g' p s.
Proof. intros g g' p s (Hn & H) E. split; auto. eapply has_agree; [exact H|]. rewrite nlen_app. change (nlen [0]) with 1. exact E. Qed.
Lemma c_variant_agree : forall g g' a u k bs, c_variant g a u k bs -> (forall i, a <= i < a + 40 -> g' i = g i) ->
  (forall i, covered bs i -> g' i = g i) -> c_variant g' a u k bs.
Proof.
  intros g g' a u k bs H E Ec.
  assert (N8 : forall b, (b = a \/ b = a + 8 \/ b = a + 16 \/ b = a + 24) -> forall i, b <= i < b + N.of_nat 8 -> g' i = g i)
    by (intros b Hb i Hi; change (N.of_nat 8) with 8 in Hi; apply E; lia).
  assert (Z16 : forall b, (b = a + 8 \/ b = a + 24) -> forall i, b <= i < b + nlen (repeat 0 16) -> g' i = g i)
    by (intros b Hb i Hi; change (nlen (repeat 0 16)) with 16 in Hi; apply E; lia).
  assert (St : forall p n rest, bs = Lay p n 1 :: rest -> forall i, p <= i < p + n -> g' i = g i)
    by (intros p n rest -> i Hi; apply Ec; constructor; exact Hi).
  destruct H as [path p H1 Hp Hs Hz|path p H1 Hp Hs H2 H3 Hz|path id p q H1 Hp Hs H2 H3 Hq Hid Hz|s p size parts H1 Hp H2 Hsz Hz Hc Ha Hi|r H1 Hz].
  - apply VApk; auto; [eapply num_agree; [exact H1|eauto]|eapply string_agree; [exact Hs|eauto]|eapply has_agree; [exact Hz|eauto]].
  - apply VElf; auto; [eapply num_agree; [exact H1|eauto]|eapply string_agree; [exact Hs|eauto]|eapply num_agree; [exact H2|eauto]|eapply num_agree; [exact H3|apply N8; auto]|eapply has_agree; [exact Hz|eauto]].
  - eapply VElfId; auto; [eapply num_agree; [exact H1|eauto]|eapply string_agree; [exact Hs|eauto]|eapply num_agree; [exact H2|eauto]|eapply num_agree; [exact H3|apply N8; auto]| |eapply has_agree; [exact Hz|eauto]].
    eapply has_agree; [exact Hid|]. intros i Hi. apply Ec. unfold piece. cbn [l_size]. destruct (N.eqb_spec (nlen id) 0); [lia|]. apply Exists_cons_tl, Exists_cons_hd. exact Hi.
  - assert (Ep : forall i, p - 8 <= i < p - 8 + size -> g' i = g i) by (intros i Hb; apply Ec, Exists_cons_hd; exact Hb).
    eapply VSym; eauto; [eapply num_agree; [exact H1|eauto]|eapply num_agree; [exact H2|]|eapply has_agree; [exact Hz|eauto]|eapply c_sym_agree; [exact Hc|]].
    + intros i Hb. change (N.of_nat 8) with 8 in Hb. apply Ep. lia.
    + intros r i Hr Hb. rewrite Forall_forall in Hi. specialize (Hi r Hr). unfold inside in Hi. apply Ep. lia.
  - apply VUnknown; [eapply num_agree; [exact H1|]|eapply has_agree; [exact Hz|]]; intros i Hb; apply E; [change (N.of_nat 1) with 1 in Hb|change (nlen (repeat 0 15)) with 15 in Hb]; lia.
Qed.
Lemma c_umeta_agree : forall g g' a u bs, c_umeta g a u bs -> (forall i, a <= i < a + 64 -> g' i = g i) ->
  (forall i, covered bs i -> g' i = g i) -> c_umeta g' a u bs.
Proof.
  intros g g' a u bs (k & Hk & Hz & Hv & Hr) E Ec. exists k. split; [eapply num_agree; [exact Hk|]; intros i Hi; change (N.of_nat 1) with 1 in Hi; apply E; lia|].
  split; [eapply has_agree; [exact Hz|]; intros i Hi; change (nlen (repeat 0 7)) with 7 in Hi; apply E; lia|].
  split; [eapply c_variant_agree; [exact Hv| |exact Ec]; intros i Hi; apply E; lia|].
  eapply has_agree; [exact Hr|]; intros i Hi; change (nlen (repeat 0 16)) with 16 in Hi; apply E; lia.
Qed.
Lemma c_umetas_agree : forall g g' l a bs, c_umetas g a l bs -> (forall i, a <= i < a + 64 * nlen l -> g' i = g i) ->
  (forall i, covered bs i -> g' i = g i) -> c_umetas g' a l bs.
Proof.
  induction l as [|u l IH]; intros a bs H E Ec; [exact H|]. destruct H as (b1 & b2 & H1 & H2 & ->). rewrite nlen_cons in E. exists b1, b2.
  split; [eapply c_umeta_agree; [exact H1| |]|split; [apply (IH (a + 64)); [exact H2| |]|reflexivity]]; intros i Hi; first [apply E; lia|apply Ec, covered_app; auto].
Qed.
Lemma c_outputs_agree : forall g g' l a, c_outputs g a l -> (forall i, a <= i < a + 32 * nlen l -> g' i = g i) -> c_outputs g' a l.
Proof.
  induction l as [|(o, n) l IH]; intros a H E; [exact I|]. destruct H as (H1 & H2 & H3 & H4). rewrite nlen_cons in E. cbn [c_outputs].
  split; [eapply num_agree; [exact H1|]; intros i Hi; change (N.of_nat 8) with 8 in Hi; apply E; lia|].
  split; [eapply num_agree; [exact H2|]; intros i Hi; change (N.of_nat 8) with 8 in Hi; apply E; lia|].
  split; [eapply has_agree; [exact H3|]; intros i Hi; change (nlen (repeat 0 16)) with 16 in Hi; apply E; lia|].
  apply IH; [exact H4|]. intros i Hi. apply E. lia.
Qed.

(** ** Conversion *)
Section Convert.
  Context (al : allocator) (Hal : sound al).

  (** A write, with what has been written before *)
  Lemma put_step : forall n a v h0 h b bs lo hi B (f : heap -> res B) (Q : B -> Prop),
    v < 256 ^ N.of_nat n -> a mod N.of_nat n = 0 -> In b (hp_live h) -> l_base b <= a -> a + N.of_nat n <= l_base b + l_size b ->
    lo <= a -> a + N.of_nat n <= hi -> grows h0 h bs lo hi ->
    (forall g, num g a n v -> (forall i, i < a \/ a + N.of_nat n <= i -> g i = hp_get h i) -> grows h0 (Heap (hp_live h) g) bs lo hi ->
       good al (f (Heap (hp_live h) g)) Q) ->
    good al (bind (put_num n a v h) f) Q.
  Proof.
    intros n a v h0 h b bs lo hi B f Q Hv Hm Hb H1 H2 H3 H4 G Hf. destruct (hputn n a v h b Hv Hm Hb H1 H2) as (g & E & Hn & Gw). rewrite E. cbn [bind].
    apply Hf; auto.
    - intros i Hi. apply (gr_same _ _ _ _ _ Gw); auto. intros X. inversion X.
    - rewrite <- (app_nil_r bs). eapply grows_trans; [exact G|]. eapply grows_wider; [exact Gw|lia..].
  Qed.
  Lemma put_last : forall a l h0 h b bs lo hi (Q : heap -> Prop),
    In b (hp_live h) -> l_base b <= a -> a + nlen l <= l_base b + l_size b -> lo <= a -> a + nlen l <= hi -> grows h0 h bs lo hi ->
    (forall g, has g a l -> (forall i, i < a \/ a + nlen l <= i -> g i = hp_get h i) -> grows h0 (Heap (hp_live h) g) bs lo hi -> Q (Heap (hp_live h) g)) ->
    good al (h_put 1 a l h) Q.
  Proof.
    intros a l h0 h b bs lo hi Q Hb H1 H2 H3 H4 G Hf. destruct (hput 1 a l h b (mod_1 a) Hb H1 H2) as (g & E & Hn & Gw). rewrite E. apply good_ok.
    apply Hf; auto.
    - intros i Hi. apply (gr_same _ _ _ _ _ Gw); auto. intros X. inversion X.
    - rewrite <- (app_nil_r bs). eapply grows_trans; [exact G|]. eapply grows_wider; [exact Gw|lia..].
  Qed.
  Lemma put_step_bytes : forall a l h0 h b bs lo hi B (f : heap -> res B) (Q : B -> Prop),
    In b (hp_live h) -> l_base b <= a -> a + nlen l <= l_base b + l_size b -> lo <= a -> a + nlen l <= hi -> grows h0 h bs lo hi ->
    (forall g, has g a l -> (forall i, i < a \/ a + nlen l <= i -> g i = hp_get h i) -> grows h0 (Heap (hp_live h) g) bs lo hi -> good al (f (Heap (hp_live h) g)) Q) ->
    good al (bind (h_put 1 a l h) f) Q.
  Proof.
    intros a l h0 h b bs lo hi B f Q Hb H1 H2 H3 H4 G Hf. eapply good_bind; [eapply put_last with (Q := fun h' => good al (f h') Q); eauto|]. auto.
  Qed.
  Lemma aligned8 : forall a k, a mod 8 = 0 -> k mod 8 = 0 -> (a + k) mod 8 = 0.
  Proof. intros a k Ha Hk. apply aligned; auto; discriminate. Qed.
  Lemma new_apart : forall h h' b bs lo hi A, grows h h' (b :: bs) lo hi -> In A (hp_live h) -> apart (region_of b) (region_of A).
  Proof. intros h h' b bs lo hi A G H. pose proof (gr_apart _ _ _ _ _ G) as L. inversion L as [|? ? H1 _]; subst. rewrite Forall_forall in H1. auto. Qed.

  Ltac side := try assumption; try eassumption; try (change (N.of_nat 8) with 8; assumption); try (now apply aligned8); try (change (N.of_nat 1) with 1; apply mod_1);
    try (rewrite pow8); change (N.of_nat 8) with 8; change (N.of_nat 1) with 1; try lia.
  Section One.
    Context (h : heap) (A : lay) (out : N) (HA : In A (hp_live h)) (H1 : l_base A <= out) (H2 : out + 40 <= l_base A + l_size A) (H8 : out mod 8 = 0).
    Lemma apk_ok : forall path, path_ok path ->
      good al (convert_apk al path out h) (fun h' => exists bs, grows h h' bs out (out + 40) /\ c_variant (hp_get h') out (UApk path) 1 bs).
    Proof.
      intros path Hp. unfold convert_apk. change (offset_of meta_apk_ty 0) with 0. change (offset_of meta_apk_ty 1) with 8. rewrite N.add_0_r.
      eapply good_bind; [apply (cstring_ok al Hal path h out (out + 40)); exact Hp|]. intros (p & h1) (Hp0 & Hpe & Hs & G).
      pose proof (new_apart _ _ _ _ _ _ _ G HA) as Ap. unfold apart, region_of in Ap. cbn [fst snd l_base l_size] in Ap.
      assert (HA1 := grows_in _ _ _ _ _ _ G HA).
      eapply (put_step 8 out p h h1 A _ out (out + 40)); [side..|]. intros g Hn Eg G1. change (N.of_nat 8) with 8 in Eg.
      eapply (put_last (out + 8) (repeat 0 16) h _ A _ out (out + 40)); cbn [hp_live]; change (nlen (repeat 0 16)) with 16; [side..|]. intros g' Hz Eg' G2. cbn [hp_get] in Eg'. cbn [hp_live] in G2.
      eexists. split; [exact G2|]. cbn [hp_get]. apply VApk; auto.
      - eapply num_agree; [exact Hn|]. intros i Hi. change (N.of_nat 8) with 8 in Hi. apply Eg'. lia.
      - eapply string_agree; [exact Hs|]. intros i Hi. rewrite Eg', Eg by lia. reflexivity.
    Qed.
    Lemma unknown_ok : forall r, good al (convert_unknown r out h) (fun h' => exists bs, grows h h' bs out (out + 40) /\ c_variant (hp_get h') out (UUnknown r) 0 bs).
    Proof.
      intros r. unfold convert_unknown. change (offset_of meta_unknown_ty 0) with 0. change (offset_of meta_unknown_ty 1) with 1. rewrite N.add_0_r.
      eapply (put_step 1 out _ h h A _ out (out + 40)); [destruct r; reflexivity|side; try apply (grows_refl h out (out + 40))..|].
      intros g Hn Eg G1. change (N.of_nat 1) with 1 in Eg.
      eapply (put_last (out + 1) (repeat 0 15) h _ A _ out (out + 40)); cbn [hp_live]; change (nlen (repeat 0 15)) with 15; [side..|]. intros g' Hz Eg' G2. cbn [hp_get] in Eg'. cbn [hp_live] in G2.
      eexists. split; [exact G2|]. cbn [hp_get]. apply VUnknown; auto.
      replace (shown_normalize_reason r) with (normalize_reason_code r) by (destruct r; reflexivity).
      eapply num_agree; [exact Hn|]. intros i Hi. change (N.of_nat 1) with 1 in Hi. apply Eg'. lia.
    Qed.
    (** The four members of [blaze_user_meta_elf] *)
    Lemma elf_members : forall path build_id p id h1 bs, In A (hp_live h1) -> grows h h1 bs out (out + 40) -> p < 2 ^ 64 -> id < 2 ^ 64 ->
      match build_id with Some id => nlen id <= 2 ^ 63 - 1 | None => True end ->
      (forall g, (forall i, i < out \/ out + 40 <= i -> g i = hp_get h1 i) -> num g out 8 p ->
         num g (out + 8) 8 (match build_id with Some id => nlen id | None => 0 end) -> num g (out + 16) 8 id -> has g (out + 24) (repeat 0 16) ->
         c_variant g out (UElf path build_id) 2 bs) ->
      good al (let* h := put_num 8 (out + offset_of meta_elf_ty 0) p h1 in
               let* h := put_num 8 (out + offset_of meta_elf_ty 1) (match build_id with Some id => nlen id | None => 0 end) h in
               let* h := put_num 8 (out + offset_of meta_elf_ty 2) id h in
               h_put 1 (out + offset_of meta_elf_ty 3) (repeat 0 16) h)
        (fun h' => exists bs, grows h h' bs out (out + 40) /\ c_variant (hp_get h') out (UElf path build_id) 2 bs).
    Proof.
      intros path build_id p id h1 bs HA1 G Hp Hid Hl Hf.
      change (offset_of meta_elf_ty 0) with 0. change (offset_of meta_elf_ty 1) with 8. change (offset_of meta_elf_ty 2) with 16. change (offset_of meta_elf_ty 3) with 24. rewrite N.add_0_r.
      eapply (put_step 8 out p h h1 A _ out (out + 40)); [side..|]. intros g1 Hn1 E1 G1. change (N.of_nat 8) with 8 in E1.
      eapply (put_step 8 (out + 8) _ h _ A _ out (out + 40)); cbn [hp_live]; [rewrite pow8; destruct build_id; lia|side..|]. intros g2 Hn2 E2 G2. change (N.of_nat 8) with 8 in E2. cbn [hp_get hp_live] in E2, G2.
      eapply (put_step 8 (out + 16) id h _ A _ out (out + 40)); cbn [hp_live]; [side..|]. intros g3 Hn3 E3 G3. change (N.of_nat 8) with 8 in E3. cbn [hp_get hp_live] in E3, G3.
      eapply (put_last (out + 24) (repeat 0 16) h _ A _ out (out + 40)); cbn [hp_live]; change (nlen (repeat 0 16)) with 16; [side..|]. intros g4 Hz E4 G4. cbn [hp_get] in E4. cbn [hp_live] in G4.
      exists bs. split; [exact G4|]. cbn [hp_get]. apply Hf; auto.
      - intros i Hi. rewrite E4, E3, E2, E1 by lia. reflexivity.
      - eapply num_agree; [exact Hn1|]. intros i Hi. change (N.of_nat 8) with 8 in Hi. rewrite E4, E3, E2 by lia. reflexivity.
      - eapply num_agree; [exact Hn2|]. intros i Hi. change (N.of_nat 8) with 8 in Hi. rewrite E4, E3 by lia. reflexivity.
      - eapply num_agree; [exact Hn3|]. intros i Hi. change (N.of_nat 8) with 8 in Hi. rewrite E4 by lia. reflexivity.
    Qed.
    Lemma elf_ok : forall path build_id, path_ok path -> match build_id with Some id => nlen id <= 2 ^ 63 - 1 | None => True end ->
      good al (convert_elf al path build_id out h) (fun h' => exists bs, grows h h' bs out (out + 40) /\ c_variant (hp_get h') out (UElf path build_id) 2 bs).
    Proof.
      intros path build_id Hp Hl. unfold convert_elf.
      eapply good_bind; [apply (cstring_ok al Hal path h out (out + 40)); exact Hp|]. intros (p & h1) (Hp0 & Hpe & Hs & G).
      pose proof (new_apart _ _ _ _ _ _ _ G HA) as Ap. unfold apart, region_of in Ap. cbn [fst snd l_base l_size] in Ap.
      assert (HA1 := grows_in _ _ _ _ _ _ G HA).
      destruct build_id as [id|].
      2:{ cbn [bind]. apply (elf_members path None) with (bs := [Lay p (nlen path + 1) 1]); auto; [lia|lia|]. intros g Eg N1 N2 N3 Hz.
          apply VElf; auto. eapply string_agree; [exact Hs|]. intros i Hi. apply Eg. lia. }
      destruct (N.eq_dec (nlen id) 0) as [E0|E0].
      - assert (Eid : id = []) by (destruct id; [reflexivity|rewrite nlen_cons in E0; lia]). subst id.
        change (h_alloc al (nlen []) 1 h1) with (Ok (1, h1) : res (N * heap)). cbn [bind].
        change (h_put 1 1 [] h1) with (Ok (Heap (hp_live h1) (hp_get h1)) : res heap). cbn [bind].
        replace (Heap (hp_live h1) (hp_get h1)) with h1 by (destruct h1; reflexivity).
        apply (elf_members path (Some [])) with (bs := [Lay p (nlen path + 1) 1]); auto; [lia|lia|]. intros g Eg N1 N2 N3 Hz.
        apply (VElfId g out path [] p 1); auto; [|discriminate|intros i y Hy; destruct i; discriminate].
        eapply string_agree; [exact Hs|]. intros i Hi. apply Eg. lia.
      - eapply good_bind.
        { eapply good_bind; [apply (halloc al Hal (nlen id) 1 h1 out (out + 40)); lia|]. intros (q & h2) (Hq & _ & Hqe & Gq).
          destruct (hput 1 q id h2 (Lay q (nlen id) 1)) as (g & E & Hh & Gw); [apply mod_1|eapply grows_new; [exact Gq|now left]|cbn; lia|cbn; lia|].
          rewrite E. cbn [bind].
          apply (good_ok _ al (q, Heap (hp_live h2) g) (fun '(q, h3) => q <> 0 /\ q + nlen id <= 2 ^ 64 /\ has (hp_get h3) q id /\ grows h1 h3 [Lay q (nlen id) 1] out (out + 40))).
          split; [exact Hq|]. split; [exact Hqe|]. split; [exact Hh|]. destruct Gq as [L3 A3 O3 S3]. constructor; auto. intros i Hc Hi. rewrite (gr_same _ _ _ _ _ Gw); [now apply S3|intros X; inversion X|].
          destruct (N.lt_ge_cases i q); [auto|]. right. destruct (N.le_gt_cases (q + nlen id) i); [auto|]. exfalso. apply Hc. constructor. cbn. lia. }
        intros (q & h3) (Hq & Hqe & Hh & Gq).
        pose proof (new_apart _ _ _ _ _ _ _ Gq HA1) as Aq. unfold apart, region_of in Aq. cbn [fst snd l_base l_size] in Aq.
        assert (Hpin : In (Lay p (nlen path + 1) 1) (hp_live h1)) by (eapply grows_new; [exact G|now left]).
        assert (HA3 := grows_in _ _ _ _ _ _ Gq HA1).
        pose proof (new_apart _ _ _ _ _ _ _ Gq Hpin) as Apq. unfold apart, region_of in Apq. cbn [fst snd l_base l_size] in Apq.
        apply (elf_members path (Some id)) with (bs := [Lay p (nlen path + 1) 1; Lay q (nlen id) 1]); auto; [exact (grows_trans _ _ _ _ _ _ _ G Gq)|lia|lia|].
        intros g Eg N1 N2 N3 Hz.
        replace [Lay p (nlen path + 1) 1; Lay q (nlen id) 1] with (Lay p (nlen path + 1) 1 :: piece (Lay q (nlen id) 1)).
        2:{ unfold piece. cbn [l_size]. destruct (N.eqb_spec (nlen id) 0); [lia|reflexivity]. }
        eapply VElfId; eauto.
        + eapply string_agree; [exact Hs|]. intros i Hi. rewrite Eg by lia. apply (grows_kept _ _ _ _ _ _ i Gq Hpin); cbn; lia.
        + eapply has_agree; [exact Hh|]. intros i Hi. apply Eg. lia.
    Qed.
    Lemma sym_ok_ : forall m s, umeta_ok (USym s) ->
      good al (convert_meta al m s out h) (fun h' => exists bs, grows h h' bs out (out + 40) /\ c_variant (hp_get h') out (USym s) 3 bs).
    Proof.
      intros m s (Hs & Hr). unfold convert_meta. change (offset_of meta_sym_ty 0) with 0. change (offset_of meta_sym_ty 1) with 8. rewrite N.add_0_r.
      rewrite meta_size_ok by exact Hr. cbn [bind]. set (SZ := 8 + 104 + 48 * nlen (sy_inlined s) + sym_room s) in *.
      assert (HSZ : 112 <= SZ) by (unfold SZ; lia).
      eapply good_bind; [apply (halloc al Hal SZ 8 h out (out + 40)); lia|]. intros (p & h1) (Hp0 & Hpm & Hpe & G).
      pose proof (C48_meta_sym m p s) as C. cbv zeta in C. change (8 + 104 + 48 * nlen (sy_inlined s) + sym_room s) with SZ in C.
      destruct C as (g0 & parts & E0 & Hc & Ha & Hi & Hfree); [split; [lia|split; [exact Hpm|exact Hpe]]|exact Hr|exact Hs|]. rewrite E0. cbn [bind blk_get].
      pose proof (new_apart _ _ _ _ _ _ _ G HA) as Ap. unfold apart, region_of in Ap. cbn [fst snd l_base l_size] in Ap.
      assert (HA1 := grows_in _ _ _ _ _ _ G HA).
      set (h2 := Heap (hp_live h1) (fun i => if in_lay (Lay p SZ 8) i then g0 i else hp_get h1 i)).
      assert (G2 : grows h h2 [Lay p SZ 8] out (out + 40)).
      { destruct G as [L3 A3 O3 S3]. constructor; auto. intros i Hci Hi'. cbn [hp_get h2]. unfold in_lay. cbn [l_base l_size].
        destruct (N.leb_spec p i); [|now apply S3]. destruct (N.ltb_spec i (p + SZ)); [|now apply S3]. exfalso. apply Hci. constructor. cbn. lia. }
      assert (E2 : forall i, p <= i < p + SZ -> hp_get h2 i = g0 i).
      { intros i Hi'. cbn [hp_get h2]. unfold in_lay. cbn [l_base l_size]. destruct (N.leb_spec p i); [|lia]. destruct (N.ltb_spec i (p + SZ)); [reflexivity|lia]. }
      assert (Hnum : num g0 p 8 SZ).
      { unfold free_syms in Hfree. replace (p + 8 - 8) with p in Hfree by lia.
        unfold convert_meta_sym in E0. rewrite meta_size_ok in E0 by exact Hr. change (8 + 104 + 48 * nlen (sy_inlined s) + sym_room s) with SZ in E0. cbn [bind] in E0.
        destruct (N.eqb_spec p 0); [lia|]. rewrite size_sym, size_inlined in E0. unfold alloc, put64 in E0.
        destruct (putn_ok 8 8 p SZ p SZ (fun _ => None)) as (g1 & Ep & N1 & F1); [rewrite pow8; lia|exact Hpm|lia|change (N.of_nat 8) with 8; lia|].
        rewrite Ep in E0. cbn [bind] in E0.
        destruct (convert_sym_ok s (p + 8) p SZ g1 (p + 8 + 104) (p + 8 + 104 + 48 * nlen (sy_inlined s)))
          as (g3 & rs & E3 & S3 & F3 & Z3 & A3); try (unfold SZ; lia); try aligns; auto.
        rewrite E3 in E0. cbn [bind cu_block] in E0. injection E0 as <-.
        eapply num_agree; [exact N1|]. intros i Hi'. change (N.of_nat 8) with 8 in Hi'. rewrite F3 by lia. reflexivity. }
      eapply (put_step 8 out (p + 8) h h2 A _ out (out + 40)); [side..|]. intros g Hn Eg G3. change (N.of_nat 8) with 8 in Eg.
      eapply (put_last (out + 8) (repeat 0 16) h _ A _ out (out + 40)); cbn [hp_live]; change (nlen (repeat 0 16)) with 16; [side..|]. intros g' Hz Eg' G4. cbn [hp_get] in Eg'. cbn [hp_live] in G4.
      assert (E4 : forall i, p <= i < p + SZ -> g' i = g0 i) by (intros i Hi'; rewrite Eg', Eg, E2 by lia; reflexivity).
      exists [Lay p SZ 8]. split; [exact G4|]. cbn [hp_get]. replace [Lay p SZ 8] with [Lay (p + 8 - 8) SZ 8] by (do 2 f_equal; lia).
      apply (VSym g' out s (p + 8) SZ parts); auto; try lia.
      - eapply num_agree; [exact Hn|]. intros i Hi'. change (N.of_nat 8) with 8 in Hi'. apply Eg'. lia.
      - replace (p + 8 - 8) with p by lia. eapply num_agree; [exact Hnum|]. intros i Hi'. change (N.of_nat 8) with 8 in Hi'. apply E4. lia.
      - eapply c_sym_agree; [exact Hc|]. intros r i Hr' Hb. rewrite Forall_forall in Hi. specialize (Hi r Hr'). unfold inside in Hi. apply E4. lia.
      - replace (p + 8 - 8) with p by lia. exact Hi.
    Qed.
  End One.
End Convert.

Section Whole.
  Context (al : allocator) (Hal : sound al).
  Ltac side := try assumption; try eassumption; try (change (N.of_nat 8) with 8; assumption); try (now apply aligned8); try (change (N.of_nat 1) with 1; apply mod_1);
    try (rewrite pow8); change (N.of_nat 8) with 8; change (N.of_nat 1) with 1; try lia.

  Lemma umeta_converted : forall m u h A out, umeta_ok u -> In A (hp_live h) -> l_base A <= out -> out + 64 <= l_base A + l_size A -> out mod 8 = 0 ->
    good al (convert_umeta al m u out h) (fun h' => exists bs, grows h h' bs out (out + 64) /\ c_umeta (hp_get h') out u bs).
  Proof.
    intros m u h A out Hu HA H1 H2 H8. unfold convert_umeta.
    change (offset_of meta_ty 0) with 0. change (offset_of meta_ty 1) with 1. change (offset_of meta_ty 2) with 8. change (offset_of meta_ty 3) with 48. rewrite N.add_0_r.
    assert (V1 : l_base A <= out + 8) by lia. assert (V2 : out + 8 + 40 <= l_base A + l_size A) by lia. assert (V8 : (out + 8) mod 8 = 0) by now apply aligned8.
    eapply good_bind with (P := fun '(kind, h') => kind < 256 /\ exists bs, grows h h' bs out (out + 64) /\ c_variant (hp_get h') (out + 8) u kind bs).
    { assert (W : forall r k, k < 256 -> good al r (fun h' => exists bs, grows h h' bs (out + 8) (out + 8 + 40) /\ c_variant (hp_get h') (out + 8) u k bs) ->
        good al (let* h := r in Ok (k, h)) (fun '(kind, h') => kind < 256 /\ exists bs, grows h h' bs out (out + 64) /\ c_variant (hp_get h') (out + 8) u kind bs)).
      { intros r k Hk Hr. eapply good_bind; [exact Hr|]. intros h' (bs & G & Hc). apply good_ok. split; [exact Hk|]. exists bs. split; [|exact Hc]. eapply grows_wider; [exact G|lia..]. }
      destruct u as [path|path id|s|r].
      - apply W; [reflexivity|]. eapply apk_ok; eauto.
      - apply W; [reflexivity|]. destruct Hu as (Hp & Hid). eapply elf_ok; eauto.
      - apply W; [reflexivity|]. eapply sym_ok_; eauto.
      - apply W; [reflexivity|]. eapply unknown_ok; eauto. }
    intros (kind & h1) (Hk & bs & G & Hc). assert (HA1 := grows_in _ _ _ _ _ _ G HA).
    eapply (put_step al 1 out kind h h1 A bs out (out + 64)); [side..|]. intros g1 Hn E1 G1. change (N.of_nat 1) with 1 in E1.
    eapply (put_step_bytes al (out + 1) (repeat 0 7) h _ A bs out (out + 64)); cbn [hp_live]; change (nlen (repeat 0 7)) with 7; [side..|]. intros g2 Hz E2 G2. cbn [hp_get hp_live] in E2, G2.
    eapply (put_last al (out + 48) (repeat 0 16) h _ A bs out (out + 64)); cbn [hp_live]; change (nlen (repeat 0 16)) with 16; [side..|]. intros g3 Hz' E3 G3. cbn [hp_get hp_live] in E3, G3.
    exists bs. split; [exact G3|]. cbn [hp_get]. exists kind.
    split; [eapply num_agree; [exact Hn|]; intros i Hi; change (N.of_nat 1) with 1 in Hi; rewrite E3, E2 by lia; reflexivity|].
    split; [eapply has_agree; [exact Hz|]; intros i Hi; change (nlen (repeat 0 7)) with 7 in Hi; rewrite E3 by lia; reflexivity|].
    split; [|exact Hz']. eapply c_variant_agree; [exact Hc| |].
    - intros i Hi. rewrite E3, E2, E1 by lia. reflexivity.
    - intros i Hi. assert (Ho : i < out \/ out + 64 <= i).
      { unfold covered in Hi. rewrite Exists_exists in Hi. destruct Hi as (b & Hb & Hi). pose proof (gr_apart _ _ _ _ _ G) as L. unfold lays_apart in L. rewrite Forall_forall in L.
        specialize (L b Hb). rewrite Forall_forall in L. specialize (L A HA). unfold apart, region_of in L. cbn [fst snd] in L. lia. }
      rewrite E3, E2, E1 by lia. reflexivity.
  Qed.
  Lemma umetas_converted : forall m l h A out, Forall umeta_ok l -> (l = [] \/ In A (hp_live h)) -> l_base A <= out -> out + 64 * nlen l <= l_base A + l_size A -> out mod 8 = 0 ->
    good al (convert_metas al m l out h) (fun h' => exists bs, grows h h' bs out (out + 64 * nlen l) /\ c_umetas (hp_get h') out l bs).
  Proof.
    intros m. induction l as [|u l IH]; intros h A out Hl HA H1 H2 H8.
    - apply good_ok. exists []. split; [apply grows_refl|reflexivity].
    - destruct HA as [HA|HA]; [discriminate|]. rewrite nlen_cons in *. inversion Hl as [|? ? Hu Hl']; subst. cbn [convert_metas].
      eapply good_bind; [apply (umeta_converted m u h A out Hu HA H1); [lia|exact H8]|]. intros h1 (b1 & G1 & C1).
      assert (HA1 := grows_in _ _ _ _ _ _ G1 HA). change (size_of (CStruct meta_ty)) with 64.
      eapply good_weaken; [apply (IH h1 A (out + 64) Hl' (or_intror HA1)); [lia|lia|now apply aligned8]|]. intros h2 (b2 & G2 & C2).
      exists (b1 ++ b2). split.
      + apply (grows_trans h h1 h2); eapply grows_wider; [exact G1|lia..|exact G2|lia|lia].
      + exists b1, b2. split; [|split; [exact C2|reflexivity]]. eapply c_umeta_agree; [exact C1| |].
        * intros i Hi. apply (grows_kept _ _ _ _ _ _ i G2 HA1); lia.
        * intros i Hi. unfold covered in Hi. rewrite Exists_exists in Hi. destruct Hi as (b & Hb & Hi).
          apply (grows_kept _ _ _ _ _ _ i G2 (grows_new _ _ _ _ _ _ G1 Hb) Hi).
          pose proof (gr_apart _ _ _ _ _ G1) as L. unfold lays_apart in L. rewrite Forall_forall in L.
          specialize (L b Hb). rewrite Forall_forall in L. specialize (L A HA). unfold apart, region_of in L. cbn [fst snd] in L. lia.
  Qed.
  Lemma outputs_converted : forall l h A out, Forall (fun e => fst e < 2 ^ 64 /\ N.of_nat (snd e) < 2 ^ 64) l -> (l = [] \/ In A (hp_live h)) ->
    l_base A <= out -> out + 32 * nlen l <= l_base A + l_size A -> out mod 8 = 0 ->
    good al (convert_outputs l out h) (fun h' => grows h h' [] out (out + 32 * nlen l) /\ c_outputs (hp_get h') out l).
  Proof.
    induction l as [|(o, n) l IH]; intros h A out Hl HA H1 H2 H8.
    - apply good_ok. split; [apply grows_refl|exact I].
    - destruct HA as [HA|HA]; [discriminate|]. rewrite nlen_cons in *. inversion Hl as [|? ? (Ho & Hn) Hl']; subst. cbn [fst snd] in Ho, Hn. cbn [convert_outputs].
      change (offset_of normalized_output_ty 0) with 0. change (offset_of normalized_output_ty 1) with 8. change (offset_of normalized_output_ty 2) with 16.
      change (size_of (CStruct normalized_output_ty)) with 32. rewrite N.add_0_r.
      eapply (put_step al 8 out o h h A [] out (out + 32)); [side..|apply grows_refl|]. intros g1 N1 E1 G1. change (N.of_nat 8) with 8 in E1.
      eapply (put_step al 8 (out + 8) _ h _ A [] out (out + 32)); cbn [hp_live]; [side..|]. intros g2 N2 E2 G2. change (N.of_nat 8) with 8 in E2. cbn [hp_get hp_live] in E2, G2.
      eapply (put_step_bytes al (out + 16) (repeat 0 16) h _ A [] out (out + 32)); cbn [hp_live]; change (nlen (repeat 0 16)) with 16; [side..|]. intros g3 Hz E3 G3. cbn [hp_get hp_live] in E3, G3.
      eapply good_weaken; [apply (IH (Heap (hp_live h) g3) A (out + 32) Hl' (or_intror HA)); [lia|lia|now apply aligned8]|]. intros h4 (G4 & C4).
      assert (E4 : forall i, i < out + 32 -> hp_get h4 i = g3 i) by (intros i Hi; rewrite (gr_same _ _ _ _ _ G4); [reflexivity|intros X; inversion X|auto]).
      split.
      + change (@nil lay) with (@nil lay ++ []). apply (grows_trans h (Heap (hp_live h) g3) h4); eapply grows_wider; [exact G3|lia..|exact G4|lia|lia].
      + cbn [c_outputs].
        split; [eapply num_agree; [exact N1|]; intros i Hi; change (N.of_nat 8) with 8 in Hi; rewrite E4, E3, E2 by lia; reflexivity|].
        split; [eapply num_agree; [exact N2|]; intros i Hi; change (N.of_nat 8) with 8 in Hi; rewrite E4, E3 by lia; reflexivity|].
        split; [|exact C4]. eapply has_agree; [exact Hz|]; intros i Hi; change (nlen (repeat 0 16)) with 16 in Hi; rewrite E4 by lia; reflexivity.
  Qed.

  (** An array, for which nothing is allocated if it is empty *)
  Lemma array_alloc : forall k n h, 0 < k -> k * n <= 2 ^ 63 - 8 ->
    good al (h_alloc al (k * n) 8 h) (fun '(p, h') => p <> 0 /\ p mod 8 = 0 /\ p < 2 ^ 64 /\
      (forall lo hi, grows h h' (piece (Lay p (k * n) 8)) lo hi) /\ (n = 0 \/ In (Lay p (k * n) 8) (hp_live h'))).
  Proof.
    intros k n h Hk Hs. destruct (N.eq_dec n 0) as [->|Hn].
    - rewrite N.mul_0_r. apply good_ok. split; [discriminate|]. split; [reflexivity|]. split; [reflexivity|]. split; [|auto]. intros lo hi. apply grows_refl.
    - assert (Hpos : 0 < k * n) by nia.
      eapply good_weaken; [apply (halloc al Hal (k * n) 8 h 0 0 Hpos Hs)|]. intros (p & h') (H1 & H2 & H3 & G). split; [exact H1|]. split; [exact H2|]. split; [lia|].
      unfold piece. cbn [l_size]. destruct (N.eqb_spec (k * n) 0); [lia|]. split; [|right; eapply grows_new; [exact G|now left]].
      intros lo hi. destruct G as [L A O S]. constructor; auto. intros i Hc _. apply S; auto. lia.
  Qed.
  Lemma piece_in : forall b, l_size b <> 0 -> In b (piece b).
  Proof. intros b H. unfold piece. destruct (N.eqb_spec (l_size b) 0); [contradiction|now left]. Qed.

  Lemma output_converted : forall m o h, output_ok o ->
    good al (convert_output al m o h) (fun '(p, h') => exists bs, c_user_output (hp_get h') p o bs /\ grows h h' bs 0 0).
  Proof.
    intros m o h (Hm & Hms & Ho & Hos). unfold convert_output. change (size_of (CStruct meta_ty)) with 64. change (size_of (CStruct normalized_output_ty)) with 32.
    change (size_of (CStruct user_output_ty)) with 48.
    change (offset_of user_output_ty 0) with 0. change (offset_of user_output_ty 1) with 8. change (offset_of user_output_ty 2) with 16. change (offset_of user_output_ty 3) with 24. change (offset_of user_output_ty 4) with 32.
    set (nm := nlen (uo_meta o)) in *. set (no := nlen (uo_outputs o)) in *.
    eapply good_bind; [apply (array_alloc 64 nm h); [reflexivity|exact Hms]|]. intros (metas & h1) (M0 & M8 & Ml & MG & MI).
    set (BM := Lay metas (64 * nm) 8) in *.
    assert (MI' : uo_meta o = [] \/ In BM (hp_live h1)) by (destruct MI as [E|E]; [left; unfold nm in E; destruct (uo_meta o); [reflexivity|rewrite nlen_cons in E; lia]|auto]).
    eapply good_bind; [apply (umetas_converted m (uo_meta o) h1 BM metas Hm MI'); [cbn; lia|cbn; lia|exact M8]|]. intros h2 (bs & G2 & C2).
    fold nm in G2.
    eapply good_bind; [apply (array_alloc 32 no h2); [reflexivity|exact Hos]|]. intros (outputs & h3) (O0 & O8 & Ol & OG & OI).
    set (BO := Lay outputs (32 * no) 8) in *.
    assert (OI' : uo_outputs o = [] \/ In BO (hp_live h3)) by (destruct OI as [E|E]; [left; unfold no in E; destruct (uo_outputs o); [reflexivity|rewrite nlen_cons in E; lia]|auto]).
    eapply good_bind; [apply (outputs_converted (uo_outputs o) h3 BO outputs Ho OI'); [cbn; lia|cbn; lia|exact O8]|]. intros h4 (G4 & C4). fold no in G4.
    eapply good_bind; [apply (halloc al Hal 48 8 h4 0 0); lia|]. intros (p & h5) (P0 & P8 & Pe & G5).
    set (BP := Lay p 48 8) in *. assert (PI : In BP (hp_live h5)) by (eapply grows_new; [exact G5|now left]). rewrite N.add_0_r.
    eapply (put_step al 8 p nm h5 h5 BP [] p (p + 48)); [try (cbn; lia); side..|apply grows_refl|]. intros g1 N1 E1 W1. change (N.of_nat 8) with 8 in E1.
    eapply (put_step al 8 (p + 8) metas h5 _ BP [] p (p + 48)); cbn [hp_live]; [try (cbn; lia); side..|]. intros g2 N2 E2 W2. change (N.of_nat 8) with 8 in E2. cbn [hp_get hp_live] in E2, W2.
    eapply (put_step al 8 (p + 16) no h5 _ BP [] p (p + 48)); cbn [hp_live]; [try (cbn; lia); side..|]. intros g3 N3 E3 W3. change (N.of_nat 8) with 8 in E3. cbn [hp_get hp_live] in E3, W3.
    eapply (put_step al 8 (p + 24) outputs h5 _ BP [] p (p + 48)); cbn [hp_live]; [try (cbn; lia); side..|]. intros g4 N4 E4 W4. change (N.of_nat 8) with 8 in E4. cbn [hp_get hp_live] in E4, W4.
    eapply (put_step_bytes al (p + 32) (repeat 0 16) h5 _ BP [] p (p + 48)); cbn [hp_live]; change (nlen (repeat 0 16)) with 16; [try (cbn; lia); side..|]. intros g5 Hz E5 W5. cbn [hp_get hp_live] in E5, W5.
    apply good_ok. set (h6 := Heap (hp_live h5) g5) in *.
    (* how it grew *)
    assert (T2 : grows h h2 (piece BM ++ bs) 0 0).
    { pose proof (grows_trans _ _ _ _ _ _ _ (MG metas (metas + 64 * nm)) G2) as T. destruct T as [L A O S]. constructor; auto. intros i Hc _. 
      destruct (N.lt_ge_cases i metas); [apply S; auto|]. destruct (N.le_gt_cases (metas + 64 * nm) i); [apply S; auto|]. exfalso. apply Hc, covered_app. left.
      unfold piece. cbn [l_size BM]. destruct (N.eqb_spec (64 * nm) 0); [lia|]. constructor. cbn. lia. }
    assert (T4 : grows h2 h4 (piece BO) 0 0).
    { pose proof (grows_trans _ _ _ _ _ _ _ (OG outputs (outputs + 32 * no)) G4) as T. rewrite app_nil_r in T. destruct T as [L A O S]. constructor; auto. intros i Hc _. 
      destruct (N.lt_ge_cases i outputs); [apply S; auto|]. destruct (N.le_gt_cases (outputs + 32 * no) i); [apply S; auto|]. exfalso. apply Hc.
      unfold piece. cbn [l_size BO]. destruct (N.eqb_spec (32 * no) 0); [lia|]. constructor. cbn. lia. }
    assert (T6 : grows h4 h6 [BP] 0 0).
    { destruct G5 as [L A O S]. constructor; auto. intros i Hc _. assert (Hi : i < p \/ p + 48 <= i).
      { destruct (N.lt_ge_cases i p); [auto|]. destruct (N.le_gt_cases (p + 48) i); [auto|]. exfalso. apply Hc. constructor. cbn. lia. }
      rewrite (gr_same _ _ _ _ _ W5); [apply S; auto; lia|intros X; inversion X|exact Hi]. }
    assert (T26 := grows_trans _ _ _ _ _ _ _ T4 T6).
    assert (T := grows_trans _ _ _ _ _ _ _ T2 T26).
    assert (Pm : Permutation ((piece BM ++ bs) ++ piece BO ++ [BP]) (BP :: piece BM ++ piece BO ++ bs)).
    { rewrite app_assoc. etransitivity; [apply Permutation_app_comm|]. cbn [app]. constructor. rewrite <- app_assoc. apply Permutation_app_head, Permutation_app_comm. }
    exists (BP :: piece BM ++ piece BO ++ bs). split.
    - exists metas, outputs, bs. split; [exact P0|]. split; [exact M0|]. split; [exact O0|]. cbn [hp_get].
      split; [eapply num_agree; [exact N1|]; intros i Hi; change (N.of_nat 8) with 8 in Hi; unfold h6; cbn [hp_get]; rewrite E5, E4, E3, E2 by lia; reflexivity|].
      split; [eapply num_agree; [exact N2|]; intros i Hi; change (N.of_nat 8) with 8 in Hi; unfold h6; cbn [hp_get]; rewrite E5, E4, E3 by lia; reflexivity|].
      split; [eapply num_agree; [exact N3|]; intros i Hi; change (N.of_nat 8) with 8 in Hi; unfold h6; cbn [hp_get]; rewrite E5, E4 by lia; reflexivity|].
      split; [eapply num_agree; [exact N4|]; intros i Hi; change (N.of_nat 8) with 8 in Hi; unfold h6; cbn [hp_get]; rewrite E5 by lia; reflexivity|].
      split; [exact Hz|]. split; [|split; [|reflexivity]].
      + eapply c_umetas_agree; [exact C2| |].
        * intros i Hi. fold nm in Hi. assert (Hin : In BM (hp_live h2)) by (eapply grows_new; [exact T2|]; apply in_or_app; left; apply piece_in; cbn; lia).
          apply (grows_kept _ _ _ _ _ BM i T26 Hin); cbn; lia.
        * intros i Hi. unfold covered in Hi. rewrite Exists_exists in Hi. destruct Hi as (b & Hb & Hi).
          apply (grows_kept _ _ _ _ _ b i T26); [eapply grows_new; [exact T2|]; apply in_or_app; auto|exact Hi|lia].
      + eapply c_outputs_agree; [exact C4|]. intros i Hi. fold no in Hi. assert (Hin : In BO (hp_live h4)) by (eapply grows_new; [exact T4|]; apply piece_in; cbn; lia).
        apply (grows_kept _ _ _ _ _ BO i T6 Hin); cbn; lia.
    - destruct T as [L A O S]. constructor.
      + etransitivity; [exact L|]. now apply Permutation_app_tail.
      + apply lays_apart_sym. eapply lays_apart_perm; [exact Pm|]. now apply lays_apart_sym.
      + eapply all_apart_perm; [|exact O]. now apply Permutation_map.
      + intros i Hc Hi. apply S; auto. intros X. apply Hc. eapply covered_perm; [exact Pm|exact X].
  Qed.
End Whole.

(** ** Freeing *)
Lemma get_num_ok : forall n a h v, num (hp_get h) a n v -> get_num n a h = Ok v.
Proof.
  intros n a h v (l & Hl & _ & <- & Hh). unfold get_num. replace (read_at (hp_get h) a n) with (Ok l); [reflexivity|]. symmetry.
  revert a l Hl Hh. induction n as [|n IH]; intros a l Hl Hh; destruct l as [|x l]; cbn in Hl; try discriminate; [reflexivity|]. cbn [read_at].
  pose proof (Hh 0%nat x eq_refl) as H0. change (N.of_nat 0) with 0 in H0. rewrite N.add_0_r in H0. rewrite H0. injection Hl as Hl.
  rewrite (IH (a + 1) l Hl); [reflexivity|]. intros i y Hy. specialize (Hh (S i) y Hy). rewrite <- Hh. f_equal. lia.
Qed.
Lemma cstr_ok : forall s fuel g p, string g p s -> (length s < fuel)%nat -> read_cstr g fuel p = Ok s.
Proof.
  induction s as [|x s IH]; intros fuel g p (Hn & H) Hf; (destruct fuel as [|fuel]; [cbn in Hf; lia|]); cbn [read_cstr].
  - pose proof (H 0%nat 0 eq_refl) as H0. change (N.of_nat 0) with 0 in H0. rewrite N.add_0_r in H0. rewrite H0. reflexivity.
  - pose proof (H 0%nat x eq_refl) as H0. change (N.of_nat 0) with 0 in H0. rewrite N.add_0_r in H0. rewrite H0.
    destruct (N.eqb_spec x 0) as [->|_]; [exfalso; apply Hn; now left|]. cbn in Hf. rewrite (IH fuel g (p + 1)); [reflexivity| |lia].
    split; [intros X; apply Hn; now right|]. intros i y Hy. specialize (H (S i) y Hy). rewrite <- H. f_equal. lia.
Qed.
Lemma lay_eqb_eq : forall a b, lay_eqb a b = true <-> a = b.
Proof.
  intros [a1 a2 a3] [b1 b2 b3]. unfold lay_eqb. cbn. rewrite !Bool.andb_true_iff, !N.eqb_eq. split; [intros ((-> & ->) & ->); reflexivity|]. intros E. injection E as -> -> ->. auto.
Qed.
Lemma remove1_ok : forall b l, In b l -> exists l', remove1 b l = Some l' /\ Permutation l (b :: l').
Proof.
  intros b. induction l as [|c l IH]; intros H; [contradiction|]. cbn [remove1]. destruct (lay_eqb b c) eqn:E.
  - apply lay_eqb_eq in E. subst c. exists l. split; [reflexivity|apply Permutation_refl].
  - destruct H as [->|H]; [rewrite (proj2 (lay_eqb_eq b b) eq_refl) in E; discriminate|]. destruct (IH H) as (l' & -> & P). exists (c :: l'). split; [reflexivity|].
    etransitivity; [apply perm_skip; exact P|apply perm_swap].
Qed.
(** Freeing an allocation *)
Definition shrinks (h h' : heap) (bs : list lay) : Prop :=
  (forall rest, Permutation (hp_live h) (bs ++ rest) -> Permutation (hp_live h') rest) /\ forall i, ~ covered bs i -> hp_get h' i = hp_get h i.
Lemma shrinks_refl : forall h, shrinks h h []. Proof. intros h. split; auto. Qed.
Lemma shrinks_trans : forall h h1 h2 a b, shrinks h h1 a -> shrinks h1 h2 b -> shrinks h h2 (a ++ b).
Proof.
  intros h h1 h2 a b (P1 & E1) (P2 & E2). split.
  - intros rest H. apply P2, P1. now rewrite app_assoc.
  - intros i Hc. rewrite covered_app in Hc. rewrite E2, E1; tauto.
Qed.
Lemma hfree : forall p size align h, 0 < size -> In (Lay p size align) (hp_live h) ->
  exists h', h_free p size align h = Ok h' /\ shrinks h h' [Lay p size align].
Proof.
  intros p size align h H0 Hin. unfold h_free. destruct (N.eqb_spec size 0); [lia|]. destruct (remove1_ok _ _ Hin) as (l & -> & P). eexists. split; [reflexivity|]. split.
  - intros rest H. cbn [hp_live]. apply (Permutation_cons_inv (a := Lay p size align)). rewrite <- P. exact H.
  - intros i Hc. cbn [hp_get]. unfold in_lay. cbn [l_base l_size]. destruct (N.leb_spec p i); [|reflexivity]. destruct (N.ltb_spec i (p + size)); [|reflexivity]. exfalso. apply Hc. constructor. cbn. lia.
Qed.

Section Free.
  Context (fuel : nat).
  Definition short (u : umeta sym) : Prop :=
    match u with UApk path | UElf path _ => (length path < fuel)%nat | _ => True end.
  Lemma in_app_perm : forall (l : list lay) bs rest b, Permutation l (bs ++ rest) -> In b bs -> In b l.
  Proof. intros l bs rest b P H. eapply Permutation_in; [symmetry; exact P|]. apply in_or_app. auto. Qed.
  Lemma umeta_freed : forall m u a h bs rest, short u -> c_umeta (hp_get h) a u bs -> Permutation (hp_live h) (bs ++ rest) -> all_apart (map region_of bs) ->
    exists h', free_umeta fuel m a h = Ok h' /\ shrinks h h' bs.
  Proof.
    intros m u a h bs rest Hsh (kind & Hk & _ & Hv & _) P Ha. unfold free_umeta. change (offset_of meta_ty 0) with 0. change (offset_of meta_ty 2) with 8.
    rewrite N.add_0_r, (get_num_ok _ _ _ _ Hk). cbn [bind].
    assert (Fs : forall path p q, string (hp_get h) p path -> (length path < fuel)%nat -> bs = Lay p (nlen path + 1) 1 :: q ->
      exists h', cstring_free fuel p h = Ok h' /\ shrinks h h' [Lay p (nlen path + 1) 1]).
    { intros path p q Hs Hf Eb. unfold cstring_free. rewrite (cstr_ok _ _ _ _ Hs Hf). cbn [bind]. apply hfree; [lia|]. eapply in_app_perm; [exact P|]. rewrite Eb. now left. }
    inversion Hv as [path p H1 Hp Hs Hz|path p H1 Hp Hs H2 H3 Hz|path id p q H1 Hp Hs H2 H3 Hq Hid Hz|s p size parts H1 Hp H2 Hsz Hz Hc Hap Hi|r H1 Hz]; subst u kind bs; cbn [short] in Hsh.
    - cbn [N.eqb]. change (offset_of meta_apk_ty 0) with 0. change (1 =? KIND_APK) with true. cbn match. rewrite N.add_0_r, (get_num_ok _ _ _ _ H1). cbn [bind]. eapply Fs; eauto.
    - change (2 =? KIND_APK) with false. change (2 =? KIND_ELF) with true. cbn match. change (offset_of meta_elf_ty 0) with 0. change (offset_of meta_elf_ty 1) with 8. change (offset_of meta_elf_ty 2) with 16.
      rewrite N.add_0_r, (get_num_ok _ _ _ _ H1). cbn [bind]. rewrite (get_num_ok _ _ _ _ H2). cbn [bind]. rewrite (get_num_ok _ _ _ _ H3). cbn [bind].
      destruct (Fs path p [] Hs Hsh eq_refl) as (h' & -> & S). exists h'. split; [reflexivity|exact S].
    - change (2 =? KIND_APK) with false. change (2 =? KIND_ELF) with true. cbn match. change (offset_of meta_elf_ty 0) with 0. change (offset_of meta_elf_ty 1) with 8. change (offset_of meta_elf_ty 2) with 16.
      rewrite N.add_0_r, (get_num_ok _ _ _ _ H1). cbn [bind]. rewrite (get_num_ok _ _ _ _ H2). cbn [bind]. rewrite (get_num_ok _ _ _ _ H3). cbn [bind].
      destruct (Fs path p _ Hs Hsh eq_refl) as (h' & -> & S). cbn [bind]. destruct (N.eqb_spec q 0); [contradiction|].
      unfold piece in *. cbn [l_size] in *. destruct (N.eqb_spec (nlen id) 0) as [E0|E0].
      + exists h'. split; [unfold h_free; rewrite E0; reflexivity|exact S].
      + destruct (hfree q (nlen id) 1 h') as (h2 & E2 & S2); [lia| |].
        { eapply Permutation_in; [symmetry; apply (proj1 S (Lay q (nlen id) 1 :: rest)); exact P|now left]. }
        exists h2. split; [exact E2|]. exact (shrinks_trans _ _ _ _ _ S S2).
    - change (3 =? KIND_APK) with false. change (3 =? KIND_ELF) with false. change (3 =? KIND_SYM) with true. cbn match. change (offset_of meta_sym_ty 0) with 0.
      rewrite N.add_0_r, (get_num_ok _ _ _ _ H1). cbn [bind]. rewrite (get_num_ok _ _ _ _ H2). cbn [bind]. unfold layout8. destruct (N.leb_spec size (2 ^ 63 - 8)); [|lia]. cbn [bind].
      apply hfree; [lia|]. eapply in_app_perm; [exact P|now left].
    - change (0 =? KIND_APK) with false. change (0 =? KIND_ELF) with false. change (0 =? KIND_SYM) with false. change (0 =? KIND_UNKNOWN) with true. cbn match.
      exists h. split; [reflexivity|apply shrinks_refl].
  Qed.
  Lemma umetas_freed : forall m l a h bs rest, Forall short l -> c_umetas (hp_get h) a l bs -> Permutation (hp_live h) (bs ++ rest) -> all_apart (map region_of bs) ->
    (forall i, a <= i < a + 64 * nlen l -> ~ covered bs i) ->
    exists h', free_umetas fuel m (length l) a h = Ok h' /\ shrinks h h' bs.
  Proof.
    intros m. induction l as [|u l IH]; intros a h bs rest Hsh Hc P Ha Hn.
    - cbn in Hc. subst bs. exists h. split; [reflexivity|apply shrinks_refl].
    - destruct Hc as (b1 & b2 & H1 & H2 & ->). inversion Hsh as [|? ? Hu Hl]; subst. rewrite nlen_cons in Hn. apply lays_all in Ha. destruct Ha as (A1 & A2 & A12).
      cbn [length free_umetas]. destruct (umeta_freed m u a h b1 (b2 ++ rest) Hu H1) as (h1 & -> & S1); [now rewrite app_assoc|exact A1|]. cbn [bind].
      change (size_of (CStruct meta_ty)) with 64.
      destruct (IH (a + 64) h1 b2 rest Hl) as (h2 & E2 & S2).
      + eapply c_umetas_agree; [exact H2| |].
        * intros i Hi. apply (proj2 S1). intros X. apply (Hn i); [lia|]. apply covered_app. auto.
        * intros i Hi. apply (proj2 S1). unfold covered in Hi. rewrite Exists_exists in Hi. destruct Hi as (b & Hb & Hi). apply (not_covered b); auto.
          apply lays_apart_sym in A12. unfold lays_apart in A12. rewrite Forall_forall in A12. auto.
      + apply (proj1 S1). now rewrite <- app_assoc in P.
      + exact A2.
      + intros i Hi X. apply (Hn i); [lia|]. apply covered_app. auto.
      + exists h2. split; [exact E2|]. exact (shrinks_trans _ _ _ _ _ S1 S2).
  Qed.
  Lemma piece_freed : forall b h rest, Permutation (hp_live h) (piece b ++ rest) -> exists h', h_free (l_base b) (l_size b) (l_align b) h = Ok h' /\ shrinks h h' (piece b).
  Proof.
    intros [p s al] h rest P. unfold piece in *. cbn [l_base l_size l_align] in *. destruct (N.eqb_spec s 0) as [->|E]; [exists h; split; [reflexivity|apply shrinks_refl]|].
    apply hfree; [lia|]. eapply in_app_perm; [exact P|now left].
  Qed.
  Lemma output_freed : forall m o p h bs rest, Forall short (uo_meta o) -> holds h p o bs rest ->
    exists h', blaze_user_output_free fuel m p h = Ok h' /\ Permutation (hp_live h') rest /\ forall i, ~ covered bs i -> hp_get h' i = hp_get h i.
  Proof.
    intros m o p h bs rest Hsh ((metas & outputs & bs' & P0 & M0 & O0 & N1 & N2 & N3 & N4 & _ & Cm & Co & ->) & P & Ha).
    unfold blaze_user_output_free. destruct (N.eqb_spec p 0); [contradiction|].
    change (offset_of user_output_ty 0) with 0. change (offset_of user_output_ty 1) with 8. change (offset_of user_output_ty 2) with 16. change (offset_of user_output_ty 3) with 24.
    change (size_of (CStruct meta_ty)) with 64. change (size_of (CStruct normalized_output_ty)) with 32. change (size_of (CStruct user_output_ty)) with 48.
    rewrite N.add_0_r, (get_num_ok _ _ _ _ N1). cbn [bind]. rewrite (get_num_ok _ _ _ _ N2). cbn [bind]. rewrite (get_num_ok _ _ _ _ N3). cbn [bind]. rewrite (get_num_ok _ _ _ _ N4). cbn [bind].
    set (BP := Lay p 48 8) in *. set (BM := Lay metas (64 * nlen (uo_meta o)) 8) in *. set (BO := Lay outputs (32 * nlen (uo_outputs o)) 8) in *.
    assert (Pm : Permutation (BP :: piece BM ++ piece BO ++ bs') (bs' ++ piece BM ++ piece BO ++ [BP])).
    { etransitivity; [apply Permutation_cons_append|]. rewrite !app_assoc. apply Permutation_app_tail. rewrite <- (app_assoc bs'). apply Permutation_app_comm. }
    assert (P1 : Permutation (hp_live h) (bs' ++ piece BM ++ piece BO ++ [BP] ++ rest)).
    { rewrite P. rewrite (Permutation_app_tail rest Pm). rewrite <- !app_assoc. apply Permutation_refl. }
    assert (Ha' := all_apart_perm _ _ (Permutation_map region_of Pm) Ha). apply lays_all in Ha'. destruct Ha' as (A1 & _ & A12).
    replace (N.to_nat (nlen (uo_meta o))) with (length (uo_meta o)) by (unfold nlen; lia).
    destruct (umetas_freed m (uo_meta o) metas h bs' _ Hsh Cm P1 A1) as (h1 & -> & S1).
    { intros i Hi. apply (not_covered BM); [|exact Hi]. apply lays_apart_sym in A12. unfold lays_apart in A12. rewrite Forall_forall in A12. apply A12. apply in_or_app. left.
      unfold piece. cbn [l_size BM]. destruct (N.eqb_spec (64 * nlen (uo_meta o)) 0); [lia|now left]. }
    cbn [bind]. assert (Q1 := proj1 S1 _ P1).
    destruct (piece_freed BM h1 _ Q1) as (h2 & E2 & S2). cbn [l_base l_size l_align BM] in E2. rewrite E2. cbn [bind]. assert (Q2 := proj1 S2 _ Q1).
    destruct (piece_freed BO h2 _ Q2) as (h3 & E3 & S3). cbn [l_base l_size l_align BO] in E3. rewrite E3. cbn [bind]. assert (Q3 := proj1 S3 _ Q2).
    destruct (piece_freed BP h3 rest Q3) as (h4 & E4 & S4). cbn [l_base l_size l_align BP] in E4. rewrite E4. exists h4. split; [reflexivity|].
    split; [exact (proj1 S4 _ Q3)|]. intros i Hc.
    assert (S := shrinks_trans _ _ _ _ _ S1 (shrinks_trans _ _ _ _ _ S2 (shrinks_trans _ _ _ _ _ S3 S4))).
    apply (proj2 S). intros X. apply Hc. eapply covered_perm; [symmetry; exact Pm|exact X].
  Qed.
End Free.
