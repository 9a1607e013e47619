(** * C67: what normalizing addresses hands to C programs can be given back *)

From Verif Require Import Base Util UtilProofs Bytes Inspect Sym Symbolizer Normalize CapiIn CapiOut CapiSpec CapiProofs CapiWrite PropCapiOut CapiHeap CapiHeapSpec.
Local Open Scope N_scope.

(** ** Taking and giving back addresses *)
Definition takes (h h' : heap) (F : list N) : Prop :=
  NoDup F /\ (forall a, In a F -> h a = None /\ h' a <> None) /\ (forall a, ~ In a F -> h' a = h a).
Definition drops (h h' : heap) (F : list N) : Prop :=
  (forall a, In a F -> h' a = None) /\ (forall a, ~ In a F -> h' a = h a).
Lemma takes_nil : forall h, takes h h [].
Proof. intros h. split; [constructor|]. split; [intros a []|auto]. Qed.
Lemma drops_nil : forall h, drops h h [].
Proof. intros h. split; [intros a []|auto]. Qed.
Lemma nodup_join : forall A (l1 l2 : list A), NoDup l1 -> NoDup l2 -> (forall a, In a l1 -> ~ In a l2) -> NoDup (l1 ++ l2).
Proof.
  intros A l1 l2 H1 H2 H. induction H1 as [|x l1 Hx H1 IH]; [exact H2|]. cbn [app]. constructor.
  - rewrite in_app_iff. intros [K|K]; [contradiction|]. apply (H x); [now left|exact K].
  - apply IH. intros a Ha. apply H. now right.
Qed.
Lemma nodup_parts : forall A (l1 l2 : list A), NoDup (l1 ++ l2) -> NoDup l1 /\ NoDup l2 /\ (forall a, In a l1 -> ~ In a l2).
Proof.
  induction l1 as [|x l1 IH]; intros l2 H; [split; [constructor|]; split; auto|]. cbn [app] in H. inversion H as [|x' l' Hx H']; subst.
  destruct (IH l2 H') as (I1 & I2 & I3). rewrite in_app_iff in Hx. split; [constructor; auto|]. split; auto.
  intros a [<-|Ha]; auto.
Qed.
Lemma takes_app : forall h h1 h2 F1 F2, takes h h1 F1 -> takes h1 h2 F2 -> takes h h2 (F1 ++ F2).
Proof.
  intros h h1 h2 F1 F2 (N1 & I1 & O1) (N2 & I2 & O2).
  assert (D : forall a, In a F1 -> ~ In a F2). { intros a Ha Hb. now apply (proj2 (I1 a Ha)), (proj1 (I2 a Hb)). }
  split; [now apply nodup_join|]. split.
  - intros a Ha. apply in_app_iff in Ha. destruct Ha as [Ha|Ha].
    + split; [apply (I1 a Ha)|]. rewrite O2 by auto. apply (I1 a Ha).
    + split; [|apply (I2 a Ha)]. rewrite <- O1; [apply (I2 a Ha)|]. intros Hb. now apply (D a).
  - intros a Ha. rewrite in_app_iff in Ha. rewrite O2, O1; tauto.
Qed.
Lemma drops_app : forall h h1 h2 F1 F2, drops h h1 F1 -> drops h1 h2 F2 -> drops h h2 (F1 ++ F2).
Proof.
  intros h h1 h2 F1 F2 (I1 & O1) (I2 & O2). split.
  - intros a Ha. destruct (in_dec N.eq_dec a F2) as [H2|H2]; auto. rewrite O2 by auto. apply in_app_iff in Ha. apply I1. tauto.
  - intros a Ha. rewrite in_app_iff in Ha. rewrite O2, O1; tauto.
Qed.
Lemma hset_same : forall h p c, hset h p c p = c.
Proof. intros. unfold hset. now rewrite N.eqb_refl. Qed.
Lemma hset_other : forall h p c a, a <> p -> hset h p c a = h a.
Proof. intros h p c a H. unfold hset. now rewrite (proj2 (N.eqb_neq a p)). Qed.
Lemma takes_one : forall h p c, h p = None -> takes h (hset h p (Some c)) [p].
Proof.
  intros h p c H. split; [repeat constructor; auto|]. split.
  - intros a [<-|[]]. rewrite hset_same. split; [auto|discriminate].
  - intros a Ha. apply hset_other. intros ->. apply Ha. now left.
Qed.
Lemma drops_one : forall h p, drops h (hset h p None) [p].
Proof.
  intros h p. split.
  - intros a [<-|[]]. apply hset_same.
  - intros a Ha. apply hset_other. intros ->. apply Ha. now left.
Qed.

(** The allocator refuses a request although it has served no more than so many
    since, and is asked for no more than so much. *)
Definition short (pick : allocator) (h : heap) (n : nat) (big : N) : Prop :=
  exists h1 F size align, takes h h1 F /\ (length F < n)%nat /\ 0 < size <= big /\ (align = 1 \/ align = 8) /\ pick h1 size align = 0.
Lemma short_more : forall pick h n n' big big', short pick h n big -> (n <= n')%nat -> big <= big' -> short pick h n' big'.
Proof. intros pick h n n' big big' (h1 & F & size & align & H1 & H2 & H3 & H4 & H5) Hn Hb. exists h1, F, size, align. split; auto. split; [lia|]. split; [lia|auto]. Qed.
Lemma short_after : forall pick h h1 F k n big, takes h h1 F -> (length F <= k)%nat -> short pick h1 n big -> short pick h (k + n) big.
Proof.
  intros pick h h1 F k n big T L (h2 & F2 & size & align & T2 & L2 & H3 & H4 & H5). exists h2, (F ++ F2), size, align.
  split; [eapply takes_app; eauto|]. rewrite app_length. split; [lia|]. auto.
Qed.
Lemma short_now : forall pick h size align, 0 < size -> align = 1 \/ align = 8 -> pick h size align = 0 -> short pick h 1 size.
Proof. intros pick h size align H1 H2 H3. exists h, [], size, align. split; [apply takes_nil|]. split; [cbn; lia|]. split; [lia|auto]. Qed.

(** ** Allocations *)
Definition one (size p : N) : list N := if size =? 0 then [] else [p].
Lemma halloc_ok : forall pick h size align d, honest pick -> align = 1 \/ align = 8 ->
  (halloc pick h size align d = Err EOutOfMemory /\ short pick h 1 size) \/
  exists h' p, halloc pick h size align d = Ok (h', p) /\ p <> 0 /\ takes h h' (one size p) /\
    (size <> 0 -> h' p = Some (Cell size align d)).
Proof.
  intros pick h size align d Hp Ha. unfold halloc, one. destruct (N.eqb_spec size 0) as [E|E].
  - right. exists h, align. split; auto. split; [lia|]. split; [apply takes_nil|]. congruence.
  - destruct (Hp h size align) as [Z|(Z1 & Z2 & Z3)].
    + rewrite Z. left. split; auto. apply short_now with (align := align); auto. lia.
    + destruct (N.eqb_spec (pick h size align) 0) as [E0|E0]; [left; split; auto; apply short_now with (align := align); auto; lia|]. right. eexists. eexists. split; [reflexivity|].
      split; auto. split; [now apply takes_one|]. intros _. apply hset_same.
Qed.
Lemma hfree_ok : forall h p size align d, (size <> 0 -> h p = Some (Cell size align d)) ->
  exists h', hfree h p size align = Ok h' /\ drops h h' (one size p).
Proof.
  intros h p size align d H. unfold hfree, one. destruct (N.eqb_spec size 0) as [E|E].
  - exists h. split; auto. apply drops_nil.
  - rewrite (H E). cbn [c_size c_align]. rewrite !N.eqb_refl. cbn [andb]. eexists. split; [reflexivity|]. apply drops_one.
Qed.
Lemma no_zero : forall s, path_ok s -> existsb (N.eqb 0) s = false.
Proof.
  intros s H. destruct (existsb (N.eqb 0) s) eqn:E; auto. apply existsb_exists in E. destruct E as (x & Hx & Ex).
  apply N.eqb_eq in Ex. subst x. contradiction.
Qed.
Lemma c_string_ok : forall s, path_ok s -> c_string s = s.
Proof.
  induction s as [|b s IH]; intros H; [reflexivity|]. cbn [c_string]. destruct (N.eqb_spec b 0) as [->|Hb]; [exfalso; apply H; now left|].
  f_equal. apply IH. intros K. apply H. now right.
Qed.
Lemma strlen_ok : forall s, c_string s = s -> strlen (s ++ [0]) = Ok (nlen s).
Proof.
  induction s as [|b s IH]; intros H; [reflexivity|]. cbn [c_string] in H. cbn [app strlen]. destruct (b =? 0); [discriminate|].
  injection H as H. rewrite (IH H). cbn [bind]. f_equal. rewrite nlen_cons. lia.
Qed.
Lemma cstring_new_ok : forall pick h s, honest pick -> path_ok s ->
  (cstring_new pick h s = Err EOutOfMemory /\ short pick h 1 (nlen s + 1)) \/
  exists h' p, cstring_new pick h s = Ok (h', p) /\ takes h h' [p] /\ string_at h' p s.
Proof.
  intros pick h s Hp Hs. unfold cstring_new. rewrite (no_zero s Hs).
  destruct (halloc_ok pick h (nlen s + 1) 1 (DBytes (s ++ [0])) Hp) as [E|(h' & p & E & _ & T & C)]; [auto|now left|right].
  exists h', p. split; auto. unfold one in T. rewrite (proj2 (N.eqb_neq (nlen s + 1) 0)) in T by lia. split; auto.
  exists (s ++ [0]). split; [apply C; lia|]. split; auto. now apply c_string_ok.
Qed.
Lemma cstring_free_ok : forall h p s, string_at h p s -> exists h', cstring_free h p = Ok h' /\ drops h h' [p].
Proof.
  intros h p s (l & E & -> & C). unfold cstring_free, read_bytes. rewrite E. cbn [bind]. rewrite (strlen_ok s C). cbn [bind].
  destruct (hfree_ok h p (nlen s + 1) 1 (DBytes (s ++ [0]))) as (h' & F & D); auto.
  unfold one in D. rewrite (proj2 (N.eqb_neq (nlen s + 1) 0)) in D by lia. eauto.
Qed.
Lemma string_frame : forall h h' p s, string_at h p s -> h' p = h p -> string_at h' p s.
Proof. intros h h' p s (l & E & R) H. exists l. rewrite H. auto. Qed.

(** ** Meta data *)
Definition meta_owns (h : heap) (c : cmeta) (x : umeta sym) (F : list N) : Prop :=
  match c, x with
  | CmApk p, UApk s => string_at h p s /\ F = [p]
  | CmElf p n q, UElf s None => string_at h p s /\ n = 0 /\ q = 0 /\ F = [p]
  | CmElf p n q, UElf s (Some id) =>
      string_at h p s /\ n = nlen id /\ q <> 0 /\ F = p :: one (nlen id) q /\ NoDup F /\
      (nlen id <> 0 -> h q = Some (Cell (nlen id) 1 (DBytes id)))
  | CmSym p, USym s =>
      exists base size g rs, p = base + 8 /\ F = [base] /\ h base = Some (Cell size 8 (DSym (Block base size g))) /\ size <> 0 /\
        c_sym g p (Known s) rs /\ Forall (inside base (base + size)) rs /\ free_syms (Block base size g) p = Ok (base, size)
  | CmUnknown n, UUnknown r => n = shown_normalize_reason r /\ F = []
  | _, _ => False
  end.
Lemma meta_shows : forall h c x F, meta_owns h c x F -> shows_meta h c x.
Proof.
  intros h [n|p|p n q|p] [s|s [id|]|s|r] F H; cbn [meta_owns shows_meta] in *; try contradiction; try tauto.
  - destruct H as (H1 & H2 & H3 & _ & _ & H4). split; auto. split; auto. split; auto. intros Hn. apply H4. destruct id; [congruence|].
    rewrite nlen_cons. lia.
  - destruct H as (base & size & g & rs & -> & _ & H1 & _ & H2 & H3 & _). exists base, size, g, rs. repeat split; auto. lia.
Qed.
Lemma meta_frame : forall h h' c x F, meta_owns h c x F -> (forall a, In a F -> h' a = h a) -> meta_owns h' c x F.
Proof.
  intros h h' [n|p|p n q|p] [s|s [id|]|s|r] F H Hf; cbn [meta_owns] in *; try contradiction; try tauto.
  - destruct H as (H & ->). split; auto. eapply string_frame; eauto. apply Hf. now left.
  - destruct H as (H1 & H2 & H3 & -> & H5 & H6). split; [eapply string_frame; eauto; apply Hf; now left|]. repeat split; auto.
    intros Hn. rewrite Hf; auto. right. unfold one. rewrite (proj2 (N.eqb_neq _ _) Hn). now left.
  - destruct H as (H1 & H2 & H3 & ->). split; [eapply string_frame; eauto; apply Hf; now left|]. auto.
  - destruct H as (base & size & g & rs & -> & -> & H1 & H2). exists base, size, g, rs. split; auto. split; auto. split; auto.
    rewrite Hf; auto. now left.
Qed.
Lemma meta_free_ok : forall h c x F, meta_owns h c x F -> exists h', meta_free h c = Ok h' /\ drops h h' F.
Proof.
  intros h [n|p|p n q|p] [s|s [id|]|s|r] F H; cbn [meta_owns meta_free] in *; try contradiction.
  - destruct H as (_ & ->). exists h. split; auto. apply drops_nil.
  - destruct H as (H & ->). eapply cstring_free_ok; eauto.
  - destruct H as (H1 & -> & H3 & -> & H5 & H6). destruct (cstring_free_ok h p s H1) as (h1 & E1 & D1). rewrite E1. cbn [bind].
    rewrite (proj2 (N.eqb_neq q 0) H3). destruct (hfree_ok h1 q (nlen id) 1 (DBytes id)) as (h2 & E2 & D2).
    + intros Hn. destruct D1 as [_ D1]. rewrite D1; auto. intros [->|[]]. inversion H5 as [|x l Hx _]; subst. apply Hx.
      unfold one. rewrite (proj2 (N.eqb_neq _ _) Hn). now left.
    + rewrite E2. exists h2. split; auto. exact (drops_app _ _ _ [p] _ D1 D2).
  - destruct H as (H1 & _ & -> & ->). destruct (cstring_free_ok h p s H1) as (h1 & E1 & D1). rewrite E1. cbn [bind]. exists h1. auto.
  - destruct H as (base & size & g & rs & -> & -> & H1 & H2 & _ & _ & H3). replace (base + 8 - 8) with base by lia. rewrite H1, H3. cbn [bind].
    destruct (hfree_ok h base size 8 (DSym (Block base size g))) as (h' & E & D); auto. unfold one in D.
    rewrite (proj2 (N.eqb_neq _ _) H2) in D. eauto.
Qed.
Lemma meta_from_ok : forall m pick h x, honest pick -> meta_ok x ->
  (meta_from m pick h x = Err EOutOfMemory /\ short pick h 2 (meta_bytes x)) \/
  exists h' c F, meta_from m pick h x = Ok (h', c) /\ takes h h' F /\ (length F <= 2)%nat /\ meta_owns h' c x F.
Proof.
  intros m pick h [s|s id|s|r] Hp Hx; cbn [meta_ok meta_from] in *.
  - destruct (cstring_new_ok pick h s Hp Hx) as [[E Hs]|(h' & p & E & T & S)]; rewrite E; cbn [bind]; [left; split; auto; eapply short_more; [exact Hs|lia|cbn [meta_bytes]; lia]|right].
    exists h', (CmApk p), [p]. cbn. auto 10.
  - destruct (cstring_new_ok pick h s Hp Hx) as [[E Hs]|(h' & p & E & T & S)]; rewrite E; cbn [bind]; [left; split; auto; eapply short_more; [exact Hs|lia|cbn [meta_bytes]; lia]|].
    destruct id as [id|].
    + destruct (halloc_ok pick h' (nlen id) 1 (DBytes id) Hp) as [[E2 Hs]|(h2 & q & E2 & Q & T2 & C2)]; [auto|rewrite E2; left; split; auto|rewrite E2].
      { eapply short_more; [exact (short_after _ _ _ [p] 1 1 _ T (le_n _) Hs)|lia|cbn [meta_bytes]; lia]. }
      right. cbn [bind]. exists h2, (CmElf p (nlen id) q), (p :: one (nlen id) q). split; auto.
      assert (T3 : takes h h2 (p :: one (nlen id) q)) by exact (takes_app _ _ _ [p] _ T T2). split; auto.
      split. { unfold one. destruct (nlen id =? 0); cbn; lia. }
      cbn [meta_owns].
      split. { eapply string_frame; eauto. destruct T2 as (_ & _ & O2). apply O2. destruct T3 as (N3 & _). inversion N3; auto. }
      repeat split; auto. apply T3.
    + right. exists h', (CmElf p 0 0), [p]. cbn. auto 10.
  - destruct Hx as [Hok Hsize]. rewrite meta_size_ok by exact Hsize. cbn [bind].
    set (size := 8 + 104 + 48 * nlen (sy_inlined s) + sym_room s) in *.
    destruct (N.eqb_spec (pick h size 8) 0) as [E|E]; [left; split; auto; eapply short_more; [apply short_now with (3 := E); [unfold size; lia|now right]|lia|cbn [meta_bytes]; unfold size; lia]|]. destruct (Hp h size 8) as [Z|(Z1 & Z2 & Z3)]; [contradiction|].
    destruct (C48_meta_sym m (pick h size 8) s) as (g & rs & E1 & E2 & E3 & E4 & E5); fold size; [split; [lia|auto]|exact Hsize|exact Hok|].
    fold size in E1, E4, E5. rewrite E1. cbn [bind]. right. eexists. eexists. exists [pick h size 8]. split; [reflexivity|].
    split; [now apply takes_one|]. split; [cbn; lia|]. cbn [meta_owns]. exists (pick h size 8), size, g, rs. split; auto. split; auto. split; [apply hset_same|].
    split; [unfold size; lia|]. split; auto. split; auto. eapply Forall_impl; [|exact E4]. intros r (R1 & R2). split; lia.
  - right. exists h, (CmUnknown (normalize_reason r)), []. split; auto. split; [apply takes_nil|]. split; [cbn; lia|]. split; auto.

Qed.

Fixpoint metas_own (h : heap) (cs : list cmeta) (xs : list (umeta sym)) (F : list N) : Prop :=
  match cs, xs with
  | [], [] => F = []
  | c :: cs, x :: xs => exists F1 F2, F = F1 ++ F2 /\ meta_owns h c x F1 /\ metas_own h cs xs F2
  | _, _ => False
  end.
Lemma metas_frame : forall cs xs h h' F, metas_own h cs xs F -> (forall a, In a F -> h' a = h a) -> metas_own h' cs xs F.
Proof.
  induction cs as [|c cs IH]; intros [|x xs] h h' F H Hf; cbn [metas_own] in *; try contradiction; auto.
  destruct H as (F1 & F2 & -> & H1 & H2). exists F1, F2. split; auto. split.
  - eapply meta_frame; eauto. intros a Ha. apply Hf. apply in_app_iff. now left.
  - eapply IH; eauto. intros a Ha. apply Hf. apply in_app_iff. now right.
Qed.
Lemma metas_shows : forall cs xs h F, metas_own h cs xs F -> Forall2 (shows_meta h) cs xs.
Proof.
  induction cs as [|c cs IH]; intros [|x xs] h F H; cbn [metas_own] in *; try contradiction; constructor.
  - destruct H as (F1 & F2 & _ & H & _). eapply meta_shows; eauto.
  - destruct H as (F1 & F2 & _ & _ & H). eauto.
Qed.
Lemma metas_len : forall cs xs h F, metas_own h cs xs F -> nlen cs = nlen xs.
Proof. intros cs xs h F H. apply metas_shows in H. unfold nlen. f_equal. induction H; cbn; congruence. Qed.
Lemma metas_free_ok : forall cs xs h F, metas_own h cs xs F -> NoDup F -> exists h', metas_free h cs = Ok h' /\ drops h h' F.
Proof.
  induction cs as [|c cs IH]; intros [|x xs] h F H Hn; cbn [metas_own metas_free] in *; try contradiction.
  - subst F. exists h. split; auto. apply drops_nil.
  - destruct H as (F1 & F2 & -> & H1 & H2). apply nodup_parts in Hn. destruct Hn as (N1 & N2 & N3).
    destruct (meta_free_ok h c x F1 H1) as (h1 & E1 & D1). rewrite E1. cbn [bind].
    destruct (IH xs h1 F2) as (h2 & E2 & D2); auto.
    + eapply metas_frame; eauto. intros a Ha. apply D1. intros Hb. now apply (N3 a).
    + exists h2. split; auto. eapply drops_app; eauto.
Qed.
Lemma metas_from_ok : forall m pick xs h, honest pick -> Forall meta_ok xs ->
  (metas_from m pick h xs = Err EOutOfMemory /\ short pick h (2 * length xs) (metas_bytes xs)) \/
  exists h' cs F, metas_from m pick h xs = Ok (h', cs) /\ takes h h' F /\ (length F <= 2 * length xs)%nat /\ metas_own h' cs xs F.
Proof.
  intros m pick. induction xs as [|x xs IH]; intros h Hp Hx; cbn [metas_from].
  - right. exists h, [], []. split; auto. split; [apply takes_nil|]. split; [cbn; lia|reflexivity].
  - inversion Hx as [|x' xs' Hx1 Hx2]; subst.
    destruct (meta_from_ok m pick h x Hp Hx1) as [[E Hs]|(h1 & c & F1 & E & T1 & L1 & O1)]; rewrite E; cbn [bind].
    { left. split; auto. eapply short_more; [exact Hs|cbn; lia|cbn [metas_bytes]; lia]. }
    destruct (IH h1 Hp Hx2) as [[E2 Hs]|(h2 & cs & F2 & E2 & T2 & L2 & O2)]; rewrite E2; cbn [bind].
    { left. split; auto. eapply short_more; [exact (short_after _ _ _ _ _ _ _ T1 L1 Hs)|cbn [length]; lia|cbn [metas_bytes]; lia]. }
    right.
    exists h2, (c :: cs), (F1 ++ F2). split; auto. assert (T := takes_app _ _ _ _ _ T1 T2). split; auto.
    split; [rewrite app_length; cbn [length]; lia|].
    cbn [metas_own]. exists F1, F2. split; auto. split; auto. eapply meta_frame; eauto. intros a Ha.
    destruct T as (N & _). apply nodup_parts in N. destruct T2 as (_ & _ & O). apply O. now apply N.
Qed.

(** ** Outputs *)
Definition out_pairs (o : uoutput sym) : list (N * N) := map (fun x => (fst x, N.of_nat (snd x))) (uo_outputs o).
Definition output_owns (h : heap) (p : N) (o : uoutput sym) (F : list N) : Prop :=
  p <> 0 /\ exists c cs F1,
    h p = Some (Cell 48 8 (DOutput c)) /\
    co_meta_cnt c = nlen cs /\ co_output_cnt c = nlen (out_pairs o) /\
    F = F1 ++ one (64 * nlen cs) (co_metas c) ++ one (32 * nlen (out_pairs o)) (co_outputs c) ++ [p] /\ NoDup F /\
    (64 * nlen cs <> 0 -> h (co_metas c) = Some (Cell (64 * nlen cs) 8 (DMetas cs))) /\
    (32 * nlen (out_pairs o) <> 0 -> h (co_outputs c) = Some (Cell (32 * nlen (out_pairs o)) 8 (DOutputs (out_pairs o)))) /\
    metas_own h cs (uo_meta o) F1.
Lemma pairs_len : forall o, nlen (out_pairs o) = nlen (uo_outputs o).
Proof. intros o. unfold nlen, out_pairs. now rewrite map_length. Qed.
Lemma nlen_nil : forall A (l : list A), nlen l = 0 -> l = [].
Proof. intros A [|x l] H; auto. rewrite nlen_cons in H. lia. Qed.
Lemma output_shows : forall h p o F, output_owns h p o F -> shows_output h p o.
Proof.
  intros h p o F (Hp & c & cs & F1 & H1 & H2 & H3 & _ & _ & H4 & H5 & H6). split; auto.
  assert (L := metas_len _ _ _ _ H6). exists c, cs, (out_pairs o). split; auto. split; [congruence|]. split; [now rewrite <- pairs_len|].
  split. { intros Hn. apply H4. intros Z. apply Hn. apply nlen_nil. lia. }
  split. { intros Hn. apply H5. rewrite pairs_len. intros Z. apply Hn. apply nlen_nil. lia. }
  split; [eapply metas_shows; eauto|]. unfold out_pairs. induction (uo_outputs o); constructor; auto.
Qed.
Lemma in_one : forall size p a, In a (one size p) -> size <> 0 /\ a = p.
Proof. intros size p a H. unfold one in H. destruct (N.eqb_spec size 0); [destruct H|]. destruct H as [<-|[]]. auto. Qed.
Lemma one_in : forall size p, size <> 0 -> In p (one size p).
Proof. intros size p H. unfold one. rewrite (proj2 (N.eqb_neq _ _) H). now left. Qed.
Lemma output_frame : forall h h' p o F, output_owns h p o F -> (forall a, In a F -> h' a = h a) -> output_owns h' p o F.
Proof.
  intros h h' p o F (Hp & c & cs & F1 & H1 & H2 & H3 & -> & H4 & H5 & H6 & H7) Hf. split; auto.
  assert (G : forall a, In a F1 \/ In a (one (64 * nlen cs) (co_metas c)) \/ In a (one (32 * nlen (out_pairs o)) (co_outputs c)) \/ a = p -> h' a = h a).
  { intros a Ha. apply Hf. rewrite !in_app_iff. cbn [In]. intuition. }
  exists c, cs, F1. rewrite (G p) by auto. split; auto. split; auto. split; auto. split; auto. split; auto.
  split. { intros Hn. rewrite G; auto. right. left. now apply one_in. }
  split. { intros Hn. rewrite G; auto. right. right. left. now apply one_in. }
  eapply metas_frame; eauto.
Qed.
Lemma size_output : size_of (CStruct user_output_ty) = 48 /\ align_of (CStruct user_output_ty) = 8.
Proof. split; reflexivity. Qed.
Lemma size_metas : size_of (CStruct user_meta_ty) = 64 /\ align_of (CStruct user_meta_ty) = 8.
Proof. split; reflexivity. Qed.
Lemma size_outs : size_of (CStruct output_ty) = 32 /\ align_of (CStruct output_ty) = 8.
Proof. split; reflexivity. Qed.
Lemma output_free_ok : forall h p o F, output_owns h p o F -> exists h', output_free h p = Ok h' /\ drops h h' F.
Proof.
  intros h p o F (Hp & c & cs & F1 & H1 & H2 & H3 & -> & H4 & H5 & H6 & H7). unfold output_free.
  rewrite (proj2 (N.eqb_neq p 0) Hp), H1. rewrite (proj1 size_output), (proj2 size_output), (proj1 size_metas), (proj2 size_metas), (proj1 size_outs), (proj2 size_outs).
  rewrite H2, H3.
  assert (Es : slice_of metas_of h (co_metas c) (nlen cs) = Ok cs).
  { unfold slice_of. destruct (N.eqb_spec (nlen cs) 0) as [Z|Z]; [now rewrite (nlen_nil _ _ Z)|]. rewrite H5 by lia. cbn [c_data metas_of].
    now rewrite N.eqb_refl. }
  rewrite Es. cbn [bind]. apply nodup_parts in H4. destruct H4 as (N1 & N2 & N3). apply nodup_parts in N2. destruct N2 as (N4 & N5 & N6).
  apply nodup_parts in N5. destruct N5 as (N7 & _ & N8).
  destruct (metas_free_ok cs _ h F1 H7 N1) as (h1 & E1 & D1). rewrite E1. cbn [bind].
  assert (G1 : forall a, In a (one (64 * nlen cs) (co_metas c)) \/ In a (one (32 * nlen (out_pairs o)) (co_outputs c)) \/ a = p -> h1 a = h a).
  { intros a Ha. apply D1. intros Hb. apply (N3 a Hb). rewrite !in_app_iff. cbn [In]. intuition. }
  destruct (hfree_ok h1 (co_metas c) (64 * nlen cs) 8 (DMetas cs)) as (h2 & E2 & D2).
  { intros Hn. rewrite G1; auto. left. now apply one_in. }
  rewrite E2. cbn [bind].
  assert (G2 : forall a, In a (one (32 * nlen (out_pairs o)) (co_outputs c)) \/ a = p -> h2 a = h a).
  { intros a Ha. rewrite <- G1 by tauto. apply D2. intros Hb. apply (N6 a Hb). rewrite in_app_iff. cbn [In]. intuition. }
  destruct (hfree_ok h2 (co_outputs c) (32 * nlen (out_pairs o)) 8 (DOutputs (out_pairs o))) as (h3 & E3 & D3).
  { intros Hn. rewrite G2; auto. left. now apply one_in. }
  rewrite E3. cbn [bind].
  destruct (hfree_ok h3 p 48 8 (DOutput c)) as (h4 & E4 & D4).
  { intros _. rewrite <- H1, <- G2 by tauto. apply D3. intros Hb. apply (N8 p Hb). now left. }
  exists h4. split; auto. eapply drops_app; [exact D1|]. eapply drops_app; [exact D2|]. eapply drops_app; [exact D3|exact D4].
Qed.
Lemma output_from_ok : forall m pick h o, honest pick -> Forall meta_ok (uo_meta o) ->
  (output_from m pick h o = Err EOutOfMemory /\ short pick h (output_pieces o) (output_bytes o)) \/
  exists h' p F, output_from m pick h o = Ok (h', p) /\ takes h h' F /\ (length F <= output_pieces o)%nat /\ output_owns h' p o F.
Proof.
  intros m pick h o Hp Ho. unfold output_from.
  rewrite (proj1 size_output), (proj2 size_output), (proj1 size_metas), (proj2 size_metas), (proj1 size_outs), (proj2 size_outs).
  fold (out_pairs o). destruct (metas_from_ok m pick (uo_meta o) h Hp Ho) as [[E Hs]|(h1 & cs & F1 & E & T1 & L1 & O1)]; rewrite E; cbn [bind].
  { left. split; auto. eapply short_more; [exact Hs|unfold output_pieces; lia|unfold output_bytes; lia]. }
  assert (Lc := metas_len _ _ _ _ O1). assert (Lo := pairs_len o).
  assert (L : forall size q, (length (one size q) <= 1)%nat) by (intros size q; unfold one; destruct (size =? 0); cbn; lia).
  destruct (halloc_ok pick h1 (64 * nlen cs) 8 (DMetas cs) Hp) as [[E2 Hs]|(h2 & pm & E2 & P2 & T2 & C2)]; [auto|rewrite E2; left; split; auto|rewrite E2; cbn [bind]].
  { eapply short_more; [exact (short_after _ _ _ _ _ _ _ T1 L1 Hs)|unfold output_pieces; lia|unfold output_bytes; lia]. }
  assert (T12 := takes_app _ _ _ _ _ T1 T2).
  assert (L12 : (length (F1 ++ one (64 * nlen cs) pm) <= 2 * length (uo_meta o) + 1)%nat) by (rewrite app_length; specialize (L (64 * nlen cs) pm); lia).
  destruct (halloc_ok pick h2 (32 * nlen (out_pairs o)) 8 (DOutputs (out_pairs o)) Hp) as [[E3 Hs]|(h3 & po & E3 & P3 & T3 & C3)]; [auto|rewrite E3; left; split; auto|rewrite E3; cbn [bind]].
  { eapply short_more; [exact (short_after _ _ _ _ _ _ _ T12 L12 Hs)|unfold output_pieces; lia|unfold output_bytes; lia]. }
  assert (T13 := takes_app _ _ _ _ _ T12 T3).
  assert (L13 : (length ((F1 ++ one (64 * nlen cs) pm) ++ one (32 * nlen (out_pairs o)) po) <= 2 * length (uo_meta o) + 2)%nat) by (rewrite app_length; specialize (L (32 * nlen (out_pairs o)) po); lia).
  destruct (halloc_ok pick h3 48 8 (DOutput (COutput (nlen cs) pm (nlen (out_pairs o)) po)) Hp) as [[E4 Hs]|(h4 & p & E4 & P4 & T4 & C4)]; [auto|rewrite E4; left; split; auto|rewrite E4; cbn [bind]].
  { eapply short_more; [exact (short_after _ _ _ _ _ _ _ T13 L13 Hs)|unfold output_pieces; lia|unfold output_bytes; lia]. }
  right. exists h4, p. change (one 48 p) with [p] in T4.
  assert (T34 := takes_app _ _ _ _ _ T3 T4). assert (T24 := takes_app _ _ _ _ _ T2 T34). assert (T14 := takes_app _ _ _ _ _ T1 T24).
  eexists. split; [reflexivity|]. split; [exact T14|].
  split. { rewrite !app_length in *. cbn [length]. unfold output_pieces. lia. }
  split; auto.
  exists (COutput (nlen cs) pm (nlen (out_pairs o)) po), cs, F1. cbn [co_meta_cnt co_metas co_output_cnt co_outputs].
  split; [apply C4; lia|]. split; auto. split; auto. split; auto. split; [apply T14|].
  destruct T14 as (N1 & _ & _). apply nodup_parts in N1. destruct N1 as (_ & N2 & N3). apply nodup_parts in N2. destruct N2 as (_ & N5 & N6).
  apply nodup_parts in N5. destruct N5 as (_ & _ & N8).
  split. { intros Hn. rewrite <- C2 by auto. destruct T34 as (_ & _ & O). apply O. apply N6. now apply one_in. }
  split. { intros Hn. rewrite <- C3 by auto. destruct T4 as (_ & _ & O). apply O. apply N8. now apply one_in. }
  eapply metas_frame; eauto. intros a Ha. destruct T24 as (_ & _ & O). apply O. now apply N3.
Qed.

(** ** Histories *)
Definition inv (h0 h : heap) (lf : list (N * list N)) (outs : list (uoutput sym)) : Prop :=
  Forall2 (fun x o => output_owns h (fst x) o (snd x)) lf outs /\
  takes h0 h (concat (map snd lf)).
Lemma forall2_at : forall A B (R : A -> B -> Prop) l l' i x, Forall2 R l l' -> nth_error l i = Some x ->
  exists y l1 l2 l1' l2', l = l1 ++ x :: l2 /\ l' = l1' ++ y :: l2' /\ R x y /\ Forall2 R l1 l1' /\ Forall2 R l2 l2' /\ length l1 = i /\ length l1' = i.
Proof.
  intros A B R l l' i x H. revert i. induction H as [|a b l l' H1 H2 IH]; intros [|i] E; try discriminate.
  - injection E as ->. exists b, [], l, [], l'. repeat split; auto.
  - destruct (IH i E) as (y & l1 & l2 & l1' & l2' & -> & -> & K1 & K2 & K3 & K4 & K5).
    exists y, (a :: l1), l2, (b :: l1'), l2'. repeat split; auto; cbn; congruence.
Qed.
Lemma remove_at_app : forall A (l1 l2 : list A) x, remove_at (length l1) (l1 ++ x :: l2) = l1 ++ l2.
Proof. induction l1 as [|a l1 IH]; intros l2 x; cbn; [reflexivity|now rewrite IH]. Qed.
Lemma firstn_skipn_app : forall A (l1 l2 : list A) x, firstn (length l1) (l1 ++ x :: l2) ++ skipn (S (length l1)) (l1 ++ x :: l2) = l1 ++ l2.
Proof. induction l1 as [|a l1 IH]; intros l2 x; [reflexivity|]. cbn [length firstn skipn app]. f_equal. apply IH. Qed.
Lemma run_inv : forall m pick h0, honest pick -> forall ops h lf outs k, Forall op_ok ops -> inv h0 h lf outs ->
  (length (concat (map snd lf)) <= k)%nat ->
  (hrun m pick h (map fst lf) ops = Err EOutOfMemory /\ short pick h0 (k + ops_pieces ops) (ops_bytes ops)) \/
  exists h' lf', hrun m pick h (map fst lf) ops = Ok (h', map fst lf') /\ inv h0 h' lf' (outstanding outs ops).
Proof.
  intros m pick h0 Hp. induction ops as [|op ops IH]; intros h lf outs k Hops Hinv Hk; cbn [hrun outstanding ops_pieces ops_bytes].
  - right. exists h, lf. auto.
  - inversion Hops as [|op' ops' Ho Hops']; subst. destruct Hinv as [Hf Ht]. destruct op as [o|i|].
    + destruct (output_from_ok m pick h o Hp Ho) as [[E Hs]|(h1 & p & F & E & T1 & L1 & O1)]; rewrite E; cbn [bind].
      { left. split; auto. eapply short_more; [exact (short_after _ _ _ _ _ _ _ Ht Hk Hs)|lia|lia]. }
      specialize (IH h1 (lf ++ [(p, F)]) (outs ++ [o]) (k + output_pieces o)%nat Hops'). assert (Em : map fst (lf ++ [(p, F)]) = map fst lf ++ [p]) by (rewrite map_app; reflexivity). rewrite Em in IH.
      destruct IH as [[IH Hs]|IH]; [| |left; split; auto; eapply short_more; [exact Hs|lia|lia]|right; exact IH].
      2:{ rewrite map_app, concat_app, app_length. cbn [map concat snd]. rewrite app_nil_r. lia. }
      split.
      * apply Forall2_app; [|constructor; [exact O1|constructor]].
        assert (G : forall a, In a (concat (map snd lf)) -> h1 a = h a).
        { intros a Ha. apply T1. intros Hb. destruct T1 as (_ & I1 & _). destruct Ht as (_ & I0 & _).
          now apply (proj2 (I0 a Ha)), (proj1 (I1 a Hb)). }
        clear - Hf G. induction Hf as [|[q F'] o' lf' outs' H1 H2 IH]; constructor.
        -- eapply output_frame; eauto. cbn [map concat snd] in G. intros a Ha. apply G. apply in_app_iff. now left.
        -- apply IH. intros a Ha. apply G. cbn [map concat]. apply in_app_iff. now right.
      * rewrite map_app, concat_app. cbn [map concat snd]. rewrite app_nil_r. eapply takes_app; eauto.
    + rewrite nth_error_map. destruct (nth_error lf i) as [[p F]|] eqn:En; cbn [option_map fst].
      * destruct (forall2_at _ _ _ _ _ _ _ Hf En) as (o & l1 & l2 & o1 & o2 & -> & -> & K1 & K2 & K3 & <- & K5). cbn [fst snd] in K1.
        destruct (output_free_ok h p o F K1) as (h1 & E1 & D1). rewrite E1. cbn [bind].
        rewrite map_app. cbn [map fst]. rewrite <- (map_length fst l1), remove_at_app, <- map_app. rewrite map_length, <- K5, firstn_skipn_app.
        destruct Ht as (N & I & O). rewrite map_app in *. cbn [map snd] in *. rewrite concat_app in *. cbn [concat] in *.
        pose proof (nodup_parts _ _ _ N) as (N1 & N2 & N3). pose proof (nodup_parts _ _ _ N2) as (N4 & N5 & N6).
        assert (Fr : forall l (os : list (uoutput sym)), Forall2 (fun x o => output_owns h (fst x) o (snd x)) l os ->
                  (forall a, In a (concat (map snd l)) -> ~ In a F) -> Forall2 (fun x o => output_owns h1 (fst x) o (snd x)) l os).
        { intros l os Hl. induction Hl as [|[q F'] o' l' os' H1 H2 IHl]; intros Hd; constructor.
          - eapply output_frame; eauto. intros a Ha. apply D1. apply Hd. cbn [map concat snd]. apply in_app_iff. now left.
          - apply IHl. intros a Ha. apply Hd. cbn [map concat]. apply in_app_iff. now right. }
        rewrite <- map_app. apply IH; auto.
        2:{ rewrite map_app, concat_app. rewrite !app_length in *. lia. }
        split.
        -- apply Forall2_app; apply Fr; auto.
           ++ intros a Ha Hb. apply (N3 a Ha). apply in_app_iff. now left.
           ++ intros a Ha Hb. exact (N6 a Hb Ha).
        -- rewrite map_app, concat_app. split; [|split].
           ++ apply nodup_join; auto. intros a Ha Hb. apply (N3 a Ha). apply in_app_iff. now right.
           ++ intros a Ha. assert (Ha' : In a (concat (map snd l1) ++ F ++ concat (map snd l2))) by (rewrite !in_app_iff in *; tauto).
              split; [apply (I a Ha')|]. destruct D1 as [_ D1]. rewrite D1; [apply (I a Ha')|].
              intros Hb. apply in_app_iff in Ha. destruct Ha as [Ha|Ha]; [apply (N3 a Ha); apply in_app_iff; now left|exact (N6 a Hb Ha)].
           ++ intros a Ha. rewrite in_app_iff in Ha. destruct (in_dec N.eq_dec a F) as [Hb|Hb].
              ** destruct D1 as [D1 _]. rewrite D1 by auto. symmetry. apply I. rewrite !in_app_iff. tauto.
              ** destruct D1 as [_ D1]. rewrite D1 by auto. apply O. rewrite !in_app_iff. tauto.
      * replace (firstn i outs ++ skipn (S i) outs) with outs.
        -- apply IH; auto. now split.
        -- apply nth_error_None in En. assert (L : length lf = length outs) by (clear - Hf; induction Hf; cbn; congruence). rewrite L in En. rewrite firstn_all2, skipn_all2, app_nil_r by lia. reflexivity.
    + unfold output_free. rewrite N.eqb_refl. cbn [bind]. apply IH; auto. now split.
Qed.

(** A C program may normalize addresses and free what it gets, in any order:
    nothing is ever freed twice or as something else than what it was
    allocated as, every output that has not been freed stays as it was handed
    out, nothing else in the heap changes, and when everything has been freed
    the heap is the one from before. *)
Theorem C67_history : forall m pick h0 ops, honest pick -> Forall op_ok ops ->
  hrun m pick h0 [] ops = Err EOutOfMemory \/
  exists h live, hrun m pick h0 [] ops = Ok (h, live) /\
    Forall2 (shows_output h) live (outstanding [] ops) /\ NoDup live /\
    (forall a c, h0 a = Some c -> h a = Some c) /\
    (outstanding [] ops = [] -> forall a, h a = h0 a).
Proof.
  intros m pick h0 ops Hp Hops.
  destruct (run_inv m pick h0 Hp ops h0 [] [] 0 Hops) as [[E _]|(h & lf & E & Hf & Ht)]; [split; [constructor|apply takes_nil]|cbn; lia|now left|right].
  exists h, (map fst lf). split; [exact E|]. split; [|split; [|split]].
  - clear - Hf. induction Hf as [|[p F] o lf outs H1 H2 IH]; constructor; auto. eapply output_shows; eauto.
  - destruct Ht as (N & _). clear - Hf N. induction Hf as [|[p F] o lf outs H1 H2 IH]; [constructor|]. cbn [map fst]. cbn [map concat snd] in N.
    apply nodup_parts in N. destruct N as (N1 & N2 & N3). constructor; [|auto]. intros Hin.
    assert (Hp : In p F). { destruct H1 as (_ & c & cs & F1 & _ & _ & _ & EF & _). cbn [snd fst] in EF. rewrite EF, !in_app_iff. cbn [In]. auto. }
    apply (N3 p Hp). clear - Hin H2. revert Hin. induction H2 as [|[q F'] o' lf outs H1 H2 IH]; intros Hin; [destruct Hin|].
    cbn [map concat snd fst] in *. apply in_app_iff. destruct Hin as [->|Hin]; [left|right; auto].
    destruct H1 as (_ & c & cs & F1 & _ & _ & _ & EF & _). cbn [snd fst] in EF. rewrite EF, !in_app_iff. cbn [In]. auto.
  - intros a c Ha. destruct Ht as (_ & I & O). rewrite O; auto. intros Hb. rewrite (proj1 (I a Hb)) in Ha. discriminate.
  - intros Ho. rewrite Ho in Hf. inversion Hf; subst. intros a. destruct Ht as (_ & _ & O). apply O. intros [].
Qed.

(** It only gives up for want of memory if there is less of it than all
    outputs together take. *)
Theorem C67_memory : forall m pick h0 ops, honest pick -> Forall op_ok ops -> enough pick h0 (ops_pieces ops) (ops_bytes ops) ->
  exists h live, hrun m pick h0 [] ops = Ok (h, live) /\ Forall2 (shows_output h) live (outstanding [] ops).
Proof.
  intros m pick h0 ops Hp Hops He. destruct (C67_history m pick h0 ops Hp Hops) as [E|(h & live & E & S & _)]; [|eauto].
  destruct (run_inv m pick h0 Hp ops h0 [] [] 0 Hops) as [[_ (h1 & F & size & align & T & L & B & A & Z)]|(h & lf & E' & _)];
    [split; [constructor|apply takes_nil]|cbn; lia| |cbn [map] in E'; rewrite E in E'; discriminate].
  exfalso. apply (He h1 F size align); auto. apply T.
Qed.

(** Names of files that contain a zero cannot be handed out: the call panics,
    whatever else has been normalized. *)
Theorem C67_zero_in_name : forall m pick h s x l outs, (x = UApk s \/ exists id, x = UElf s id) -> In 0 s ->
  output_from m pick h (UOutput outs (x :: l)) = Panic.
Proof.
  intros m pick h s x l outs Hx Hn. unfold output_from. cbn [uo_meta metas_from].
  assert (Z : cstring_new pick h s = Panic).
  { unfold cstring_new. now rewrite (proj2 (existsb_exists _ _) (ex_intro _ 0 (conj Hn eq_refl))). }
  destruct Hx as [->|[id ->]]; cbn [meta_from]; now rewrite Z.
Qed.

(** ** An example: an allocator of forty pages that hands out the first free
    one, and a program that frees in another order than it allocated *)
Definition pages : list N := map (fun i => 4096 * N.of_nat i) (seq 1 40).
Definition first_fit : allocator := fun h size align =>
  if size <=? 4096 then
    match find (fun a => match h a with None => a mod align =? 0 | Some _ => false end) pages with Some a => a | None => 0 end
  else 0.
Lemma first_fit_honest : honest first_fit.
Proof.
  intros h size align. unfold first_fit. destruct (N.leb_spec size 4096) as [L|L]; [|now left].
  destruct (find _ pages) as [a|] eqn:E; [|now left]. right. apply find_some in E. destruct E as [Hin Ha].
  destruct (h a); [discriminate|]. apply N.eqb_eq in Ha. split; auto. split; auto.
  assert (Hle : a <= 163840). { unfold pages in Hin. apply in_map_iff in Hin. destruct Hin as (i & <- & Hi). apply in_seq in Hi. lia. }
  assert (H64 : 2 ^ 64 = 18446744073709551616) by reflexivity. lia.
Qed.
Definition demo_meta_sym : sym := Sym [109; 97; 105; 110] (Some [108; 105; 98]) 4096 8 (Some 32) None [].
Definition demo_out1 : uoutput sym :=
  UOutput [(4096, 0%nat); (8192, 1%nat); (16, 0%nat)] [UElf [47; 97] (Some [1; 2; 3]); UUnknown Unmapped].
Definition demo_out2 : uoutput sym :=
  UOutput [(7, 0%nat)] [USym demo_meta_sym; UApk [47; 98]; UElf [47; 99] None; UElf [47; 100] (Some [])].
Definition demo_out3 : uoutput sym := UOutput [] [].
Definition demo_ops : list hop := [HNew demo_out1; HNew demo_out2; HFree 0; HNew demo_out3; HFreeNull; HNew demo_out1].
Example demo_ops_ok : Forall op_ok demo_ops.
Proof.
  assert (H64 : 2 ^ 64 = 18446744073709551616) by reflexivity. assert (H63 : 2 ^ 63 = 9223372036854775808) by reflexivity.
  repeat constructor; cbn; unfold path_ok; try (cbn; intuition discriminate).
  all: try reflexivity; try lia; try discriminate.
Qed.
Definition run_of (ops : list hop) : option (list N * list (N * bool)) :=
  match hrun Checked first_fit (fun _ => None) [] ops with
  | Ok (h, live) => Some (live, map (fun a => (a, match h a with Some _ => true | None => false end)) (firstn 14 pages))
  | _ => None
  end.
(** The output freed first gives its pages back, and they are used again. *)
Example demo_run : option_map fst (run_of demo_ops) = Some [49152; 4096; 53248].
Proof. vm_compute. reflexivity. Qed.
Example demo_run_freed :
  option_map (fun x => (fst x, existsb snd (snd x))) (run_of (demo_ops ++ [HFree 1; HFree 1; HFree 0])) = Some ([], false) /\
  outstanding [] (demo_ops ++ [HFree 1; HFree 1; HFree 0]) = [].
Proof. vm_compute. split; reflexivity. Qed.
Example demo_history : exists h live, hrun Checked first_fit (fun _ => None) [] demo_ops = Ok (h, live) /\
  Forall2 (shows_output h) live [demo_out2; demo_out3; demo_out1].
Proof.
  destruct (C67_history Checked first_fit (fun _ => None) demo_ops first_fit_honest demo_ops_ok) as [E|(h & live & E & S & _)].
  - exfalso. assert (K : match hrun Checked first_fit (fun _ => None) [] demo_ops with Err _ => false | _ => true end = true) by (vm_compute; reflexivity).
    rewrite E in K. discriminate.
  - exists h, live. split; [exact E|exact S].
Qed.
Example demo_enough : enough first_fit (fun _ => None) (ops_pieces demo_ops) (ops_bytes demo_ops).
Proof.
  intros h l size align Hl L B A. assert (Eb : ops_bytes demo_ops <= 4096) by (vm_compute; discriminate).
  unfold first_fit. rewrite (proj2 (N.leb_le size 4096)) by lia.
  destruct (find _ pages) as [a|] eqn:E.
  - apply find_some in E. destruct E as [Hin _]. unfold pages in Hin. apply in_map_iff in Hin. destruct Hin as (i & <- & Hi). apply in_seq in Hi. lia.
  - exfalso. assert (In_ : incl pages l).
    { intros a Ha. destruct (in_dec N.eq_dec a l) as [H|H]; auto. exfalso. assert (K := find_none _ _ E a Ha). cbn beta in K.
      rewrite (Hl a H) in K. unfold pages in Ha. apply in_map_iff in Ha. destruct Ha as (i & <- & _).
      assert (M : (4096 * N.of_nat i) mod align = 0).
      { destruct A as [-> | ->]; [apply N.mod_1_r|]. replace (4096 * N.of_nat i) with ((512 * N.of_nat i) * 8) by lia. apply N.mod_mul. lia. }
      rewrite M in K. discriminate. }
    apply NoDup_incl_length in In_.
    + change (length pages) with 40%nat in In_. change (ops_pieces demo_ops) with 28%nat in L. lia.
    + unfold pages. apply FinFun.Injective_map_NoDup; [|apply seq_NoDup]. intros i j. lia.
Qed.
(** Freeing twice is not among the operations: the model panics on it. *)
Example demo_twice : match hrun Checked first_fit (fun _ => None) [] [HNew demo_out1] with
  | Ok (h, [p]) => match output_free h p with Ok h => output_free h p | _ => Ok h end
  | _ => Err ENone
  end = Panic.
Proof. vm_compute. reflexivity. Qed.
Print Assumptions C67_history.
Print Assumptions C67_memory.
Print Assumptions C67_zero_in_name.
