(** * Symbolizing kernel addresses time and again *)

From Coq Require Import String.
From Verif Require Import Base Util Amap Nom Sym Inspect Num ModMap Depmod DepmodSpec Kaslr FileCache FileCacheProofs CacheViews Symbolizer
  SymbolizerElf SymbolizerDemo HistorySpec HistoryProofs Kernel KernelCache KernelCacheSpec KernelHistory.
Local Close Scope string_scope.
Local Open Scope N_scope.
Local Notation length := List.length.

Section History.
  Context {File Parser : Type}.
  Variable load_ksym : File -> path -> outcome Symbolizer.resolver.
  Implicit Types (h : list (kcall File Parser)).
  (** Whatever was looked up before, the result is the one for the files as they
      are. *)
  Theorem C66_history : forall h x b, still load_ksym (h ++ [x]) ->
    call_alone load_ksym x (fst (kr_call load_ksym x (kr_run load_ksym h (kc_new b)))).
  Proof.
    intros h x b H. apply (call_ok load_ksym (h ++ [x]) H); [apply in_or_app; simpl; auto|].
    apply run_good; auto; [apply incl_appl, incl_refl|apply good_new].
  Qed.
  (** What is remembered is no more than there are files. *)
  Lemma keys_slot : forall T (c : file_cache File T) m, In m (akeys (fc_entries c)) -> exists f v, slot m c = Some (f, v).
  Proof.
    intros T c m Hm. unfold slot. destruct (eget m (fc_entries c)) as [e|] eqn:E; [do 2 eexists; reflexivity|].
    exfalso. apply (aget_none meta_eqb meta_eqb_spec) in E. auto.
  Qed.
  Theorem C66_bounded : forall h b images lists, still load_ksym h ->
    (forall f p r m, files_of h f -> any_image h p r -> fs_stat (w_fs f) p = Good m -> In m images) ->
    (forall f p r m, files_of h f -> reads_list h p r -> fs_stat (w_fs f) p = Good m -> In m lists) ->
    let c := kr_run load_ksym h (kc_new b) in
    (length (fc_entries (kc_elf c)) <= length images)%nat /\ (length (fc_entries (kc_ksym c)) <= length lists)%nat.
  Proof.
    intros h b images lists H Hi Hl c. assert (G : good load_ksym h c) by (apply run_good; auto; [apply incl_refl|apply good_new]).
    assert (L : forall T (c : file_cache File T) l, Inv c -> (forall m f v, slot m c = Some (f, v) -> In m l) ->
      (length (fc_entries c) <= length l)%nat).
    { intros T c0 l HI Hs. rewrite <- (map_length fst (fc_entries c0)). apply NoDup_incl_length; [apply HI|].
      intros m Hm. destruct (keys_slot T c0 m Hm) as (f & v & E). eauto. }
    split.
    - apply L; [apply (g_elf _ _ _ G)|]. intros m f v E.
      destruct (ge_slots _ _ _ _ (g_elf _ _ _ G) m f v E) as (w & p & r & Hw & Hr & Hm & _). eauto.
    - apply L; [apply (g_ksym _ _ _ G)|]. intros m f v E.
      destruct (gf_slots _ _ _ _ (g_ksym _ _ _ G) m f v E) as (w & p & r & Hw & Hr & Hm & _). eauto.
  Qed.
End History.
Print Assumptions C66_history.
Print Assumptions C66_bounded.

(** ** Example: a kernel, and a module that is compressed *)
Definition ex_plain : Symbolizer.world N N :=
  World (Fs (fun p => Good (meta_of p)) (fun p => Good p)) (fun f _ => Good f) (fun _ => demo_resolver 7) (fun _ => Good tt)
    (fun _ => Ok None) (fun _ => 0) (fun _ => None) (fun _ _ _ => Good (demo_resolver 8)) (fun _ => Bad ENotFound) None
    (fun _ _ _ => Bad ENotFound) (fun _ _ => Bad ENotFound) (fun _ _ => Bad ENotFound) (fun _ _ => Bad ENotFound)
    (fun _ => Bad ENotFound) (fun _ => Bad ENotFound) (fun _ => Bad ENotFound) (fun _ _ => demo_resolver 9) None.
Definition ex_fuse : kmod := KMod (bs "fuse"%string) 100000 20000.
Definition ex_index (path : string) : list N :=
  be32 0xb007f457 ++ be32 0x00020001 ++ be32 (12 + 2 ^ 30 + 2 ^ 31) ++ node_bytes (bs "fuse"%string) 0 [] [(0, bs path ++ [58])].
Definition ex_kw (modules : list kmod) (i : nat) : kworld N N :=
  KWorld ex_plain (Ok modules) (Ok (bs "/m"%string, ex_index "fuse.ko.xz")) (Err ENotFound) (fun _ => false) (Err ENotFound)
    (fun _ _ => Ok (100000 + N.of_nat i)).
Definition ex_ksym (f : N) (_ : path) : outcome Symbolizer.resolver := Good (demo_resolver f).
Definition ex_call (modules : list kmod) (a : N) (i : nat) : kcall N N :=
  KCall Checked (ex_kw modules i) MNone (MSome [200; 200]) (Some 0) false Basic [(ex_kw modules i, a)].
Definition names (r : res (list find_result)) : res (list (res (list N + reason))) :=
  let* l := r in Ok (map (fun x => let* y := x in match y with inl s => Ok (inl (rs_name s)) | inr r => Ok (inr r) end) l).
Definition ex_hist (n : nat) : list (kcall N N) := map (ex_call [ex_fuse] 105100) (seq 0 n).
Example C66_example :
  let c := kr_run ex_ksym (ex_hist 3) (kc_new true) in
  names (fst (kr_call ex_ksym (ex_call [ex_fuse] 105100 3) c)) = Ok [Ok (inl [7; 5088])] /\
  length (fc_entries (kc_elf c)) = 4%nat.
Proof. vm_compute. auto. Qed.

Lemma ex_in : forall n x, In x (ex_hist n) -> exists i, x = ex_call [ex_fuse] 105100 i.
Proof. intros n x H. apply in_map_iff in H. destruct H as (i & <- & _). eauto. Qed.
Lemma ex_looking : forall n w, looking (ex_hist n) w -> exists i, w = ex_kw [ex_fuse] i.
Proof.
  intros n w (x & a & Hx & Ha). destruct (ex_in n x Hx) as (i & ->). destruct Ha as [[= <- <-]|[]]. eauto.
Qed.
Lemma ex_files : forall n f, files_of (ex_hist n) f -> f = ex_plain.
Proof.
  intros n f (w & -> & [(x & Hx & ->)|Hw]).
  - destruct (ex_in n x Hx) as (i & ->). reflexivity.
  - destruct (ex_looking n w Hw) as (i & ->). reflexivity.
Qed.
Definition ex_rep : path := path_of (bs "/m/fuse.ko"%string).
Lemma ex_reads : forall n p r d, reads_image (ex_hist n) p r d ->
  d = false /\ (p = path_of [200; 200] /\ r = p \/ 100000 <= p /\ r = ex_rep).
Proof.
  intros n p r d [x q Hx Hq|x release dir q Hx Hq|x w a modules name base dir index q p0 r0 Hx Ha Hm Hf Hd Hp Hq];
    destruct (ex_in n x Hx) as (i & ->); try discriminate.
  - injection Hq as <-. auto.
  - destruct Ha as [[= <- <-]|[]]. injection Hm as <-. injection Hd as <- <-.
    vm_compute in Hf. injection Hf as <- <-. vm_compute in Hp. injection Hp as <-.
    apply module_at_only in Hq. unfold module_at in Hq.
    match type of Hq with context [split_extension ?l] => replace (split_extension l) with (Some (bs "/m/fuse.ko"%string, bs "xz"%string)) in Hq by reflexivity end.
    change (is_packed (bs "xz"%string)) with true in Hq. cbn [bind ex_kw kw_unpack] in Hq. injection Hq as -> ->.
    split; auto. right. split; [lia|reflexivity].
Qed.
Lemma ex_any : forall n p r, any_image (ex_hist n) p r -> p = path_of [200; 200] /\ r = p \/ 100000 <= p /\ r = ex_rep.
Proof.
  intros n p r [p0 r0 d H|f p0 r0 P q H]; [apply (ex_reads n _ _ _ H)|]. destruct (ex_reads n _ _ _ H). discriminate.
Qed.
Lemma ex_vmlinux_path : path_of [200; 200] = 51858.
Proof. reflexivity. Qed.
Example C66_still_example : forall n, still ex_ksym (ex_hist n).
Proof.
  intros n. constructor.
  - constructor.
    + intros w w' Hw Hw'. rewrite (ex_files n w Hw), (ex_files n w' Hw'). repeat split.
    + intros w w' p r p' r' m Hw Hw' Hp Hp'. rewrite (ex_files n w Hw), (ex_files n w' Hw'). cbn [ex_plain w_fs fs_stat fs_open].
      intros [= <-] [= E]. subst p'. apply ex_any in Hp, Hp'. rewrite ex_vmlinux_path in *. split; auto.
      destruct Hp as [[? ?]|[? ?]], Hp' as [[? ?]|[? ?]]; subst; auto; lia.
    + intros p r H. eapply AiFile; eauto.
    + intros w w' p r p' r' m P Hw Hw' H. destruct (ex_reads n _ _ _ H). discriminate.
    + intros w p r P q Hw H. destruct (ex_reads n _ _ _ H). discriminate.
  - intros w w' p r p' r' m Hw Hw' (-> & x & q & Hx & _ & Hk). destruct (ex_in n x Hx) as (i & ->).
    destruct Hk as [Hk|[Hk _]]; discriminate.
  - intros w w' Hw Hw'. destruct (ex_looking n w Hw) as (i & ->), (ex_looking n w' Hw') as (j & ->). reflexivity.
  - intros w w' Hw Hw'. destruct (ex_looking n w Hw) as (i & ->), (ex_looking n w' Hw') as (j & ->). reflexivity.
  - intros x x' o o' Hx Hx' [Ho _]. destruct (ex_in n x Hx) as (i & ->). discriminate.
Qed.

(** ** Refuted: looking up the same address over and over takes no more and more
    memory *)

(** A compressed module is unpacked each time, and all of the copies are kept. *)
Lemma ex_grows : forall n c i, good ex_ksym (ex_hist n) c -> (i < n)%nat ->
  let c' := snd (kr_call ex_ksym (ex_call [ex_fuse] 105100 i) c) in
  slot (meta_of (100000 + N.of_nat i)) (kc_elf c') <> None /\
  forall m, slot m (kc_elf c) <> None -> slot m (kc_elf c') <> None.
Proof.
  intros n c i G Hi. pose proof (C66_still_example n) as Hs.
  assert (Hx : In (ex_call [ex_fuse] 105100 i) (ex_hist n)) by (apply in_map, in_seq; lia).
  assert (Hl : looking (ex_hist n) (ex_kw [ex_fuse] i)) by (exists (ex_call [ex_fuse] 105100 i), 105100; simpl; auto).
  set (x := ex_call [ex_fuse] 105100 i) in *. set (w := ex_kw [ex_fuse] i) in *.
  assert (K : forall p r c0, good ex_ksym (ex_hist n) c0 -> 
    let c1 := snd (kc_elf_resolver w p r false c0) in
    slot (meta_of p) (kc_elf c1) <> None /\ forall m, slot m (kc_elf c0) <> None -> slot m (kc_elf c1) <> None).
  { intros p r c0 G0. unfold kc_elf_resolver, elf_resolver. pose proof (elf_none_ok (kw_files w) p r (kc_elf c0) (ge_inv _ _ _ _ (g_elf _ _ _ G0))) as V.
    destruct (elf_none (kw_files w) p r (kc_elf c0)) as [y e]. cbn [snd kc_elf]. destruct V as (_ & _ & _ & _ & _ & V).
    unfold efile in V. rewrite (unpinned_meta _ _ _ (ge_unpinned _ _ _ _ (g_elf _ _ _ G0))) in V.
    change (fs_stat (w_fs (kw_files w)) p) with (Good (meta_of p)) in V. change (fs_open (w_fs (kw_files w)) p) with (Good p) in V.
    destruct (slot (meta_of p) (kc_elf c0)) as [[f v]|] eqn:S; cbv beta iota in V; rewrite S in V; destruct V as (S1 & O1 & _); (split; [congruence|]);
      intros m Hm; (destruct (meta_eqb_spec m (meta_of p)) as [->|Hne]; [congruence|rewrite O1; auto]). }
  unfold kr_call. pose proof (gives_new ex_ksym (ex_hist n) Hs x Hx c G) as [E G1].
  assert (M1 : forall m, slot m (kc_elf c) <> None -> slot m (kc_elf (snd (kr_new ex_ksym (kl_mode x) (kl_world x) (kl_kallsyms x) (kl_vmlinux x) (kl_offset x) (kl_debug x) c))) <> None).
  { intros m Hm. unfold kr_new. cbn [x ex_call kl_kallsyms new_ksym then_ kl_vmlinux new_vmlinux kl_debug kl_world kl_offset].
    fold w. pose proof (K (path_of [200; 200]) (path_of [200; 200]) c G) as [_ K2].
    destruct (kc_elf_resolver w (path_of [200; 200]) (path_of [200; 200]) false c) as [[r|e| |] c1]; cbn [then_ snd] in *; auto. }
  destruct (kr_new ex_ksym _ _ _ _ _ _ c) as [k c1]. cbn [fst snd] in *.
  assert (Ek : exists vm, k = Ok (Kernel None (Some vm) 0 false)) by (subst k; eexists; reflexivity). clear E. destruct Ek as [vm ->].
  cbn [then_].
  change (kl_mode x) with Checked. change (kl_opts x) with Basic. change (kl_addrs x) with [(w, 105100)]. cbn [kr_finds].
  enough (F : slot (meta_of (100000 + N.of_nat i)) (kc_elf (snd (kr_find_sym Checked w (Kernel None (Some vm) 0 false) 105100 Basic c1))) <> None /\
    forall m, slot m (kc_elf c1) <> None -> slot m (kc_elf (snd (kr_find_sym Checked w (Kernel None (Some vm) 0 false) 105100 Basic c1))) <> None).
  { destruct (kr_find_sym Checked w (Kernel None (Some vm) 0 false) 105100 Basic c1) as [r c2]. cbn [snd] in *.
    destruct F as [F1 F2]. split; auto. }
  unfold kr_find_sym. cbn [kr_vmlinux kr_debug_syms].
  pose proof (gives_modmap ex_ksym (ex_hist n) Hs w Hl c1 G1) as [E2 G2].
  assert (L2 : kc_elf (snd (kc_get_modmap w c1)) = kc_elf c1) by (unfold kc_get_modmap; destruct (get_or_try_init _ _) as [[? ?] ?]; reflexivity).
  destruct (kc_get_modmap w c1) as [r2 c2]. cbn [fst snd] in *. subst r2. cbn [w ex_kw kw_modules then_].
  replace (find_module Checked [ex_fuse] 105100) with (Ok (@inl (list N * N) reason (bs "fuse"%string, 100000))) by reflexivity.
  cbn [then_]. fold w.
  pose proof (gives_depmod ex_ksym (ex_hist n) Hs w Hl c2 G2) as [E3 G3].
  assert (L3 : kc_elf (snd (kc_get_depmod w c2)) = kc_elf c2) by (unfold kc_get_depmod; destruct (get_or_try_init _ _) as [[? ?] ?]; reflexivity).
  destruct (kc_get_depmod w c2) as [r3 c3]. cbn [fst snd] in *. subst r3. cbn [w ex_kw kw_depmod then_].
  replace (find_path Checked (bs "/m"%string) (ex_index "fuse.ko.xz") (bs "fuse"%string)) with (Ok (Some (bs "/m/fuse.ko.xz"%string)))
    by (vm_compute; reflexivity).
  cbn [then_]. fold w.
  assert (Em : kr_module w (bs "/m/fuse.ko.xz"%string) false c3 = kc_elf_resolver w (100000 + N.of_nat i) ex_rep false c3) by reflexivity.
  rewrite Em. pose proof (K (100000 + N.of_nat i) ex_rep c3 G3) as [K1 K2]. rewrite L3, L2 in K2.
  destruct (kc_elf_resolver w (100000 + N.of_nat i) ex_rep false c3) as [[r|e| |] c4]; cbn [then_ snd] in *; auto.
  replace (of_option EInvalidInput (checked_sub 105100 100000)) with (Ok 5100) by reflexivity. cbn [then_].
  destruct (r_find r 5100 Basic) as [[s|y]|e| |]; cbn [then_ snd]; auto.
Qed.
Theorem C66_unpack_refuted : exists (call : nat -> kcall N N),
  (forall i j, kl_vmlinux (call i) = kl_vmlinux (call j) /\ map snd (kl_addrs (call i)) = map snd (kl_addrs (call j))) /\
  forall n, still ex_ksym (map call (seq 0 n)) /\
    (n <= length (fc_entries (kc_elf (kr_run ex_ksym (map call (seq 0 n)) (kc_new true)))))%nat.
Proof.
  exists (ex_call [ex_fuse] 105100). split; [intros i j; split; reflexivity|]. intros n. split; [apply C66_still_example|].
  fold (ex_hist n).
  assert (X : forall k, (k <= n)%nat -> good ex_ksym (ex_hist n) (kr_run ex_ksym (ex_hist k) (kc_new true)) /\
    forall j, (j < k)%nat -> slot (meta_of (100000 + N.of_nat j)) (kc_elf (kr_run ex_ksym (ex_hist k) (kc_new true))) <> None).
  { induction k as [|k IH]; intros Hk; [split; [apply good_new|lia]|]. destruct IH as [G IH]; [lia|].
    unfold ex_hist at 2 3. rewrite seq_S, map_app. unfold kr_run. rewrite fold_left_app. cbn [map fold_left plus].
    fold (ex_hist k). fold (kr_run ex_ksym (ex_hist k) (kc_new true)).
    pose proof (ex_grows n _ k G ltac:(lia)) as [H1 H2]. split.
    - apply call_ok; auto; [apply C66_still_example|]. apply in_map, in_seq. lia.
    - intros j Hj. destruct (Nat.eq_dec j k) as [->|Hne]; [exact H1|]. apply H2, IH. lia. }
  destruct (X n (le_n n)) as [_ Hslots].
  set (c := kc_elf (kr_run ex_ksym (ex_hist n) (kc_new true))) in *.
  assert (Hk : incl (map (fun j => meta_of (100000 + N.of_nat j)) (seq 0 n)) (map fst (fc_entries c))).
  { intros m Hm. apply in_map_iff in Hm. destruct Hm as (j & <- & Hj). apply in_seq in Hj.
    specialize (Hslots j ltac:(lia)). unfold slot in Hslots.
    match type of Hslots with context [eget ?a ?b] => destruct (eget a b) as [e|] eqn:E; [|now destruct Hslots] end.
    apply (aget_in meta_eqb meta_eqb_spec) in E. apply in_map_iff. exists (meta_of (100000 + N.of_nat j), e). auto. }
  apply NoDup_incl_length in Hk; [rewrite !map_length, seq_length in Hk; exact Hk|].
  apply FinFun.Injective_map_NoDup; [|apply seq_NoDup]. intros a b H. apply (f_equal fm_inode) in H. simpl in H. lia.
Qed.
(** A module loaded later is not seen. *)
Theorem C66_modules_refuted : exists (w w' : kworld N N) (call : kworld N N -> kcall N N), kw_files w = kw_files w' /\ kw_depmod w = kw_depmod w' /\
  kw_modules w = Ok [] /\ kw_modules w' = Ok [ex_fuse] /\
  fst (kr_call ex_ksym (call w') (kr_run ex_ksym [call w] (kc_new true))) <> fst (kr_call ex_ksym (call w') (kc_new true)).
Proof.
  exists (ex_kw [] 0), (ex_kw [ex_fuse] 0), (fun w => KCall Checked w MNone (MSome [200; 200]) (Some 0) false Basic [(w, 105100)]).
  split; [reflexivity|]. split; [reflexivity|]. split; [reflexivity|]. split; [reflexivity|].
  intros H. apply (f_equal names) in H. vm_compute in H. discriminate.
Qed.
(** A list of symbols that changed is read again, although reloading is switched
    off. *)
Theorem C66_reload_refuted : exists (w w' : kworld N N) (call : kworld N N -> kcall N N),
  let c := kr_run ex_ksym [call w] (kc_new false) in
  fst (kr_call ex_ksym (call w') c) <> fst (kr_call ex_ksym (call w) c).
Proof.
  set (kw := fun f => KWorld (demo (with_file (fun _ => Some f) plain_setup)) (Ok []) (Err ENotFound) (Err ENotFound) (fun _ => false) (Err ENotFound)
    (fun _ _ => Err ENotFound) : kworld N N).
  exists (kw 11), (kw 12), (fun w => KCall Checked w (MSome [200]) MNone None false Basic [(w, 4200)]).
  intros c H. apply (f_equal names) in H. vm_compute in H. discriminate.
Qed.
Print Assumptions C66_unpack_refuted.
Print Assumptions C66_modules_refuted.
Print Assumptions C66_reload_refuted.
