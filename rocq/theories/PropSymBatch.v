(** * C43: batches of addresses against single ones *)

From Verif Require Import Base Util UtilProofs Amap Maps FileCache FileCacheProofs CacheViews Sym Normalize NormalizeProofs
  Symbolizer SymbolizerSpec SymbolizerElf SymbolizerApk SymbolizerState SymbolizerProcess.
Local Open Scope N_scope.

Section Batch.
  Context {File Parser : Type}.
  Notation world := (world File Parser).
  Notation state := (state File Parser).

  Definition ignoring : ekind -> res symbolized := fun _ => Ok (Unknown IgnoredError).
  Lemma each_batch : forall (J : state -> Prop) (g : N -> res symbolized) (f : N -> state -> res symbolized * state),
    (forall a s, J s -> fst (f a s) = g a /\ J (snd (f a s))) -> forall addrs s, J s ->
    match fst (each f ignoring addrs s) with
    | Ok l => Forall2 (fun a x => reports (g a) x) addrs l
    | Err _ => False
    | Panic => exists a, In a addrs /\ g a = Panic
    | NoFuel => exists a, In a addrs /\ g a = NoFuel
    end.
  Proof.
    intros J g f Hf. induction addrs as [|a addrs IH]; intros s Hs; [constructor|]. simpl.
    destruct (Hf a s Hs) as [E J1]. destruct (f a s) as [r s1]. simpl in E, J1. subst r. specialize (IH s1 J1).
    assert (G : forall x, reports (g a) x ->
      match fst (then_ (each f ignoring addrs s1) (fun l s => (Ok (x :: l), s))) with
      | Ok l => Forall2 (fun a x => reports (g a) x) (a :: addrs) l
      | Err _ => False
      | Panic => exists a0, In a0 (a :: addrs) /\ g a0 = Panic
      | NoFuel => exists a0, In a0 (a :: addrs) /\ g a0 = NoFuel
      end).
    { intros x Hx. destruct (each f ignoring addrs s1) as [[l|k| |] s2]; cbn [then_ fst] in *; auto;
        destruct IH as (a' & Hin & H); exists a'; split; auto; now right. }
    destruct (g a) as [x|k| |] eqn:Eg; cbn [then_ fst ignoring].
    - apply G; rewrite ?Eg; constructor.
    - apply G; rewrite ?Eg; constructor.
    - exists a. split; [now left|auto].
    - exists a. split; [now left|auto].
  Qed.
  Lemma each_single : forall (f : N -> state -> res symbolized * state) a s,
    fst (then_ (each f Err [a] s) (fun l s => (unwrap (hd_error l), s))) = fst (f a s).
  Proof. intros f a s. simpl. destruct (f a s) as [[x|k| |] s1]; reflexivity. Qed.

  (** With a resolver that is looked up once for all addresses *)
  Lemma once_agrees : forall A (x : res A * state) (f : A -> N -> res symbolized) addrs single,
    (forall a, single a = fst (then_ (then_ x (fun r s => each (fun a s => (f r a, s)) Err [a] s))
                                 (fun l s => (unwrap (hd_error l), s)))) ->
    batch_agrees single addrs (fst (then_ x (fun r s => each (fun a s => (f r a, s)) ignoring addrs s))).
  Proof.
    intros A [[r|k| |] s] f addrs single Hs; cbn [then_ fst] in *.
    - assert (Hs' : forall a, single a = f r a) by (intros a; now rewrite Hs, each_single).
      pose proof (each_batch (fun _ => True) (f r) (fun a s => (f r a, s)) ltac:(auto) addrs s I) as E.
      destruct (each _ ignoring addrs s) as [[l|k| |] s']; simpl in *.
      + eapply Forall2_impl; [|exact E]. intros a x H. cbn beta. now rewrite Hs'.
      + tauto.
      + right. destruct E as (a & Hin & H). exists a. now rewrite Hs'.
      + right. destruct E as (a & Hin & H). exists a. now rewrite Hs'.
    - auto.
    - left. auto.
    - left. auto.
  Qed.
  Lemma apk_agrees : forall m cf (w : world) p debug addrs (s : state), state_ok s ->
    let f := fun off s =>
      then_ (on_apk (apk_resolver m w p p off debug) s) (fun x s =>
        match x with
        | Some (r, addr) => (with_resolver m cf addr r, s)
        | None => (Ok (Unknown InvalidFileOffset), s)
        end) in
    batch_agrees (fun a => fst (then_ (each f Err [a] s) (fun l s => (unwrap (hd_error l), s)))) addrs
      (fst (each f ignoring addrs s)).
  Proof.
    intros m cf w p debug addrs s H f.
    set (g := fun off => let* x := apk_view m w p p debug off (s_apk s) in
                         match x with Some (r, addr) => with_resolver m cf addr r | None => Ok (Unknown InvalidFileOffset) end).
    set (U := fun q r : path => q = p /\ r = p).
    set (J := fun s' : state => Inv (s_apk s') /\ forall off, apk_view m w p p debug off (s_apk s') = apk_view m w p p debug off (s_apk s)).
    assert (HU : forall c, apk_unambiguous U w c).
    { intros c q r q' r' mt [-> ->] [-> ->] _ _. auto. }
    assert (Hf : forall a s', J s' -> fst (f a s') = g a /\ J (snd (f a s'))).
    { intros a s' [I V]. unfold f, g, on_apk.
      pose proof (apk_resolver_ok m w p p a debug (s_apk s') I) as Vr.
      pose proof (fun off' => apk_keeps U m w p p a p p off' debug (s_apk s') I (HU _) (conj eq_refl eq_refl) (conj eq_refl eq_refl)) as K.
      destruct (apk_resolver m w p p a debug (s_apk s')) as [x c]. cbn [snd] in K. destruct Vr as (-> & I' & _).
      rewrite V. assert (J' : J (set_apk c s')) by (split; auto; intros off; simpl; rewrite K; auto).
      destruct (apk_view m w p p debug a (s_apk s)) as [[[r addr]|]|k| |]; cbn [then_ bind fst snd]; auto. }
    assert (J0 : J s) by (split; auto; apply H).
    pose proof (each_batch J g f Hf addrs s J0) as E.
    assert (Hs : forall a, fst (then_ (each f Err [a] s) (fun l s => (unwrap (hd_error l), s))) = g a).
    { intros a. rewrite each_single. now apply Hf. }
    destruct (each f ignoring addrs s) as [[l|k| |] s']; cbn [fst batch_agrees] in *.
    - eapply Forall2_impl; [|exact E]. intros a x Hx. cbn beta. now rewrite Hs.
    - tauto.
    - right. destruct E as (a & Hin & Ea). exists a. now rewrite Hs.
    - right. destruct E as (a & Hin & Ea). exists a. now rewrite Hs.
  Qed.

  (** Everything but processes: one result per address, in order, that of the
      address on its own, and unknown if that is an error. *)
  Theorem C43_batch : forall m cf (w : world) src k addrs (s : state), reachable s -> is_process src = false ->
    batch_agrees (fun a => fst (symbolize_single m cf w src k a s)) addrs (fst (symbolize m cf w src k addrs s)).
  Proof.
    intros m cf w src k addrs s Hr Hp. apply reachable_ok in Hr. unfold symbolize, symbolize_single.
    fold ignoring. assert (Hun : batch_agrees (fun a => fst (then_ (@unsupported (list symbolized) _ s) (fun l s => (unwrap (hd_error l), s)))) addrs
      (fst (@unsupported (list symbolized) _ s))) by (intros a; reflexivity).
    destruct src as [p debug|p|p debug|n|p o|data|p]; try discriminate; cbn [symbolize_impl].
    - destruct k; auto. now apply apk_agrees.
    - destruct k; auto. now apply once_agrees.
    - destruct k.
      + destruct (on_elf (elf_resolver w p p debug) s) as [[x|e| |] s1]; cbn [then_ fst]; try (intros a; reflexivity).
        * left. reflexivity.
        * left. reflexivity.
      + now apply (once_agrees _ (on_elf (elf_resolver w p p debug) s) (fun x a => with_resolver m cf a (er_resolver x))).
      + now apply (once_agrees _ (on_elf (elf_resolver w p p debug) s) (fun x a => translated m cf a (er_resolver x))).
    - destruct k; auto. now apply once_agrees.
    - destruct k; auto. now apply once_agrees.
    - destruct k; auto. now apply once_agrees.
  Qed.
  Corollary C43_length : forall m cf (w : world) src k addrs (s : state) l, reachable s -> is_process src = false ->
    fst (symbolize m cf w src k addrs s) = Ok l -> length l = length addrs.
  Proof.
    intros m cf w src k addrs s l Hr Hp E. pose proof (C43_batch m cf w src k addrs s Hr Hp) as B. rewrite E in B.
    simpl in B. symmetry. eapply Forall2_length; eauto.
  Qed.

  (** Processes *)
  Lemma user_single : forall m cf (w : world) p o es a (s : state), state_ok s -> uses_vmas w p s es -> ordered es -> es <> [] ->
    settled w p o es s ->
    fst (symbolize_single m cf w (SProcess p o) AbsAddr a s) = one m cf w p o es a s.
  Proof.
    intros m cf w p o es a s Hok Hu Hord Hne Hset. unfold symbolize_single. cbn [symbolize_impl].
    pose proof (user_addrs_ok m cf w p o es s Hset [a] Hok Hu Hord Hne) as V.
    destruct (user_addrs m cf w p o [a] s) as [[l|k| |] s']; cbn [then_ fst] in *.
    - inversion V as [|? x ? l' E1 E2]; subst. inversion E2; subst. simpl. auto.
    - destruct V as (a' & [<-|[]] & E). auto.
    - destruct V as (a' & [<-|[]] & E). auto.
    - destruct V as (a' & [<-|[]] & E). auto.
  Qed.
  Theorem C43_process : forall m cf (w : world) p o es addrs (s : state), reachable s ->
    uses_vmas w p s es -> ordered es -> settled w p o es s ->
    batch_all (fun a => fst (symbolize_single m cf w (SProcess p o) AbsAddr a s)) addrs
      (fst (symbolize m cf w (SProcess p o) AbsAddr addrs s)).
  Proof.
    intros m cf w p o es addrs s Hr Hu Hord Hset. apply reachable_ok in Hr.
    destruct es as [|e0 es0] eqn:Ees.
    - assert (Hi : forall l, fst (symbolize_impl m cf w (SProcess p o) AbsAddr l ignoring s) = Err EUnexpectedEof).
      { intros l. simpl. unfold user_addrs. unfold uses_vmas in Hu.
        destruct (aget pid_eqb p (s_vmas s)); [subst|rewrite Hu]; reflexivity. }
      unfold symbolize, symbolize_single. fold ignoring. rewrite Hi. left. intros a.
      specialize (Hi [a]). cbn [symbolize_impl] in *. destruct (user_addrs m cf w p o [a] s) as [r s']. simpl in Hi. now subst.
    - rewrite <- Ees in *. assert (Hne : es <> []) by congruence.
      pose proof (user_addrs_ok m cf w p o es s Hset addrs Hr Hu Hord Hne) as V.
      assert (Hs : forall a, fst (symbolize_single m cf w (SProcess p o) AbsAddr a s) = one m cf w p o es a s)
        by (intros; now apply user_single).
      unfold symbolize. cbn [symbolize_impl]. destruct (user_addrs m cf w p o addrs s) as [[l|k| |] s']; cbn [fst batch_all] in *.
      + eapply Forall2_impl; [|exact V]. intros a x Hx. cbn beta. now rewrite Hs.
      + right. destruct V as (a & Hin & E). exists a. now rewrite Hs.
      + destruct V as (a & Hin & E). exists a. now rewrite Hs.
      + destruct V as (a & Hin & E). exists a. now rewrite Hs.
  Qed.
End Batch.

(** ** Examples *)
From Verif Require Import SymbolizerDemo.
Definition ex_world := demo plain_setup.
Example C43_batch_ex :
  brief_all (fst (symbolize Checked demo_config ex_world (SElf 3 false) VirtOffset [4200; 17; 5000; 4196] demo_new)) =
    Ok [inl ([3; 4192], 4192, 8); inr UnknownAddr; inr IgnoredError; inl ([3; 4192], 4192, 4)] /\
  brief_one (fst (symbolize_single Checked demo_config ex_world (SElf 3 false) VirtOffset 5000 demo_new)) = Err EInvalidData.
Proof. split; vm_compute; reflexivity. Qed.
Example C43_apk_ex :
  brief_all (fst (symbolize Checked demo_config ex_world (SApk 3 false) FileOffset [130; 99; 1004; 149] demo_new)) =
    Ok [inl ([2000; 4112], 4112, 14); inr InvalidFileOffset; inr InvalidFileOffset; inl ([2000; 4144], 4144, 1)].
Proof. vm_compute. reflexivity. Qed.

Definition ent (start end_ off : N) (name : option path_name) : maps_entry := MapsEntry start end_ 1 off name None.
Definition name_a := PPath [1] [97].
Definition name_b := PPath [2] [98].
Definition ex_entries := [ent 1000 2000 0 (Some name_a); ent 3000 4000 50 (Some name_b)].
Definition ex_opts := POpts false true false true.
Definition ex_process := demo (with_entries ex_entries plain_setup).
Example C43_process_ex :
  uses_vmas ex_process Slf demo_new ex_entries /\ ordered ex_entries /\ settled ex_process Slf ex_opts ex_entries demo_new /\
  brief_all (fst (symbolize Checked demo_config ex_process (SProcess Slf ex_opts) AbsAddr [3004; 1500; 10; 2500; 1501] demo_new)) =
    Ok [inl ([99; 4144], 4144, 6); inl ([98; 4592], 4592, 4); inr Unmapped; inr Unmapped; inl ([98; 4592], 4592, 5)].
Proof.
  split; [reflexivity|]. split; [repeat constructor; simpl; lia|]. split.
  - assert (Ht : forall a e q r, In e ex_entries -> target_paths a ex_opts e q r -> a = false /\
      ((q = 98 /\ r = 98) \/ (q = 99 /\ r = 99))).
    { intros a e q r [<-|[<-|[]]] (mf & sy & E & Ha & -> & ->); injection E as <- <-; vm_compute in Ha; subst a; vm_compute; auto. }
    assert (Hl : forall q r, looked_up ex_process ex_opts ex_entries demo_new q r -> q = r /\ (q = 98 \/ q = 99)).
    { intros q r [e q' r' He H|e q' r' P q2 Hd]; [|discriminate]. destruct (Ht _ _ _ _ He H) as [_ [[-> ->]|[-> ->]]]; auto. }
    constructor.
    + intros q r q' r' mt H1 H2 E1 E2. destruct (Hl _ _ H1) as [<- H1']. destruct (Hl _ _ H2) as [<- H2'].
      destruct H1' as [->| ->]; destruct H2' as [->| ->]; auto; vm_compute in E1, E2; congruence.
    + discriminate.
    + intros e q r e' q' r' mt He H. destruct (Ht _ _ _ _ He H) as [Hf _]. discriminate.
    + intros _ e e' [<-|[<-|[]]]; discriminate.
    + discriminate.
  - vm_compute. reflexivity.
Qed.

(** ** Not so: a problem with one address of a process *)

(** The file of one entry is not there: nothing is reported for addresses in
    other entries, contrary to the documentation. *)
Definition missing_b := with_file (fun p => if p =? 99 then None else Some 5) (with_entries ex_entries plain_setup).
Theorem C43_missing_refuted : exists (w : world N N) (s : state N N) p o a b y, reachable s /\
  fst (symbolize Checked demo_config w (SProcess p o) AbsAddr [a; b] s) = Err ENotFound /\
  fst (symbolize_single Checked demo_config w (SProcess p o) AbsAddr a s) = Ok (Known y) /\
  fst (symbolize_single Checked demo_config w (SProcess p o) AbsAddr b s) = Err ENotFound.
Proof.
  exists (demo missing_b), demo_new, Slf, ex_opts, 1500, 3004. eexists. split; [apply demo_reachable|].
  split; [vm_compute; reflexivity|]. split; vm_compute; reflexivity.
Qed.

(** Entries of the same name, and a dispatcher giving different resolvers for
    each: the one asked for first is used for both. *)
Definition same_entries := [ent 1000 2000 0 (Some name_a); ent 3000 4000 50 (Some name_a)].
Definition by_range := with_dispatch (fun start _ _ => Good (Some (demo_resolver start))) (with_entries same_entries plain_setup).
Theorem C43_dispatch_refuted : exists (w : world N N) (s : state N N) p o a b x y y', reachable s /\ y <> y' /\
  brief_all (fst (symbolize Checked demo_config w (SProcess p o) AbsAddr [a; b] s)) = Ok [x; y] /\
  brief_one (fst (symbolize_single Checked demo_config w (SProcess p o) AbsAddr b s)) = Ok y'.
Proof.
  exists (demo by_range), demo_new, Slf, ex_opts, 1500, 3004. do 3 eexists. split; [apply demo_reachable|].
  split; [|split; vm_compute; reflexivity]. discriminate.
Qed.

(** Two names of one file: the name reported as module is the one looked up
    first. The parser remembers it. *)
Definition module_world : world N N :=
  let w := ex_process in
  World (Fs (fun _ => Good (meta_of 5)) (fun _ => Good 5)) (fun _ r => Good r) (w_elf_plain w) (w_elf_cache w)
    (w_link w) (w_crc w) (w_dwp w) (w_dwarf w) (w_archive w) (w_apk_dispatch w) (w_apk_default w) (w_breakpad w)
    (w_gsym w) (w_perf_map w) (w_gsym_data w) (w_kernel w) (w_maps w) (w_image w) (w_dispatch w).
Theorem C43_links_refuted : exists (w : world N N) (s : state N N) p o a b x y y', reachable s /\ y <> y' /\
  brief_all (fst (symbolize Checked demo_config w (SProcess p o) AbsAddr [a; b] s)) = Ok [x; y] /\
  brief_one (fst (symbolize_single Checked demo_config w (SProcess p o) AbsAddr b s)) = Ok y'.
Proof.
  exists module_world, demo_new, Slf, ex_opts, 1500, 3004. do 3 eexists. split; [apply demo_reachable|].
  split; [|split; vm_compute; reflexivity]. discriminate.
Qed.

Print Assumptions C43_batch.
Print Assumptions C43_length.
Print Assumptions C43_process.
Print Assumptions C43_missing_refuted.
Print Assumptions C43_dispatch_refuted.
Print Assumptions C43_links_refuted.
