(** * C87: what C programs ask to be cached *)

From Coq Require Import ZArith.
From Verif Require Import FileCacheProofs.
From Verif Require Import CapiIn CapiSpec CapiOut CapiCalls CapiCallsSpec CapiEnd CapiEndSpec PropCapiIn PropCapiOut PropCapiCalls PropCapiEnd.
From Verif Require Import Base Util UtilProofs Amap Maps Bytes Sym Elf FileCache Symbolizer SymbolizerSpec SymbolizerState SymbolizerDemo
  PropSymCache ElfSpec HistorySpec SymHistorySpec Host HostSpec HostUserSpec PropHost PropHostUser CapiCache CapiCacheSpec.
Local Open Scope N_scope.
Local Notation length := List.length.

(** ** Structures *)
Lemma value_ext : forall c c' n off, (forall i, off <= i < off + N.of_nat n -> byte c i = byte c' i) -> value c off n = value c' off n.
Proof.
  intros c c' n. induction n as [|n IH]; intros off H; [reflexivity|]. cbn [value]. rewrite (H off) by lia. f_equal. f_equal. apply IH. intros i Hi. apply H. lia.
Qed.
Lemma struct_unique : forall c c' m, struct_at c m -> struct_at c' m -> c = c'.
Proof.
  intros c c' m ((_ & L & E) & r & ->) ((_ & L' & E') & r' & F).
  assert (Hb : forall i, 0 <= i < 0 + 8 -> byte c i = byte c' i).
  { intros i Hi. unfold byte, nlen in *. rewrite <- (app_nth1 c r) by lia. rewrite <- (app_nth1 c' r') by lia. now rewrite F. }
  rewrite (value_ext c c' 8 0 Hb), E' in E. unfold nlen in E.
  assert (X : forall z t : list N, z = firstn (length z) (z ++ t)) by (intros z t; rewrite firstn_app, Nat.sub_diag, firstn_all; cbn; now rewrite app_nil_r).
  rewrite (X c r), (X c' r'), F. f_equal. lia.
Qed.
Lemma cache_known : forall f, In (cache_input f) input_tys /\ it_effective (cache_input f) = known f.
Proof. intros []; (split; [cbn; tauto|vm_compute; reflexivity]). Qed.
Lemma target_ok : forall g fuel c f t o, stands_for g fuel c f t ->
  (forall off n, off + N.of_nat n <= it_size (cache_input f) -> field off (N.of_nat n) o = value c off n) ->
  cache_target g fuel f o = Ok t.
Proof.
  intros g fuel c f t o [path (Hs & Hl)|vmas E Hv|n vmas E Hn Hv] Ho; cbn [cache_input] in Ho; unfold cache_target.
  - rewrite (member_value _ 1 8 c o Ho) by at_. change (offset_of (it_members blaze_cache_src_elf) 1) with 8.
    now rewrite (read_string _ _ _ _ Hs Hl).
  - rewrite (flag_there _ 2 c o vmas Ho) by at_. cbn [bind]. rewrite (member_value _ 1 4 c o Ho) by at_.
    change (offset_of (it_members blaze_cache_src_process) 1) with 8. now rewrite E.
  - rewrite (flag_there _ 2 c o vmas Ho) by at_. cbn [bind]. rewrite (member_value _ 1 4 c o Ho) by at_.
    change (offset_of (it_members blaze_cache_src_process) 1) with 8. rewrite E. unfold pid_of. destruct (N.eqb_spec n 0); [congruence|reflexivity].
Qed.

Section Calls.
  Context {File Parser : Type}.
  Implicit Types (c : cache_call File Parser) (s : state File Parser).

  (** The last error for what the library says *)
  Definition last_error (r : res unit) : res Z :=
    match r with Ok _ => Ok 0%Z | Err k => blaze_err_from k | Panic => Panic | NoFuel => NoFuel end.
  Lemma wants_ok : forall c t s, wants c t ->
    blaze_cache c s = (last_error (fst (cache (cc_world c) t s)), snd (cache (cc_world c) t s)).
  Proof.
    intros c t s (l & Hl & U & Hm). unfold blaze_cache. destruct (cache_known (cc_fn c)) as (Hk & He).
    rewrite <- He in U. destruct (taken _ l _ Hk Hl U) as (o & -> & Ho). cbn [then_].
    rewrite (target_ok _ _ _ _ _ o Hm Ho). cbn [then_]. destruct (cache (cc_world c) t s) as [r s']. reflexivity.
  Qed.
  Lemma newer_ok : forall c s, newer c -> blaze_cache c s = (Ok (-256)%Z, s).
  Proof.
    intros c s (l & Hl & U). unfold blaze_cache. destruct (cache_known (cc_fn c)) as (Hk & He). rewrite <- He in U.
    destruct (struct_ok _ l _ Hk Hl) as (_ & B). now rewrite (B U).
  Qed.
  Lemma does_ok : forall m cf rs ops, does m cf rs ops -> forall s, c_run m cf rs s = run ops s.
  Proof.
    intros m cf rs ops H. induction H as [|c src k addrs rs ops Ha _ IH|c rs ops Ht _ IH|c t rs ops Hw _ IH|c rs ops Hn _ IH]; intros s; [reflexivity|..];
      unfold c_run, run in *; cbn [fold_left c_step after]; rewrite IH; f_equal.
    - now rewrite (asks_ok _ _ _ _ _ _ _ Ha).
    - now rewrite (too_new_ok _ _ _ _ Ht).
    - now rewrite (wants_ok _ _ _ Hw).
    - now rewrite (newer_ok _ _ Hn).
  Qed.
  Lemma said_ok : forall r, last_error r = Ok 0%Z -> r = Ok tt.
  Proof. intros [[]|k| |] H; try discriminate; [reflexivity|]. destruct k; discriminate. Qed.
  Lemma leaves_file : forall m cf p (rs : list (request File Parser)) ops, does m cf rs ops -> Forall (not_again (TElf p)) rs -> Forall (leaves_elf p) ops.
  Proof.
    intros m cf p rs ops H. induction H as [|c src k addrs rs ops Ha _ IH|c rs ops Ht _ IH|c t rs ops Hw _ IH|c rs ops Hn _ IH]; intros HF; [apply Forall_nil|..];
      inversion HF as [|? ? H1 H2]; subst; [apply Forall_cons; [exact I|now apply IH]|now apply IH| |now apply IH]. apply Forall_cons; [|now apply IH].
    destruct t as [q|]; [|exact I]. intros ->. exact (H1 Hw).
  Qed.
  Lemma leaves_process : forall m cf p (rs : list (request File Parser)) ops, does m cf rs ops -> Forall (not_again (TProcess p true)) rs -> Forall (leaves_vmas p) ops.
  Proof.
    intros m cf p rs ops H. induction H as [|c src k addrs rs ops Ha _ IH|c rs ops Ht _ IH|c t rs ops Hw _ IH|c rs ops Hn _ IH]; intros HF; [apply Forall_nil|..];
      inversion HF as [|? ? H1 H2]; subst; [apply Forall_cons; [exact I|now apply IH]|now apply IH| |now apply IH]. apply Forall_cons; [|now apply IH].
    destruct t as [q|q []]; try exact I. intros ->. exact (H1 Hw).
  Qed.
  Lemma program_reachable : forall m cf rs ops b, does m cf rs ops -> reachable (c_run m cf rs (s_new b : state File Parser)).
  Proof. intros m cf rs ops b H. rewrite (does_ok _ _ _ _ H). apply reachable_run. exists b, []. reflexivity. Qed.

  (** Structures with members the library does not know are refused, and nothing
      is cached. *)
  Theorem C87_refused : forall c s, newer c -> blaze_cache c s = (Ok (-256)%Z, s).
  Proof. exact newer_ok. Qed.
  (** The last error says how it went. *)
  Theorem C87_error : forall c t s, wants c t ->
    (fst (blaze_cache c s) = Ok 0%Z <-> fst (cache (cc_world c) t s) = Ok tt) /\
    (forall k, k <> ENone -> fst (cache (cc_world c) t s) = Err k -> fst (blaze_cache c s) = Ok (code_of k)).
  Proof.
    intros c t s Hw. rewrite (wants_ok _ _ _ Hw). cbn [fst]. split.
    - split; [apply said_ok|]. now intros ->.
    - intros k Hk ->. now apply code_from.
  Qed.
  (** Caching the mappings of a process has an effect only if it succeeds, and
      without the flag, which older programs do not have, it has none. *)
  Theorem C87_process_failed : forall c p vmas s, wants c (TProcess p vmas) -> fst (blaze_cache c s) <> Ok 0%Z -> snd (blaze_cache c s) = s.
  Proof.
    intros c p vmas s Hw. rewrite (wants_ok _ _ _ Hw). cbn [fst snd]. intros H. apply C46_process_failed. intros E. apply H. now rewrite E.
  Qed.
  Theorem C87_process_unset : forall c l s, cc_fn c = CfProcess -> struct_at l (cc_src c) -> unknown_zero 12 l ->
    blaze_cache c s = (Ok 0%Z, s).
  Proof.
    intros c l s Hf Hl U.
    assert (Hw : exists p, wants c (TProcess p false)).
    { destruct (N.eq_dec (value l 8 4) 0) as [E|E].
      - exists Slf, l. rewrite Hf. split; [exact Hl|]. split; [intros i Hi; apply U; cbn [known] in Hi; lia|]. apply SfSelf; [exact E|]. apply U. lia.
      - exists (Pid (value l 8 4)), l. rewrite Hf. split; [exact Hl|]. split; [intros i Hi; apply U; cbn [known] in Hi; lia|]. apply SfProcess; auto. apply U. lia. }
    destruct Hw as (p & Hw). now rewrite (wants_ok _ _ _ Hw).
  Qed.

  (** Once a file is cached, programs get the same for it whatever they do, and
      whatever happens to the file. *)
  Theorem C87_file : forall m cf b rs ops c p rs' ops', does m cf rs ops -> wants c (TElf p) ->
    let s := c_run m cf rs (s_new b) in
    fst (blaze_cache c s) = Ok 0%Z ->
    let s1 := snd (blaze_cache c s) in
    does m cf rs' ops' -> Forall (not_again (TElf p)) rs' ->
    forall a a' k addrs, asks a (SElf p false) k addrs -> asks a' (SElf p false) k addrs -> ca_alloc a' = ca_alloc a ->
    fst (blaze_symbolize m cf a' (c_run m cf rs' s1)) = fst (blaze_symbolize m cf a s1).
  Proof.
    intros m cf b rs ops c p rs' ops' Hr Hw s E s1 Hr' HF a a' k addrs Ha Ha' Hal.
    rewrite (asks_ok _ _ _ _ _ _ _ Ha), (asks_ok _ _ _ _ _ _ _ Ha'). cbn [fst].
    assert (Hre : reachable s) by (eapply program_reachable; eauto).
    assert (Ec : fst (cache (cc_world c) (TElf p) s) = Ok tt) by now apply (C87_error c (TElf p) s Hw).
    subst s1. rewrite (wants_ok _ _ _ Hw). cbn [snd]. rewrite (does_ok _ _ _ _ Hr').
    pose proof (leaves_file _ _ _ _ _ Hr' HF) as L.
    rewrite (C46_file (cc_world c) p s Hre Ec ops' L m cf (ca_world a') k addrs).
    pose proof (C46_file (cc_world c) p s Hre Ec [] (Forall_nil _) m cf (ca_world a) k addrs) as E0. cbn [run fold_left] in E0. rewrite E0.
    unfold finish. rewrite Hal. reflexivity.
  Qed.
  (** Once its mappings are cached, a process has these for programs, even if it
      is gone. *)
  Theorem C87_process : forall m cf b rs ops c p rs' ops', does m cf rs ops -> wants c (TProcess p true) ->
    let s := c_run m cf rs (s_new b) in
    fst (blaze_cache c s) = Ok 0%Z ->
    let s1 := snd (blaze_cache c s) in
    does m cf rs' ops' -> Forall (not_again (TProcess p true)) rs' ->
    forall a a' o k addrs, asks a (SProcess p o) k addrs -> asks a' (SProcess p o) k addrs -> ca_alloc a' = ca_alloc a ->
    ca_world a' = with_maps p (w_maps (cc_world c) p) (ca_world a) ->
    fst (blaze_symbolize m cf a (c_run m cf rs' s1)) = fst (blaze_symbolize m cf a' (forgetting p (c_run m cf rs' s1))).
  Proof.
    intros m cf b rs ops c p rs' ops' Hr Hw s E s1 Hr' HF a a' o k addrs Ha Ha' Hal Haw.
    rewrite (asks_ok _ _ _ _ _ _ _ Ha), (asks_ok _ _ _ _ _ _ _ Ha'). cbn [fst].
    assert (Hre : reachable s) by (eapply program_reachable; eauto).
    assert (Ec : fst (cache (cc_world c) (TProcess p true) s) = Ok tt) by now apply (C87_error c (TProcess p true) s Hw).
    subst s1. rewrite (wants_ok _ _ _ Hw). cbn [snd]. rewrite (does_ok _ _ _ _ Hr').
    rewrite (C46_process (cc_world c) p s Hre Ec ops' (leaves_process _ _ _ _ _ Hr' HF) m cf (ca_world a) o k addrs).
    rewrite Haw. unfold finish. rewrite Hal. reflexivity.
  Qed.
  (** With debug symbols, too, the file itself does not matter anymore, only
      others do. *)
  Theorem C87_debug : forall m cf b rs ops c p rs' ops', does m cf rs ops -> wants c (TElf p) ->
    let s := c_run m cf rs (s_new b) in
    fst (blaze_cache c s) = Ok 0%Z ->
    does m cf rs' ops' -> Forall (not_again (TElf p)) rs' ->
    let s2 := c_run m cf rs' (snd (blaze_cache c s)) in
    forall a a' debug k addrs, asks a (SElf p debug) k addrs -> asks a' (SElf p debug) k addrs -> ca_alloc a' = ca_alloc a ->
    agree_but p (ca_world a') (ca_world a) ->
    blaze_symbolize m cf a' s2 = blaze_symbolize m cf a s2.
  Proof.
    intros m cf b rs ops c p rs' ops' Hr Hw s E Hr' HF s2 a a' debug k addrs Ha Ha' Hal Hag.
    rewrite (asks_ok _ _ _ _ _ _ _ Ha), (asks_ok _ _ _ _ _ _ _ Ha').
    assert (Hre : reachable s) by (eapply program_reachable; eauto).
    assert (Ec : fst (cache (cc_world c) (TElf p) s) = Ok tt) by now apply (C87_error c (TElf p) s Hw).
    subst s2. rewrite (wants_ok _ _ _ Hw). cbn [snd]. rewrite (does_ok _ _ _ _ Hr').
    rewrite (C46_debug (cc_world c) p s Hre Ec ops' (leaves_file _ _ _ _ _ Hr' HF) m cf (ca_world a') (ca_world a) debug k addrs Hag).
    unfold finish. rewrite Hal. reflexivity.
  Qed.
  (** Whether files are checked for changes does not change. *)
  Lemma reloads_after : forall o s, state_ok s -> fc_auto_reload (s_elf (after o s)) = fc_auto_reload (s_elf s).
  Proof.
    intros [m cf w src k addrs|m cf w src k addr|w t|cf t|w q y] s H; cbn [after].
    - apply g_auto, mo_elf. now apply (mono_symbolize_impl m cf w src k addrs _ s).
    - apply g_auto, mo_elf. now apply (mono_single m cf w src k addr s).
    - destruct t as [q|q vmas].
      + rewrite cache_elf_eq. pose proof (cache_elf_ok w q (s_elf s) (so_elf s H) (so_wf s H)) as C.
        unfold on_elf. destruct (cache_elf w q (s_elf s)) as [r c]. cbn [snd] in C. destruct r; exact (ce_auto _ _ _ C).
      + simpl. destruct vmas; auto. destruct (let* _ := _ in _); auto.
    - destruct t as [q|q].
      + destruct (evict_elf_ok cf q s H) as (b & c & Ee & _ & _ & E). rewrite E. simpl.
        destruct (fc_evict_spec q (s_elf s) (so_elf s H)) as (b' & c1 & E1 & _ & A & _). congruence.
      + destruct (evict_process_ok cf q s H) as (c & _ & E). now rewrite E.
    - apply g_auto, mo_elf. now apply (mono_register w q y s).
  Qed.
  Lemma reloads_run : forall h s, state_ok s -> fc_auto_reload (s_elf (run h s)) = fc_auto_reload (s_elf s).
  Proof.
    induction h as [|o h IH]; intros s H; [reflexivity|]. cbn [run fold_left]. change (fold_left (fun s o => after o s) h (after o s)) with (run h (after o s)).
    rewrite IH by now apply after_ok. now apply reloads_after.
  Qed.
  (** If the file is gone when the program asks for it to be cached again, this
      fails, and what was cached before stays in use. *)
  Theorem C87_again : forall m cf rs ops c p rs' ops' c' e, does m cf rs ops -> wants c (TElf p) ->
    let s := c_run m cf rs (s_new true) in
    fst (blaze_cache c s) = Ok 0%Z ->
    let s1 := snd (blaze_cache c s) in
    does m cf rs' ops' -> Forall (not_again (TElf p)) rs' ->
    let s2 := c_run m cf rs' s1 in
    wants c' (TElf p) -> e <> ENone -> fs_stat (w_fs (cc_world c')) p = Bad e ->
    fst (blaze_cache c' s2) = Ok (code_of e) /\
    forall a a' k addrs, asks a (SElf p false) k addrs -> asks a' (SElf p false) k addrs -> ca_alloc a' = ca_alloc a ->
    fst (blaze_symbolize m cf a' (snd (blaze_cache c' s2))) = fst (blaze_symbolize m cf a s1).
  Proof.
    intros m cf rs ops c p rs' ops' c' e Hr Hw s E s1 Hr' HF s2 Hw' He Hst.
    assert (Hre : reachable s) by (eapply program_reachable; eauto).
    assert (Ec : fst (cache (cc_world c) (TElf p) s) = Ok tt) by now apply (C87_error c (TElf p) s Hw).
    assert (Hau : auto_reloads s2).
    { subst s2 s1 s. rewrite (does_ok _ _ _ _ Hr'), (wants_ok _ _ _ Hw), (does_ok _ _ _ _ Hr). cbn [snd].
      change (snd (cache (cc_world c) (TElf p) (run ops (s_new true)))) with (run [OCache (cc_world c) (TElf p)] (run ops (s_new true))).
      unfold auto_reloads. rewrite !reloads_run; [reflexivity|..]; repeat (apply run_ok || apply new_ok). }
    assert (E1 : s1 = snd (cache (cc_world c) (TElf p) s)) by (subst s1; now rewrite (wants_ok _ _ _ Hw)).
    assert (E2 : s2 = run ops' s1) by (subst s2; now apply does_ok).
    pose proof (leaves_file _ _ _ _ _ Hr' HF) as L. rewrite E2, E1 in Hau.
    destruct (C46_gone (cc_world c) p s (cc_world c') e Hre Ec ops' L (or_introl Hst) Hau) as (G1 & G2).
    rewrite <- E1, <- E2 in G1, G2. split.
    - apply (C87_error c' (TElf p) s2 Hw'); auto.
    - intros a a' k addrs Ha Ha' Hal. rewrite (asks_ok _ _ _ _ _ _ _ Ha), (asks_ok _ _ _ _ _ _ _ Ha'). cbn [fst].
      rewrite (wants_ok _ _ _ Hw'). cbn [snd]. rewrite (G2 m cf (ca_world a') k addrs).
      pose proof (C46_file (cc_world c) p s Hre Ec [] (Forall_nil _) m cf (ca_world a) k addrs) as E0. cbn [run fold_left] in E0. rewrite <- E1 in E0. rewrite E0.
      unfold finish. rewrite Hal. reflexivity.
  Qed.
End Calls.
Print Assumptions C87_debug.
Print Assumptions C87_again.
Print Assumptions C87_refused.
Print Assumptions C87_error.
Print Assumptions C87_process_failed.
Print Assumptions C87_process_unset.
Print Assumptions C87_file.
Print Assumptions C87_process.

(** ** From the contents of files *)
Section Files.
  Context (x : ext) (m : mode) (pick : N -> N -> N) (rest : world (N * list N) parser) (h : host) (cf : config).
  Notation w := (host_world x m pick rest h).
  Context (Hx : sorts x) (Hnd : w_apk_dispatch rest = None) (Hdi : w_dispatch rest = None).

  Lemma alone_undisturbed : forall p k addrs, undisturbed [OSymbolize m cf w (SElf p false) k addrs].
  Proof.
    intros p k addrs. set (hist := [_]).
    assert (Ha : forall cf' w' src, asked hist cf' w' src -> w' = w /\ src = SElf p false).
    { intros cf' w' src [(m' & k' & l' & [E|[]])|(m' & k' & l' & [E|[]])]; [|discriminate]. injection E as _ _ -> -> _ _. auto. }
    assert (Hw : forall w', worlds hist w' -> w' = w) by (intros w' (cf' & src & H); exact (proj1 (Ha _ _ _ H))).
    assert (Hs : forall w' q o e, ~ sees hist w' q o e) by (intros w' q o e (cf' & items & H & _); destruct (Ha _ _ _ H); discriminate).
    assert (He : forall q r d, reads_elf hist q r d -> d = false /\ q = p /\ r = p).
    { intros q r d [cf' w' q0 d0 H|w' q' o e q0 r0 H _]; [|destruct (Hs _ _ _ _ H)]. destruct (Ha _ _ _ H) as (_ & E). injection E as -> ->. auto. }
    assert (Hy : forall q r, any_elf hist q r -> q = p /\ r = p).
    { intros q r [q0 r0 d H|w' q0 r0 P q1 H _ _ _]; [exact (proj2 (He _ _ _ H))|]. destruct (He _ _ _ H). discriminate. }
    assert (Hid : forall U : path -> path -> Prop, (forall q r, U q r -> q = p /\ r = p) -> identified (worlds hist) U).
    { intros U HU w1 w2 q r q' r' mt H1 H2 H3 H4 _ _. rewrite (Hw _ H1), (Hw _ H2). destruct (HU _ _ H3) as (-> & ->), (HU _ _ H4) as (-> & ->). auto. }
    constructor.
    - constructor.
      + intros w1 w2 H1 H2. rewrite (Hw _ H1), (Hw _ H2). repeat split.
      + now apply Hid.
      + intros q r H. exact (AeFile _ _ _ _ H).
      + intros w1 w2 q r q' r' mt P _ _ H. destruct (He _ _ _ H). discriminate.
      + intros w1 q r P q' _ H. destruct (He _ _ _ H). discriminate.
    - apply Hid. intros q r (_ & cf' & w' & H). destruct (Ha _ _ _ H). discriminate.
    - apply Hid. intros q r (_ & cf' & w' & H). destruct (Ha _ _ _ H). discriminate.
    - apply Hid. intros q r (_ & cf' & w' & q' & o & H & _). destruct (Ha _ _ _ H). discriminate.
    - intros w1 w2 q r d q' r' d' mt _ _ [cf' w' q0 d0 H|w' q1 o e q0 r0 H _]; [destruct (Ha _ _ _ H); discriminate|destruct (Hs _ _ _ _ H)].
    - exists (w_image w 0 0). intros w' q o e H. destruct (Hs _ _ _ _ H).
    - intros w1 w2 q q' o o' e e' name f f' H. destruct (Hs _ _ _ _ H).
  Qed.

  (** A file cached with a new symbolizer is what later answers are about, no
      matter what the file is then. *)
  Theorem C87_contents : forall c p rs ops, wants c (TElf (path_of p)) -> cc_world c = w ->
    fst (blaze_cache c (s_new true)) = Ok 0%Z ->
    does m cf rs ops -> Forall (not_again (TElf (path_of p))) rs ->
    forall a k addrs Ps, asks a (SElf (path_of p) false) k addrs -> addrs <> [] ->
    Forall2 (describes x h cf (SElf (path_of p) false) k) addrs Ps ->
    allocates a -> (forall l, Forall2 (fun P r => P r) Ps l -> results_room l <= 2 ^ 63 - 8) ->
    exists l b q, fst (blaze_symbolize m cf a (c_run m cf rs (snd (blaze_cache c (s_new true))))) = Ok (0%Z, Some (b, q)) /\
      gets b q l /\ Forall2 (fun P r => P r) Ps l.
  Proof.
    intros c p rs ops Hw Ew E Hr HF a k addrs Ps Ha Hne HD Hal Hroom. rewrite (asks_ok _ _ _ _ _ _ _ Ha). cbn [fst].
    assert (Hre : reachable (s_new true : state (N * list N) parser)) by (exists true, []; reflexivity).
    assert (Ec : fst (cache w (TElf (path_of p)) (s_new true)) = Ok tt) by (rewrite <- Ew; now apply (C87_error c (TElf (path_of p)) (s_new true) Hw)).
    rewrite (wants_ok _ _ _ Hw), Ew. cbn [snd]. rewrite (does_ok _ _ _ _ Hr).
    rewrite (C46_file w (path_of p) (s_new true) Hre Ec ops (leaves_file _ _ _ _ _ Hr HF) m cf (ca_world a) k addrs).
    assert (Hst : exists mt, fs_stat (w_fs w) (path_of p) = Good mt).
    { destruct HD as [|a0 P l0 Ps0 D _]; [congruence|]. clear - D. set (q := path_of p) in *. clearbody q. inversion D as [p0 ptr data e st dt a1 Hb Hf He|p0 ptr data off P1 Hb Hf Ho| | | | |]; subst;
      destruct Hf as ((mt & Hf) & _); exists mt; exact Hf. }
    destruct Hst as (mt & Hst).
    assert (Hau : auto_reloads (s_new true : state (N * list N) parser)) by (repeat split).
    rewrite (C46_fresh w (path_of p) (s_new true) mt true Hre Hau Ec Hst eq_refl m cf k addrs).
    destruct (C77_symbolize x m pick rest h cf Hx Hnd Hdi [] (SElf (path_of p) false) k addrs Ps (Forall_nil _) (alone_undisturbed _ _ _) Hne HD) as (l & El & HP).
    cbn [run fold_left] in El. rewrite El.
    assert (Hok : Forall result_ok l).
    { destruct Ha as (_ & (_ & Hnum) & _). clear - HD HP Hnum.
      assert (Ha : Forall (fun a => a < two64) addrs).
      { apply Forall_forall. intros a0 Hin. apply In_nth_error in Hin. destruct Hin as (i & Hi). destruct (Hnum i a0 Hi) as (l0 & Hl & Hb & <- & _).
        pose proof (le_val_lt l0 Hb) as B. unfold nlen in B. rewrite Hl in B. exact B. }
      clear Hnum. revert l HP. induction HD as [|a0 P addrs Ps H _ IH]; intros l HP; inversion HP; subst; constructor.
      - inversion Ha; subst. eapply described_ok; eauto. intros q. discriminate.
      - inversion Ha; subst. now apply IH. }
    assert (Hl : l <> []) by (destruct HD; [congruence|]; inversion HP; discriminate).
    destruct (given_ok m a l Hal Hl (Hroom l HP) Hok) as (b & q & Ef & Hg). exists l, b, q. auto.
  Qed.
End Files.
Print Assumptions C87_contents.

(** ** Example: a program caching the file of C72's example, which is then gone *)
Definition kx_bytes : list N := [47; 112; 0] ++ le_bytes 8 4098 ++ le_bytes 8 4100 ++ [2; 0].
Definition kx_mem : mem := fun a => if a <? 4099 then None else nth_error kx_bytes (N.to_nat (a - 4099)).
Lemma kx_has : forall p l, forallb (fun i => match kx_mem (p + N.of_nat i) with Some b => b =? nth i l 0 | None => false end) (seq 0 (length l)) = true -> has kx_mem p l.
Proof.
  intros p l H i b E. rewrite forallb_forall in H. assert (L : (i < length l)%nat) by (apply nth_error_Some; congruence).
  specialize (H i ltac:(apply in_seq; lia)). rewrite (nth_error_nth l i 0 E) in H. destruct (kx_mem (p + N.of_nat i)) as [b'|]; [|discriminate]. apply N.eqb_eq in H. congruence.
Qed.
Lemma kx_num : forall p v, v < 2 ^ 64 -> forallb (fun i => match kx_mem (p + N.of_nat i) with Some b => b =? nth i (le_bytes 8 v) 0 | None => false end) (seq 0 8) = true -> num kx_mem p 8 v.
Proof.
  intros p v Hv H. exists (le_bytes 8 v). pose proof (le_bytes_length 8 v) as L. split; [exact L|]. split; [apply le_bytes_is_bytes|]. split; [now apply le_val_bytes|].
  apply kx_has. now rewrite L.
Qed.
(** With today's header, and with one that ends with the path *)
Definition kx_elf (p : N) : list N := le_bytes 8 32 ++ le_bytes 8 p ++ repeat 0 16.
Definition kx_src (p : N) : list N := le_bytes 8 16 ++ le_bytes 8 p.
Definition kx_file (p : N) : list N := le_bytes 8 40 ++ le_bytes 8 p ++ repeat 0 24.
Definition kx_proc (vmas : N) : list N := le_bytes 8 13 ++ le_bytes 4 0 ++ [vmas].
Definition kx_newer : list N := le_bytes 8 40 ++ le_bytes 8 4099 ++ repeat 0 23 ++ [1].
Ltac kx_struct := split; [split; [repeat constructor; reflexivity|split; [vm_compute; split; [discriminate|reflexivity]|reflexivity]]|exists []; now rewrite app_nil_r].
Definition kx_cache {F P} (w : world F P) src : cache_call F P := CacheCall kx_mem 9 w CfElf src.
Definition kx_vmas {F P} (w : world F P) src : cache_call F P := CacheCall kx_mem 9 w CfProcess src.
Definition kx_ask {F P} (w : world F P) src : ccall F P := CCall kx_mem 9 w (fun _ => 4096) FElfVirt src 4102 2.
Lemma kx_wants : forall F P (w : world F P), wants (kx_cache w (kx_elf 4099)) (TElf (path_of ex_q)) /\ wants (kx_cache w (kx_src 4118)) (TElf 3).
Proof.
  intros F P w. split.
  - exists (kx_elf 4099). split; [kx_struct|]. split; [apply cx_known; [apply Nat.leb_le; vm_compute; reflexivity|vm_compute; reflexivity]|].
    apply (SfElf _ _ (kx_elf 4099) ex_q). split; [|cbn; lia]. split; [cbn; intuition discriminate|]. apply kx_has. vm_compute. reflexivity.
  - exists (kx_src 4118). split; [kx_struct|]. split; [apply cx_known; [apply Nat.leb_le; vm_compute; reflexivity|vm_compute; reflexivity]|].
    apply (SfElf _ _ (kx_src 4118) [2]). split; [|cbn; lia]. split; [cbn; intuition discriminate|]. apply kx_has. vm_compute. reflexivity.
Qed.
Lemma kx_asks : forall F P (w : world F P), asks (kx_ask w (kx_file 4099)) (SElf (path_of ex_q) false) VirtOffset [4098; 4100].
Proof.
  intros F P w. split; [|split; [|reflexivity]].
  - exists (kx_file 4099). split; [kx_struct|]. split; [apply cx_known; [apply Nat.leb_le; vm_compute; reflexivity|vm_compute; reflexivity]|].
    apply (MnElfVirt _ _ (kx_file 4099) ex_q false); [|reflexivity]. split; [|cbn; lia]. split; [cbn; intuition discriminate|]. apply kx_has. vm_compute. reflexivity.
  - split; [discriminate|]. intros [|[|i]] v E; cbn in E; try (destruct i; discriminate); injection E as <-; apply kx_num; reflexivity.
Qed.
Lemma kx_newer_ok : forall F P (w : world F P), newer (kx_cache w kx_newer).
Proof.
  intros F P w. exists kx_newer. split; [kx_struct|]. intros U. specialize (U 39 ltac:(vm_compute; discriminate)). discriminate U.
Qed.

Lemma kx_answer_room : forall addr r, elf_answer ex_cf ex_q PropElf.ex_st PropElf.ex_dt addr r -> result_inlined r = 0 /\ result_room r <= 1000.
Proof.
  assert (Hn : forall t s name, has_name t s name -> nlen (t_strs t) <= 500 -> nlen name <= 500).
  { intros t s name ((before & after & E & _) & _) H. rewrite E in H. rewrite !nlen_app in H. lia. }
  assert (Ha : forall t s name addr, has_name t s name -> nlen (t_strs t) <= 500 ->
    let r := answer ex_cf name (Some ex_q) addr (st_value s) (if st_size s =? 0 then None else Some (st_size s)) in result_inlined r = 0 /\ result_room r <= 1000).
  { intros t s name addr H L. specialize (Hn t s name H L). cbv zeta. unfold answer, result_inlined, result_room, sym_room, str_room, opt_room, sum_room.
    cbn [sy_inlined sy_name sy_module sy_code_info fold_right ex_cf cf_demangle]. change (nlen ex_q) with 2. split; [reflexivity|lia]. }
  intros addr r [(s & _ & name & H & ->)|[(_ & s & _ & name & H & ->)|(_ & _ & ->)]]; [eapply Ha; [exact H|]; vm_compute; discriminate..|].
  split; [reflexivity|]. vm_compute. discriminate.
Qed.
(** The program gets the function's name and where it is from even though the
    file is gone, and after a request with a structure that is refused. *)
Example C87_contents_example :
  let s := snd (blaze_cache (kx_cache ex_w (kx_elf 4099)) (s_new true)) in
  let rs := [RCache (kx_cache ex_rest kx_newer); RSymbolize (kx_ask ex_rest (kx_file 4099))] in
  fst (blaze_cache (kx_cache ex_w (kx_elf 4099)) (s_new true)) = Ok 0%Z /\
  (exists l b q, fst (blaze_symbolize Checked ex_cf (kx_ask ex_rest (kx_file 4099)) (c_run Checked ex_cf rs s)) = Ok (0%Z, Some (b, q)) /\
    gets b q l /\ Forall2 (fun a r => elf_answer ex_cf ex_q PropElf.ex_st PropElf.ex_dt a r) [4098; 4100] l) /\
  brief_all (fst (symbolize Checked ex_cf ex_rest (SElf (path_of ex_q) false) VirtOffset [4098; 4100] (c_run Checked ex_cf rs s))) =
    Ok [inl ([109; 97; 105; 110], 4096, 2); inl ([109; 97; 105; 110], 4096, 4)] /\
  fst (symbolize Checked ex_cf ex_rest (SElf (path_of ex_q) false) VirtOffset [4098; 4100] (s_new true)) = Err ENotFound.
Proof.
  cbv zeta.
  assert (E0 : fst (blaze_cache (kx_cache ex_w (kx_elf 4099)) (s_new true)) = Ok 0%Z) by (vm_compute; reflexivity).
  split; [exact E0|]. split; [|split; vm_compute; reflexivity].
  set (rs := [_; _]). set (P := fun a r => elf_answer ex_cf ex_q PropElf.ex_st PropElf.ex_dt a r).
  assert (Hd : does Checked ex_cf rs [OSymbolize Checked ex_cf ex_rest (SElf (path_of ex_q) false) VirtOffset [4098; 4100]]).
  { apply DoCacheNewer; [apply kx_newer_ok|]. apply (DoAsk Checked ex_cf (kx_ask ex_rest (kx_file 4099)) _ _ _ _ _ (kx_asks _ _ ex_rest)), DoNil. }
  assert (Hf : HostSpec.file_at ex_host ex_q 4096 PropElf.ex_data) by (split; [eexists; vm_compute; reflexivity|vm_compute; reflexivity]).
  destruct (C87_contents ElfExample.no_ext Checked (fun _ _ => 0) ex_rest ex_host ex_cf ElfExample.no_ext_sorts eq_refl eq_refl
    (kx_cache ex_w (kx_elf 4099)) ex_q rs _ (proj1 (kx_wants _ _ ex_w)) eq_refl E0 Hd) with (a := kx_ask ex_rest (kx_file 4099)) (k := VirtOffset)
    (addrs := [4098; 4100]) (Ps := [P 4098; P 4100]) as (l & b & q & E & G & HP).
  - constructor; [|constructor; [exact I|constructor]]. intros (l & Hl & U & _). destruct (kx_newer_ok _ _ ex_rest) as (l' & Hl' & U').
    rewrite (struct_unique _ _ _ Hl Hl') in U. exact (U' U).
  - apply kx_asks.
  - discriminate.
  - constructor; [|constructor; [|constructor]]; (eapply DsElf; [repeat constructor; reflexivity|exact Hf|exact ex_program]).
  - intros l Hl. cbn [kx_ask ca_alloc]. lia.
  - intros l HP. inversion HP as [|? r1 ? ? H1 H']; subst. inversion H' as [|? r2 ? ? H2 H'']; subst. inversion H''; subst.
    destruct (kx_answer_room _ _ H1), (kx_answer_room _ _ H2). unfold results_room, sum_room. cbn [fold_right]. change (nlen [r1; r2]) with 2. lia.
  - exists l, b, q. split; [exact E|]. split; [exact G|]. inversion HP as [|? r1 ? ? H1 H']; subst. inversion H' as [|? r2 ? ? H2 H'']; subst. inversion H''; subst. apply Forall2_cons; [exact H1|apply Forall2_cons; [exact H2|apply Forall2_nil]].
Qed.
(** Asking for the file again when it is gone *)
Example C87_again_example :
  let s1 := snd (blaze_cache (kx_cache ex_w (kx_elf 4099)) (s_new true)) in
  let s2 := snd (blaze_cache (kx_cache ex_rest (kx_elf 4099)) s1) in
  fst (blaze_cache (kx_cache ex_rest (kx_elf 4099)) s1) = Ok (code_of ENotFound) /\
  fst (blaze_symbolize Checked ex_cf (kx_ask ex_rest (kx_file 4099)) s2) = fst (blaze_symbolize Checked ex_cf (kx_ask ex_w (kx_file 4099)) s1) /\
  brief_all (fst (symbolize Checked ex_cf ex_rest (SElf (path_of ex_q) false) VirtOffset [4098; 4100] s2)) =
    Ok [inl ([109; 97; 105; 110], 4096, 2); inl ([109; 97; 105; 110], 4096, 4)].
Proof.
  cbv zeta. split; [vm_compute; reflexivity|]. split; [|vm_compute; reflexivity].
  assert (E : fst (blaze_cache (kx_cache ex_w (kx_elf 4099)) (s_new true)) = Ok 0%Z) by (vm_compute; reflexivity).
  assert (He : ENotFound <> ENone) by discriminate.
  assert (Hs : fs_stat (w_fs ex_rest) (path_of ex_q) = Bad ENotFound) by (vm_compute; reflexivity).
  destruct (C87_again Checked ex_cf [] [] (kx_cache ex_w (kx_elf 4099)) (path_of ex_q) [] [] (kx_cache ex_rest (kx_elf 4099)) ENotFound
    (DoNil _ _) (proj1 (kx_wants _ _ ex_w)) E (DoNil _ _) (Forall_nil _) (proj1 (kx_wants _ _ ex_rest)) He Hs) as (_ & A).
  exact (A (kx_ask ex_w (kx_file 4099)) (kx_ask ex_rest (kx_file 4099)) _ _ (kx_asks _ _ ex_w) (kx_asks _ _ ex_rest) eq_refl).
Qed.
(** Mappings of a process that is gone, and of which no more are to be had *)
Example C87_process_example :
  let w := PropSymBatch.ex_process in
  let s := snd (blaze_cache (kx_vmas w (kx_proc 1)) demo_new) in
  wants (kx_vmas w (kx_proc 1)) (TProcess Slf true) /\
  fst (blaze_cache (kx_vmas w (kx_proc 1)) demo_new) = Ok 0%Z /\
  look_process w_exited s = Ok [inl ([98; 4592], 4592, 4); inr Unmapped] /\
  look_process w_exited demo_new = Err ENotFound /\
  blaze_cache (kx_vmas w_exited (kx_proc 1)) s = (Ok (-2)%Z, s) /\
  blaze_cache (kx_vmas w_exited (kx_proc 0)) s = (Ok 0%Z, s) /\
  blaze_cache (kx_vmas w_exited (le_bytes 8 8)) s = (Ok 0%Z, s).
Proof.
  cbv zeta. split.
  { exists (kx_proc 1). split; [kx_struct|]. split; [apply cx_known; [apply Nat.leb_le; vm_compute; reflexivity|vm_compute; reflexivity]|].
    apply (SfSelf _ _ (kx_proc 1) true); reflexivity. }
  repeat split; vm_compute; reflexivity.
Qed.

(** ** Not so *)

(** A program whose header does not have the path yet is not told so. *)
Theorem C87_null_refuted : exists (c : cache_call N N) l s, struct_at l (cc_src c) /\ unknown_zero (known (cc_fn c)) l /\
  reachable s /\ cc_mem c 0 = None /\ fst (blaze_cache c s) = Panic.
Proof.
  exists (kx_cache w_before (le_bytes 8 8)), (le_bytes 8 8), demo_new. split; [kx_struct|]. split.
  { intros i Hi. unfold byte. apply nth_overflow. cbn [kx_cache cc_fn known] in Hi. cbn. lia. }
  split; [apply demo_reachable|]. split; [reflexivity|]. vm_compute. reflexivity.
Qed.
Print Assumptions C87_null_refuted.
(** Caching a file may fail and yet have an effect: programs get to see what the
    file was from then on. *)
Theorem C87_failed_refuted : exists (c c1 c2 : cache_call N N) s, reachable s /\ wants c (TElf 3) /\
  fst (blaze_cache c s) = Ok (-2)%Z /\
  look w_later 3 s = Ok [inl ([6; 4192], 4192, 8)] /\
  look w_later 3 (snd (blaze_cache c s)) = Ok [inl ([5; 4192], 4192, 8)] /\
  (* and what was cached may not be used anymore *)
  wants c1 (TElf 3) /\ wants c2 (TElf 3) /\ fst (blaze_cache c1 s) = Ok 0%Z /\ fst (blaze_cache c2 (snd (blaze_cache c1 s))) = Ok (-22)%Z /\
  look w_broken 3 (snd (blaze_cache c1 s)) = Ok [inl ([5; 4192], 4192, 8)] /\
  look w_broken 3 (snd (blaze_cache c2 (snd (blaze_cache c1 s)))) = Err EInvalidData.
Proof.
  exists (kx_cache w_gone (kx_src 4118)), (kx_cache w_before (kx_src 4118)), (kx_cache w_broken (kx_src 4118)),
    (snd (symbolize Checked demo_config w_before (SElf 3 false) VirtOffset [4200] demo_new)).
  split. { apply (reachable_run [OSymbolize Checked demo_config w_before (SElf 3 false) VirtOffset [4200]] demo_new), demo_reachable. }
  split; [apply kx_wants|]. split; [vm_compute; reflexivity|]. split; [vm_compute; reflexivity|]. split; [vm_compute; reflexivity|].
  split; [apply kx_wants|]. split; [apply kx_wants|]. repeat split; vm_compute; reflexivity.
Qed.
Print Assumptions C87_failed_refuted.
