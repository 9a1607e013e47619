(** * C63: a [Normalizer] used for any number of calls *)

From Verif Require Import Base Util UtilProofs Amap Maps FileCache FileCacheProofs CacheViews Sym Symbolizer SymbolizerElf
  Normalize NormalizeProofs NormCache NormCacheSpec NormCacheProofs.
Local Open Scope N_scope.

Section C63.
  Context {File Sym : Type}.
  Notation call := (call File).

  (** Without caching of mappings, every call gives what it gives on its own,
      without any caches, in the world at that time. *)
  Theorem C63_uncached : forall (y : nsys File Sym) b (h : list call) c cf z, build b = (cf, z) ->
    b_cache_vmas b = false -> as_expected cf (h ++ [c]) ->
    fst (nz_call y cf c (nz_run y cf h z)) = let* src := of_outcome (mappings cf c) in alone y cf c src.
  Proof.
    intros y b h c cf z [= <- <-] Ev (Hh & (vs & ve & Hv) & Hb).
    apply (call_plain y _ (h ++ [c]) vs ve); auto; [|intros x Hx; exact Hx].
    cbn. destruct (b_build_ids b); auto.
  Qed.

  (** With caching of mappings, those are as they were when read first. *)
  Lemma reads_fun : forall cf (c : call) es es', reads cf c es -> reads cf c es' -> es = es'.
  Proof.
    intros cf c es es' H1 H2. apply (read_iff cf) in H1, H2. congruence.
  Qed.
  Lemma first_read_fun : forall cf (h : list call) p es es', first_read cf h p es -> first_read cf h p es' -> es = es'.
  Proof.
    intros cf h p es es' (h1 & c1 & t1 & E1 & P1 & R1 & N1) (h2 & c2 & t2 & E2 & P2 & R2 & N2).
    subst h. revert h2 E2 N1 N2. induction h1 as [|x h1 IH]; intros [|x2 h2] E2 N1 N2; cbn in E2; injection E2 as E E'.
    - subst c2. eapply reads_fun; eauto.
    - subst x2. exfalso. apply (N2 c1 (or_introl eq_refl) P1 es R1).
    - subst x. exfalso. apply (N1 c2 (or_introl eq_refl) P2 es' R2).
    - apply (IH h2); auto; intros c' Hc'; [apply N1|apply N2]; now right.
  Qed.
  Lemma first_none : forall cf (h : list call) p es, first_read cf h p es -> none_read cf h p -> False.
  Proof.
    intros cf h p es (h1 & c1 & t1 & -> & P1 & R1 & _) Hn. apply (Hn c1) with es; auto. apply in_or_app. right. now left.
  Qed.
  Theorem C63_vmas : forall (y : nsys File Sym) b (h : list call) c cf z, build b = (cf, z) ->
    b_cache_vmas b = true -> as_expected cf (h ++ [c]) ->
    let r := fst (nz_call y cf c (nz_run y cf h z)) in
    (forall es, first_read cf h (cl_pid c) es ->
       (b_procmap_query b = true -> exists src, mappings cf c = Good src) -> r = alone y cf c (Text (map Ok es))) /\
    (none_read cf h (cl_pid c) ->
       (forall es, reads cf c es -> r = alone y cf c (Text (map Ok es))) /\
       ((forall es, ~ reads cf c es) -> forall out, r <> Ok out)).
  Proof.
    intros y b h c cf z [= <- <-] Ev (Hh & (vs & ve & Hv) & Hb) r.
    set (cf := NConf _ _ _ _) in *.
    assert (Hcf : nc_cache_build_ids cf = true -> nc_build_ids cf = true) by (cbn; destruct (b_build_ids b); auto).
    pose proof (call_known y cf (h ++ [c]) vs ve Hcf Hh Hv Hb h c Ev (fun x Hx => Hx)) as E.
    assert (Hi : incl h (h ++ [c])) by (intros x Hx; apply in_or_app; now left).
    destruct (run_known y cf (h ++ [c]) vs ve Hcf Hh Hv Hb h Ev Hi) as [_ K].
    specialize (K (cl_pid c)). fold r in E. rewrite E. clear E r.
    destruct (aget pid_eqb (cl_pid c) (nz_entries (nz_run y cf h _))) as [es'|].
    - split.
      + intros es F Hm. rewrite <- (first_read_fun _ _ _ _ _ K F). unfold opened.
        destruct (nc_query cf) eqn:Eq; auto. destruct (Hm Eq) as [src ->]. reflexivity.
      + intros Hn. exfalso. eapply first_none; eauto.
    - split.
      + intros es F. exfalso. eapply first_none; eauto.
      + intros _. split.
        * intros es Hr. pose proof Hr as Er. apply (read_iff cf) in Er. rewrite Er.
          unfold opened. unfold reads in Hr. destruct (nc_query cf); auto. destruct (mappings cf c); [reflexivity|contradiction].
        * intros Hn out. destruct (read cf c) as [es|k| |] eqn:Er; [|destruct (opened cf c)..]; cbn; try discriminate.
          apply read_iff in Er. now apply Hn in Er.
  Qed.

  (** ** No files are used if neither build IDs nor members of archives are
      asked for. *)
  Definition with_files (f : fs File) (c : call) : call :=
    let w := cl_world c in
    Call (cl_mode c) (NWorld f (nw_text w) (nw_query w) (nw_own_vdso w)) (cl_pid c) (cl_opts c) (cl_fuel c) (cl_addrs c).
  Lemma handle_files : forall m (y : nsys File Sym) cf w f p o a e h, nc_build_ids cf = false -> co_apk_to_elf o = false ->
    nz_handle m y cf (NWorld f (nw_text w) (nw_query w) (nw_own_vdso w)) p o a e h = nz_handle m y cf w p o a e h.
  Proof.
    intros m y cf w f p o a e h Eb Ea. unfold nz_handle. rewrite Ea.
    destruct (let* d := sub64 m a (me_start e) in add64 m d (me_offset e)) as [off|k| |]; cbn [then_]; auto.
    destruct (me_path e) as [[x s|x]|]; auto.
    destruct (beq (extension s) str_apk || beq (extension s) str_zip); auto.
    unfold nz_add_offset. destruct (aget beq _ _); auto. destruct (me_build_id e); auto.
    unfold on_norm, nz_read_build_id. rewrite Eb. reflexivity.
  Qed.
  Lemma loop_ext : forall St (en : N -> St -> _) (g1 g2 : N -> maps_entry -> hnd File Sym -> res unit * hnd File Sym) fuel,
    (forall a e h, g1 a e h = g2 a e h) -> forall addrs prev e st h,
    nz_loop en g1 fuel addrs prev e st h = nz_loop en g2 fuel addrs prev e st h.
  Proof.
    intros St en g1 g2 fuel E. induction addrs as [|a addrs IH]; intros prev e st h; cbn [nz_loop]; auto.
    destruct (a <? prev); auto. destruct (find_entry en fuel a e st) as [[[b e'] st']|k| |]; cbn [then_]; auto.
    destruct (negb b || (a <? me_start e')); cbn [then_ add_out]; auto.
    rewrite E. destruct (g2 a e' h) as [[[]|k| |] h']; cbn [then_]; auto.
  Qed.
  Lemma impl_files : forall St (en : N -> St -> _) (y : nsys File Sym) cf f c addrs st z,
    nc_build_ids cf = false -> co_apk_to_elf (cl_opts c) = false ->
    nz_impl y cf (with_files f c) addrs en st z = nz_impl y cf c addrs en st z.
  Proof.
    intros St en y cf f c addrs st z Eb Ea. unfold nz_impl, nz_pass, with_files. cbn [cl_mode cl_world cl_pid cl_opts cl_fuel].
    destruct (en _ st) as [[[e|k| |]|] st']; cbn [then_]; auto.
    erewrite loop_ext; [reflexivity|]. intros a e' h. now apply handle_files.
  Qed.
  Lemma call_files : forall (y : nsys File Sym) cf f c z, nc_build_ids cf = false -> co_apk_to_elf (cl_opts c) = false ->
    nz_call y cf (with_files f c) z = nz_call y cf c z.
  Proof.
    intros y cf f c z Eb Ea.
    assert (E : forall addrs, nz_iter y cf (with_files f c) addrs z = nz_iter y cf c addrs z).
    { intros addrs. unfold nz_iter. cbn [with_files cl_world cl_pid nw_query nw_text cl_fuel].
      destruct (nc_query cf); [destruct (nw_query (cl_world c) (cl_pid c) (nc_build_ids cf))
                              |destruct (negb (nc_cache_vmas cf)); [destruct (nw_text (cl_world c) (cl_pid c))|]];
      cbn [of_outcome then_]; auto.
      - destruct (negb (nc_cache_vmas cf)); [now apply impl_files|].
        destruct (cached_entries _ _ z) as [[es|k| |] z']; cbn [then_]; auto. now apply impl_files.
      - now apply impl_files.
      - destruct (cached_entries _ _ z) as [[es|k| |] z']; cbn [then_]; auto. now apply impl_files. }
    unfold nz_call. cbn [with_files cl_opts cl_addrs]. now rewrite !E.
  Qed.
  Theorem C63_no_files : forall (y : nsys File Sym) b (h : list (call * fs File)) c f cf z, build b = (cf, z) ->
    b_build_ids b = false -> Forall (fun x => co_apk_to_elf (cl_opts (fst x)) = false) h ->
    co_apk_to_elf (cl_opts c) = false ->
    fst (nz_call y cf (with_files f c) (nz_run y cf (map (fun x => with_files (snd x) (fst x)) h) z)) =
    fst (nz_call y cf c (nz_run y cf (map fst h) z)).
  Proof.
    intros y b h c f cf z [= <- <-] Eb Hh Ec. set (cf := NConf _ _ _ _). set (z := Normalizer _ _ _ _).
    assert (E : forall z, nz_run y cf (map (fun x => with_files (snd x) (fst x)) h) z = nz_run y cf (map fst h) z).
    { induction Hh as [|x h Hx Hh IH]; intros z0; cbn; auto. rewrite call_files; auto. apply IH. }
    rewrite E. f_equal. now apply call_files.
  Qed.
End C63.

(** ** Examples *)
Section C63Demo.
  Definition meta (n : N) := FileMeta 1 n 100 0 0.
  (** A file system with one file's identity and contents *)
  Definition files (id content : N) : fs N := Fs (fun _ => Good (meta id)) (fun _ => Good content).
  (** Contents determine build ID and members. *)
  Definition ar (f : N) : archive := Archive [Good ([115; 111], 4096, 4096)] (fun _ _ => Good (Some [f; f])).
  Definition sys : nsys N N :=
    NSys (fun f => Good (Some [f])) (fun f => Good (ar f))
      (fun s e => Vdso (fun off => Ok (Some off)) (fun a => Ok (inl (s + a)))).
  Definition lib : maps_entry := MapsEntry 4096 8192 5 0 (Some (PPath [1] [47; 97])) None.
  Definition apk : maps_entry := MapsEntry 8192 16384 5 0 (Some (PPath [2] [47; 98; 46; 97; 112; 107])) None.
  Definition vd : maps_entry := MapsEntry 20480 24576 5 0 (Some (PComponent str_vdso)) None.
  Definition world (f : fs N) (es : list maps_entry) : nworld N :=
    NWorld f (fun _ => Good (map Ok es)) 
      (fun _ _ => Good (fun a => Ok (find (fun e => a <? me_end e) es))) (Good (Some (65536, 69632))).
  Definition gone : nworld N :=
    NWorld (files 1 7) (fun _ => Bad ENotFound) (fun _ _ => Bad ENotFound) (Good (Some (65536, 69632))).
  Definition ask (w : nworld N) (addrs : list N) : call N := Call Checked w (Pid 7) (COpts false false true) 9 addrs.
  Definition out {A B} (x : res A * B) := fst x.

  (** The file [/a] is replaced: with and without caching, the build ID is
      that of the file at the time of the call; and in the archive as well. *)
  Definition caching := Builder false false true true.
  Example C63_uncached_ex1 :
    let '(cf, z) := build caching in
    let h := [ask (world (files 1 7) [lib; apk; vd]) [4097; 12289; 20481]] in
    let c := ask (world (files 2 8) [lib; apk; vd]) [12289; 20481; 4097] in
    as_expected cf (h ++ [c]) /\
    out (nz_call sys cf c (nz_run sys cf h z)) =
      Ok (UOutput [(1, 1%nat); (1, 2%nat); (1, 0%nat)]
            [UElf [47; 97] (Some [8]); UElf [47; 98; 46; 97; 112; 107; 33; 47; 115; 111] (Some [8; 8]); USym 65537]) /\
    out (nz_call sys cf (hd c h) z) =
      Ok (UOutput [(1, 0%nat); (1, 1%nat); (1, 2%nat)]
            [UElf [47; 97] (Some [7]); UElf [47; 98; 46; 97; 112; 107; 33; 47; 115; 111] (Some [7; 7]); USym 65537]).
  Proof.
    cbn [build caching]. split; [|split; vm_compute; reflexivity].
    split; [intros _; split|split].
    - intros c c' p p' m [<-|[<-|[]]] [<-|[<-|[]]]; cbn; intros [= <-] E; reflexivity || discriminate.
    - intros c p k [<-|[<-|[]]]; discriminate.
    - exists 65536, 69632. split; [intros c [<-|[<-|[]]]; reflexivity|intros c e [<-|[<-|[]]]; discriminate].
    - intros c e [<-|[<-|[]]]; cbn; intros [[= <-]|[[= <-]|[[= <-]|[]]]]; reflexivity.
  Qed.

  (** The mapping of [/a] goes away, as does the process, but is known. *)
  Definition vmas := Builder false true true false.
  Example C63_vmas_ex :
    let '(cf, z) := build vmas in
    let h := [ask (world (files 1 7) [lib]) [4097]] in
    first_read cf h (Pid 7) [lib] /\
    out (nz_call sys cf (ask gone [4098]) (nz_run sys cf h z)) = Ok (UOutput [(2, 0%nat)] [UElf [47; 97] (Some [7])]) /\
    out (nz_call sys cf (ask gone [4098]) z) = Err ENotFound.
  Proof.
    cbn [build vmas]. split; [|split; vm_compute; reflexivity].
    exists [], (ask (world (files 1 7) [lib]) [4097]), []. repeat split. intros c' [].
  Qed.

  Example C63_no_files_ex :
    let '(cf, z) := build (Builder false false false true) in
    let c f := Call Checked (world f [lib; apk]) Slf (COpts true false false) 9 [4097; 12289] in
    out (nz_call sys cf (c (files 1 7)) z) = out (nz_call sys cf (c (Fs (fun _ => Bad ENotFound) (fun _ => Bad ENotFound))) z) /\
    out (nz_call sys cf (c (files 1 7)) z) =
      Ok (UOutput [(1, 0%nat); (4097, 1%nat)] [UElf [47; 97] None; UApk [47; 98; 46; 97; 112; 107]]).
  Proof. split; vm_compute; reflexivity. Qed.

  (** ** What does not hold *)

  (** With queries, known mappings are of no use once the process is gone. *)
  Theorem C63_exited_refuted : exists (y : nsys N N) b (h : list (call N)) c es cf z,
    build b = (cf, z) /\ b_cache_vmas b = true /\ as_expected cf (h ++ [c]) /\
    first_read cf h (cl_pid c) es /\ (exists x, alone y cf c (Text (map Ok es)) = Ok x) /\
    fst (nz_call y cf c (nz_run y cf h z)) = Err ENotFound.
  Proof.
    exists sys, (Builder true true true false), [ask (world (files 1 7) [lib]) [4097]], (ask gone [4098]), [lib].
    eexists. eexists. split; [reflexivity|]. split; [reflexivity|]. split; [|split; [|split]].
    - split; [intros _; split|split].
      + intros c c' p p' m [<-|[<-|[]]] [<-|[<-|[]]]; cbn; intros [= <-] E; reflexivity || discriminate.
      + intros c p k [<-|[<-|[]]]; discriminate.
      + exists 65536, 69632. split; [intros c [<-|[<-|[]]]; reflexivity|intros c e [<-|[<-|[]]]; discriminate].
      + intros c e [<-|[<-|[]]]; cbn; [|contradiction]. intros (a & E) (f & s & E' & D).
        destruct (a <? 8192); [|discriminate]. injection E as <-. cbn in E'. injection E' as <- <-.
        destruct D; discriminate.
    - exists [], (ask (world (files 1 7) [lib]) [4097]), []. split; [reflexivity|]. split; [reflexivity|].
      split; [|intros c' []]. exists [lib]. split; [|split; [reflexivity|cbn; lia]].
      apply WNext; [reflexivity|]. now apply WEnd.
    - eexists. vm_compute. reflexivity.
    - vm_compute. reflexivity.
  Qed.

  (** With mappings cached, a line that makes no sense is a problem for all
      addresses, whereas otherwise only for those past it. *)
  Theorem C63_lines_refuted : exists (y : nsys N N) (c : call N) out,
    as_expected (fst (@build N N (Builder false false true false))) [c] /\
    fst (nz_call y (fst (@build N N (Builder false false true false))) c (snd (build (Builder false false true false)))) = Ok out /\
    fst (nz_call y (fst (@build N N (Builder false true true false))) c (snd (build (Builder false true true false)))) = Err EInvalidData.
  Proof.
    exists sys, (ask (NWorld (files 1 7) (fun _ => Good [Ok lib; Err EInvalidData]) (fun _ _ => Bad ENotFound)
                        (Good (Some (65536, 69632)))) [4097]).
    eexists. split; [|split; vm_compute; reflexivity].
    split; [intros _; split|split].
    - intros c c' p p' m [<-|[]] [<-|[]]; cbn; intros [= <-] E; reflexivity || discriminate.
    - intros c p k [<-|[]]; discriminate.
    - exists 65536, 69632. split; [intros c [<-|[]]; reflexivity|intros c e [<-|[]]; discriminate].
    - intros c e [<-|[]]; cbn; intros [[= <-]|[[=]|[]]]; reflexivity.
  Qed.

  (** A file changed without its identity changing: the build ID reported with
      caching is one that the file does not have, nor is it what is reported
      without caching. *)
  Theorem C63_identity_refuted : exists (y : nsys N N) (h : list (call N)) c p,
    fst (nz_call y (fst (@build N N builder_default)) c
           (nz_run y (fst (@build N N builder_default)) h (snd (build builder_default)))) =
      Ok (UOutput [(1, 0%nat)] [UElf p (Some [8])]) /\
    nv_build_id (uncached y (cl_world c) (cl_pid c)) p = Good (Some [8]) /\
    fst (nz_call y (fst (@build N N caching)) c (nz_run y (fst (@build N N caching)) h (snd (build caching)))) =
      Ok (UOutput [(1, 0%nat)] [UElf p (Some [7])]).
  Proof.
    exists sys, [ask (world (files 1 7) [lib]) [4097]], (ask (world (files 1 8) [lib]) [4097]), [47; 97].
    split; [|split]; vm_compute; reflexivity.
  Qed.

  (** Members of archives are as they were even without caching of build
      IDs. *)
  Theorem C63_archive_refuted : exists (y : nsys N N) (h : list (call N)) c p out out',
    let '(cf, z) := build builder_default in
    fst (nz_call y cf c (nz_run y cf h z)) = Ok out /\ uo_meta out = [UElf p (Some [7; 7])] /\
    fst (nz_call y cf c z) = Ok out' /\ uo_meta out' = [UElf p (Some [8; 8])].
  Proof.
    exists sys, [ask (world (files 1 7) [apk]) [12289]], (ask (world (files 1 8) [apk]) [12289]),
      [47; 98; 46; 97; 112; 107; 33; 47; 115; 111].
    eexists. eexists. cbn [build builder_default]. repeat split; vm_compute; reflexivity.
  Qed.

  (** The vDSO of another process is never looked at: symbols are those of our
      own, wherever and whatever that of the process may be. *)
  Theorem C63_other_vdso_refuted : exists (y : nsys N N) (c : call N) e out,
    let '(cf, z) := build builder_default in
    as_expected cf [c] /\ cl_pid c = Pid 7 /\ reports cf c e /\ is_vdso e /\ In 20481 (cl_addrs c) /\
    vd_symbolize (ny_vdso y (me_start e) (me_end e)) (20481 - me_start e) = Ok (inl 20481) /\
    fst (nz_call y cf c z) = Ok out /\ uo_meta out = [USym 65537].
  Proof.
    exists sys, (ask (world (files 1 7) [vd]) [20481]), vd. eexists. cbn [build builder_default].
    split; [|repeat split; vm_compute; auto].
    split; [intros _; split|split].
    - intros c c' p p' m [<-|[]] [<-|[]]; cbn; intros [= <-] E; reflexivity || discriminate.
    - intros c p k [<-|[]]; discriminate.
    - exists 65536, 69632. split; [intros c [<-|[]]; reflexivity|intros c e [<-|[]]; discriminate].
    - intros c e [<-|[]]; cbn; intros [[= <-]|[]]; reflexivity.
  Qed.

  (** Debug builds abort if there is a build ID for a file that is an archive
      by its name. *)
  Theorem C63_named_refuted : exists (y : nsys N N) (c : call N) out,
    let '(cf, z) := build (Builder true false true false) in
    (exists e, reports cf c e /\ is_archive e /\ me_build_id e = Some [1]) /\
    fst (nz_call y cf c z) = Panic /\
    fst (nz_call y cf (Call Wrapping (cl_world c) (cl_pid c) (cl_opts c) (cl_fuel c) (cl_addrs c)) z) = Ok out.
  Proof.
    pose (e := MapsEntry 8192 16384 5 0 (Some (PPath [2] [47; 98; 46; 97; 112; 107])) (Some [1])).
    exists sys, (ask (world (files 1 7) [e]) [12289]). eexists. cbn [build].
    split; [|split; vm_compute; reflexivity]. exists e. split; [exists 8192; reflexivity|]. split; [|reflexivity].
    exists [2], [47; 98; 46; 97; 112; 107]. split; [reflexivity|]. left. reflexivity.
  Qed.
End C63Demo.

Print Assumptions C63_uncached.
Print Assumptions C63_vmas.
Print Assumptions C63_no_files.
Print Assumptions C63_exited_refuted.
Print Assumptions C63_lines_refuted.
Print Assumptions C63_identity_refuted.
Print Assumptions C63_archive_refuted.
Print Assumptions C63_other_vdso_refuted.
Print Assumptions C63_named_refuted.
