(** * Kernel addresses: what was looked up before makes no difference *)

From Coq Require Import String.
From Verif Require Import Base Util Amap Nom Sym Inspect ModMap Depmod Kaslr FileCache FileCacheProofs CacheViews Symbolizer
  SymbolizerElf HistorySpec HistoryProofs Kernel KernelCache KernelCacheSpec.
Local Close Scope string_scope.
Local Open Scope N_scope.

Section History.
  Context {File Parser : Type}.
  Notation kworld := (kworld File Parser).
  Notation kcall := (kcall File Parser).
  Notation kcache := (kcache File Parser).
  Variable load_ksym : File -> path -> outcome Symbolizer.resolver.
  Variable h : list kcall.
  Hypothesis HH : still load_ksym h.
  Let W := files_of h.

  Definition default_zero (o : option N) : N := match o with Some v => v | None => 0 end.
  Record good (c : kcache) : Prop := GoodCache {
    g_elf : good_elf W (fun p r => reads_image h p r true) (any_image h) (kc_elf c);
    g_ksym : good_files W (reads_list h) (fun _ => load_ksym) (kc_ksym c);
    g_modmap : forall l, kc_modmap c = Some l -> exists w, looking h w /\ kw_modules w = Ok l;
    g_depmod : forall l, kc_depmod c = Some l -> exists w, looking h w /\ kw_depmod w = Ok l;
    g_kaslr : forall v, kc_kaslr c = Some v -> exists x o, In x h /\ slides load_ksym x (Ok o) /\ v = default_zero o
  }.
  Lemma good_new : forall b, good (kc_new b).
  Proof. intros b. constructor; simpl; try discriminate; [apply good_elf_new|apply good_files_new]. Qed.

  (** [f] has this result in all such states. *)
  Definition gives {A} (f : kcache -> res A * kcache) (v : res A) : Prop :=
    forall c, good c -> fst (f c) = v /\ good (snd (f c)).
  Lemma gives_ret : forall A (v : res A), gives (fun c => (v, c)) v.
  Proof. intros A v c G. auto. Qed.
  Lemma gives_then : forall A B f v (g : A -> kcache -> res B * kcache) u,
    gives f v -> (forall a, v = Ok a -> gives (g a) (u a)) -> gives (fun c => then_ (f c) g) (bind v u).
  Proof.
    intros A B f v g u Hf Hg c G. destruct (Hf c G) as [E G']. destruct (f c) as [r c']. cbn [fst snd] in *. subst r.
    destruct v as [a|k| |]; cbn [then_ bind]; auto. now apply Hg.
  Qed.
  Lemma gives_eq : forall A (f : kcache -> res A * kcache) v v', gives f v -> v = v' -> gives f v'.
  Proof. intros A f v v' H <-. exact H. Qed.

  Lemma gives_elf : forall w p r d, W (kw_files w) -> reads_image h p r d ->
    gives (kc_elf_resolver w p r d) (elf_alone (kw_files w) p r d).
  Proof.
    intros w p r d Hw Hr c G. unfold kc_elf_resolver. destruct (elf_resolver (kw_files w) p r d (kc_elf c)) as [x e] eqn:E.
    destruct (elf_resolver_alone W _ _ (st_images _ h HH) (kw_files w) p r d (kc_elf c) x e Hw (AiFile h p r d Hr)
      ltac:(intros ->; exact Hr) (g_elf c G) E) as [<- Ge]. cbn [fst snd].
    split; auto. constructor; simpl; try apply G; auto.
  Qed.
  Lemma gives_ksym : forall w p, W (kw_files w) -> reads_list h p p ->
    gives (kc_ksym_resolver load_ksym w p) (file_alone (kw_files w) load_ksym p).
  Proof.
    intros w p Hw Hr c G. unfold kc_ksym_resolver. destruct (file_resolver (kw_files w) load_ksym p (kc_ksym c)) as [x k] eqn:E.
    destruct (file_resolver_alone W (reads_list h) (fun _ => load_ksym) (fun _ _ _ _ => eq_refl) (st_lists _ h HH)
      (kw_files w) p (kc_ksym c) x k Hw Hr (g_ksym c G) E) as [-> Gk]. cbn [fst snd].
    split; auto. constructor; simpl; try apply G; auto.
  Qed.
  Lemma gives_modmap : forall w, looking h w -> gives (kc_get_modmap w) (kw_modules w).
  Proof.
    intros w Hw c G. unfold kc_get_modmap, get_or_try_init. destruct (kc_modmap c) as [l|] eqn:E; cbn [fst snd].
    - destruct (g_modmap c G l E) as (w0 & Hw0 & E0). split; [now rewrite (st_modules _ h HH w w0)|].
      constructor; simpl; try apply G. intros l' [= <-]. eauto.
    - destruct (kw_modules w) as [l|k| |] eqn:Em; cbn [fst snd]; (split; [reflexivity|]); constructor; simpl; try apply G;
        try discriminate. intros l' [= <-]. eauto.
  Qed.
  Lemma gives_depmod : forall w, looking h w -> gives (kc_get_depmod w) (kw_depmod w).
  Proof.
    intros w Hw c G. unfold kc_get_depmod, get_or_try_init. destruct (kc_depmod c) as [l|] eqn:E; cbn [fst snd].
    - destruct (g_depmod c G l E) as (w0 & Hw0 & E0). split; [now rewrite (st_depmod _ h HH w w0)|].
      constructor; simpl; try apply G. intros l' [= <-]. eauto.
    - destruct (kw_depmod w) as [l|k| |] eqn:Em; cbn [fst snd]; (split; [reflexivity|]); constructor; simpl; try apply G;
        try discriminate. intros l' [= <-]. eauto.
  Qed.
  Lemma gives_kaslr : forall x k v, In x h -> kl_offset x = None ->
    open_ksym (new_env load_ksym (kl_world x)) (kl_kallsyms x) = Ok (option_map both k) ->
    open_vmlinux (new_env load_ksym (kl_world x)) (kl_vmlinux x) (kl_debug x) = Ok (Some (both v)) ->
    gives (kc_kaslr_offset (kl_mode x) (kl_world x) k (Some v))
      (let* o := find_kaslr_offset (kl_mode x) (kw_kcore (kl_world x)) (option_map inspect_of k) (Some (inspect_of v)) in
       Ok (default_zero o)).
  Proof.
    intros x k v Hx Ho Ek Ev c G. unfold kc_kaslr_offset, get_or_try_init. fold default_zero.
    assert (S : slides load_ksym x (find_kaslr_offset (kl_mode x) (kw_kcore (kl_world x)) (option_map inspect_of k) (Some (inspect_of v)))).
    { split; auto. exists (option_map both k), (both v). split; auto. split; auto. destruct k; reflexivity. }
    change (option_map inspect_of (Some v)) with (Some (inspect_of v)).
    destruct (kc_kaslr c) as [o|] eqn:E; cbn [fst snd].
    - destruct (g_kaslr c G o E) as (x0 & o0 & Hx0 & S0 & ->).
      rewrite (st_slide _ h HH x x0 _ _ Hx Hx0 S S0). split; auto.
      constructor; simpl; try apply G. intros l' [= <-]. eauto.
    - destruct (find_kaslr_offset _ _ _ _) as [o|e| |] eqn:Em; cbn [fst snd bind]; (split; [reflexivity|]); constructor; simpl; try apply G;
        try discriminate. intros l' [= <-]. exists x, o. auto.
  Qed.
  Lemma gives_caught : forall A (f : kcache -> res A * kcache) v, gives f v -> gives (fun c => caught (f c)) (catch v).
  Proof.
    intros A f v Hf c G. destruct (Hf c G) as [E G']. unfold caught. destruct (f c) as [r c']. cbn [fst snd] in *. subst r.
    destruct v; auto.
  Qed.

  Lemma asking : forall x, In x h -> W (kw_files (kl_world x)).
  Proof. intros x Hx. exists (kl_world x). split; auto. left. eauto. Qed.
  Lemma looking_files : forall w, looking h w -> W (kw_files w).
  Proof. intros w Hw. exists w. auto. Qed.

  (** ** New resolvers *)
  Definition ksym_alone (x : kcall) : res (option Symbolizer.resolver) :=
    let read p := file_alone (kw_files (kl_world x)) load_ksym (path_of p) in
    match kl_kallsyms x with
    | MSome p => let* r := read p in Ok (Some r)
    | MDefault => catch (read default_kallsyms)
    | MNone => Ok None
    end.
  Lemma ksym_alone_env : forall x, open_ksym (new_env load_ksym (kl_world x)) (kl_kallsyms x) =
    let* k := ksym_alone x in Ok (option_map both k).
  Proof.
    intros x. unfold open_ksym, ksym_alone. destruct (kl_kallsyms x) as [| |p]; cbn [new_env ne_ksym]; auto.
    - now destruct (file_alone _ load_ksym _).
    - now destruct (file_alone _ load_ksym _).
  Qed.
  Lemma gives_new_ksym : forall x, In x h -> gives (new_ksym load_ksym (kl_world x) (kl_kallsyms x)) (ksym_alone x).
  Proof.
    intros x Hx. pose proof (asking x Hx) as Hw. unfold new_ksym, ksym_alone. destruct (kl_kallsyms x) as [| |p] eqn:E.
    - apply gives_ret.
    - apply gives_caught, gives_ksym; auto. split; auto. exists x, default_kallsyms. auto.
    - apply gives_then; [|intros; apply gives_ret]. apply gives_ksym; auto. split; auto. exists x, p. auto.
  Qed.
  Definition vmlinux_alone (x : kcall) : res (option Symbolizer.resolver) :=
    let w := kl_world x in
    let read p := elf_alone (kw_files w) (path_of p) (path_of p) (kl_debug x) in
    match kl_vmlinux x with
    | MSome p => let* r := read p in Ok (Some r)
    | MDefault =>
        let* release := kw_release w in
        let name := bs "vmlinux-"%string ++ release in
        if kw_exists w (path_join (bs "/boot/"%string) name) then catch (read (path_join (bs "/boot/"%string) name))
        else if kw_exists w (path_join (bs "/usr/lib/debug/boot/"%string) name)
        then catch (read (path_join (bs "/usr/lib/debug/boot/"%string) name))
        else Ok None
    | MNone => Ok None
    end.
  Lemma vmlinux_alone_env : forall x, open_vmlinux (new_env load_ksym (kl_world x)) (kl_vmlinux x) (kl_debug x) =
    let* v := vmlinux_alone x in Ok (option_map both v).
  Proof.
    intros x. unfold open_vmlinux, vmlinux_alone. destruct (kl_vmlinux x) as [| |p]; cbn [new_env ne_elf ne_release ne_exists]; auto.
    - destruct (kw_release (kl_world x)) as [rel|k| |]; cbn [bind]; auto. unfold vmlinux_dirs. cbn [map find].
      destruct (kw_exists _ _); [now destruct (elf_alone _ _ _ _)|].
      destruct (kw_exists _ _); [now destruct (elf_alone _ _ _ _)|]. reflexivity.
    - now destruct (elf_alone _ _ _ _).
  Qed.
  Lemma gives_new_vmlinux : forall x, In x h -> gives (new_vmlinux (kl_world x) (kl_vmlinux x) (kl_debug x)) (vmlinux_alone x).
  Proof.
    intros x Hx. pose proof (asking x Hx) as Hw. unfold new_vmlinux, vmlinux_alone. destruct (kl_vmlinux x) as [| |p] eqn:E.
    - apply gives_ret.
    - apply gives_then; [apply gives_ret|]. intros rel Er.
      destruct (kw_exists (kl_world x) (path_join (bs "/boot/"%string) _)) eqn:E1.
      + apply gives_caught, gives_elf; auto. eapply RiDefault; eauto. left. reflexivity.
      + destruct (kw_exists (kl_world x) (path_join (bs "/usr/lib/debug/boot/"%string) _)) eqn:E2; [|apply gives_ret].
        apply gives_caught, gives_elf; auto. eapply RiDefault; eauto. right. left. reflexivity.
    - apply gives_then; [|intros; apply gives_ret]. apply gives_elf; auto. now apply RiGiven.
  Qed.
  Lemma gives_new : forall x, In x h ->
    gives (kr_new load_ksym (kl_mode x) (kl_world x) (kl_kallsyms x) (kl_vmlinux x) (kl_offset x) (kl_debug x))
      (fst (kernel_new (kl_mode x) (new_env load_ksym (kl_world x)) None (kl_kallsyms x) (kl_vmlinux x) (kl_offset x) (kl_debug x))).
  Proof.
    intros x Hx. unfold kr_new. eapply gives_eq.
    - apply gives_then with (u := fun k => let* v := vmlinux_alone x in
        match k, v with
        | None, None => Err ENotFound
        | _, _ =>
            let* o := match kl_offset x, v with
                      | Some o, _ => Ok o
                      | None, Some v => let* o := find_kaslr_offset (kl_mode x) (kw_kcore (kl_world x)) (option_map inspect_of k)
                                                    (Some (inspect_of v)) in Ok (default_zero o)
                      | None, None => Ok 0
                      end in
            Ok (Kernel (option_map r_find k) (option_map r_find v) o (kl_debug x))
        end); [now apply gives_new_ksym|].
      intros k Ek. apply gives_then; [now apply gives_new_vmlinux|]. intros v Ev.
      assert (K : gives (fun c => match kl_offset x, v with
                 | Some o, _ => (Ok o, c)
                 | None, Some _ => kc_kaslr_offset (kl_mode x) (kl_world x) k v c
                 | None, None => (Ok 0, c)
                 end) (match kl_offset x, v with
                      | Some o, _ => Ok o
                      | None, Some v => let* o := find_kaslr_offset (kl_mode x) (kw_kcore (kl_world x)) (option_map inspect_of k)
                                                    (Some (inspect_of v)) in Ok (default_zero o)
                      | None, None => Ok 0
                      end)).
      { destruct (kl_offset x) as [o|] eqn:Eo; [apply gives_ret|]. destruct v as [v|]; [|apply gives_ret].
        apply gives_kaslr; auto.
        - rewrite ksym_alone_env, Ek. reflexivity.
        - rewrite vmlinux_alone_env, Ev. reflexivity. }
      destruct k as [k|]; [|destruct v as [v|]; [|apply gives_ret]]; (apply gives_then; [exact K|intros; apply gives_ret]).
    - unfold kernel_new. rewrite ksym_alone_env, vmlinux_alone_env.
      destruct (ksym_alone x) as [k|e| |]; cbn [bind]; auto. destruct (vmlinux_alone x) as [v|e| |]; cbn [bind fst]; auto.
      unfold kaslr_offset, get_or_try_init. fold default_zero.
      destruct k as [k|]; destruct v as [v|]; cbn [option_map bind fst is_some]; auto;
        destruct (kl_offset x) as [o|]; cbn [bind fst both snd]; auto;
        destruct (find_kaslr_offset _ _ _ _) as [[o|]|e| |]; reflexivity.
  Qed.

  (** ** Lookups *)
  Definition is_packed (ext : list N) : bool := beq ext (bs "gz"%string) || beq ext (bs "xz"%string) || beq ext (bs "zstd"%string).
  Lemma is_packed_ok : forall ext, is_packed ext = true <-> packed ext.
  Proof.
    intros ext. unfold is_packed, packed. rewrite !orb_true_iff, !beq_eq. tauto.
  Qed.
  Definition module_at (w : kworld) (mod_path : list N) : res (path * path) :=
    match split_extension mod_path with
    | Some (rep, ext) =>
        if is_packed ext then let* tmp := kw_unpack w ext mod_path in Ok (tmp, path_of rep)
        else Ok (path_of mod_path, path_of mod_path)
    | None => Ok (path_of mod_path, path_of mod_path)
    end.
  Lemma module_at_ok : forall w mod_path, module_file w mod_path (module_at w mod_path).
  Proof.
    intros w q. unfold module_at. destruct (split_extension q) as [[rep ext]|] eqn:E.
    - destruct (is_packed ext) eqn:P.
      + eapply MfPacked; eauto. now apply is_packed_ok.
      + apply MfPlain. intros rep' ext' E'. rewrite E in E'. injection E' as <- <-. rewrite <- is_packed_ok. congruence.
    - apply MfPlain. congruence.
  Qed.
  Lemma module_at_only : forall w mod_path f, module_file w mod_path f -> f = module_at w mod_path.
  Proof.
    intros w q f [Hn|rep ext E P]; unfold module_at.
    - destruct (split_extension q) as [[rep ext]|] eqn:E; auto. destruct (is_packed ext) eqn:P; auto.
      apply is_packed_ok in P. destruct (Hn _ _ eq_refl P).
    - rewrite E. apply is_packed_ok in P. now rewrite P.
  Qed.
  Definition module_alone (w : kworld) (debug : bool) (mod_path : list N) : res Symbolizer.resolver :=
    let* '(p, r) := module_at w mod_path in elf_alone (kw_files w) p r debug.
  Lemma gives_module : forall w q debug, looking h w ->
    (forall p r, module_at w q = Ok (p, r) -> reads_image h p r debug) ->
    gives (kr_module w q debug) (module_alone w debug q).
  Proof.
    intros w q debug Hw Hr. apply looking_files in Hw. unfold kr_module, module_alone, module_at in *. fold is_packed.
    destruct (split_extension q) as [[rep ext]|].
    - fold (is_packed ext). destruct (is_packed ext).
      + eapply gives_eq.
        * apply gives_then; [apply gives_ret|]. intros tmp Et. apply gives_elf; auto. apply Hr. now rewrite Et.
        * now destruct (kw_unpack w ext q).
      + apply gives_elf; auto.
    - apply gives_elf; auto.
  Qed.
  Lemma gives_find : forall x w k addr, In x h -> In (w, addr) (kl_addrs x) -> kr_debug_syms k = kl_debug x ->
    gives (kr_find_sym (kl_mode x) w k addr (kl_opts x))
      (find_with (kl_mode x) (kw_modules w) (kw_depmod w)
        (fun q => let* r := module_alone w (kl_debug x) q in Ok (r_find r)) k addr (kl_opts x)).
  Proof.
    intros x w k addr Hx Ha Hd. assert (Hw : looking h w) by (exists x, addr; auto).
    unfold kr_find_sym, find_with. rewrite Hd. destruct (kr_vmlinux k) as [vm|]; [|destruct (kr_ksym k); apply gives_ret].
    apply gives_then; [now apply gives_modmap|]. intros modules Em.
    apply gives_then; [apply gives_ret|]. intros [[name base]|rs] Ef.
    - eapply gives_eq.
      + apply gives_then with (u := fun di => let '(dir, index) := di in
          let* q := find_path (kl_mode x) dir index name in
          match q with
          | Some q =>
              let* r := module_alone w (kl_debug x) q in
              let* a := of_option EInvalidInput (checked_sub addr base) in
              let* y := r_find r a (kl_opts x) in
              match y with inl s => Ok (inl s) | inr _ => Ok (inr UnknownAddr) end
          | None => Ok (inr UnknownAddr)
          end); [now apply gives_depmod|].
        intros [dir index] Ed. apply gives_then; [apply gives_ret|]. intros [q|] Eq; [|apply gives_ret].
        apply gives_then.
        * apply gives_module; auto. intros p r E. eapply RiModule; eauto. rewrite <- E. apply module_at_ok.
        * intros r Er. apply gives_then; [apply gives_ret|]. intros a Ea. apply gives_then; [apply gives_ret|].
          intros [s|rs] Es; apply gives_ret.
      + destruct (kw_depmod w) as [[dir index]|e| |]; cbn [bind]; auto. destruct (find_path _ _ _ _) as [[q|]|e| |]; cbn [bind]; auto.
        now destruct (module_alone w (kl_debug x) q).
    - apply gives_then; [apply gives_ret|]. intros va Ea. apply gives_then; [apply gives_ret|].
      intros [s|rs'] Es.
      + destruct (rs_size s); [apply gives_ret|]. destruct (kr_ksym k) as [ks|]; [|apply gives_ret].
        destruct (ks addr (kl_opts x)) as [[s'|r']|e| |]; apply gives_ret.
      + destruct (kr_ksym k); apply gives_ret.
  Qed.
  Lemma new_debug : forall m e cell a b o d k, fst (kernel_new m e cell a b o d) = Ok k -> kr_debug_syms k = d.
  Proof.
    intros m e cell a b o d k. unfold kernel_new.
    destruct (let* k0 := open_ksym e a in let* v := open_vmlinux e b d in match k0, v with None, None => Err ENotFound | _, _ => Ok (k0, v) end)
      as [[k0 v]|x| |]; try discriminate.
    destruct o as [o|]; [intros [= <-]; auto|]. destruct (is_some v); [|intros [= <-]; auto].
    destruct (kaslr_offset _ _ _ _ _) as [[o|x| |] c]; cbn [bind fst]; try discriminate. intros [= <-]. auto.
  Qed.
  Lemma call_ok : forall x c, In x h -> good c ->
    call_alone load_ksym x (fst (kr_call load_ksym x c)) /\ good (snd (kr_call load_ksym x c)).
  Proof.
    intros x c Hx G. unfold kr_call, call_alone. pose proof (gives_new x Hx c G) as [E G1].
    destruct (kr_new load_ksym _ _ _ _ _ _ c) as [r c1]. cbn [fst snd] in *.
    rewrite <- E. destruct r as [k|e| |]; cbn [then_]; auto.
    pose proof (new_debug _ _ _ _ _ _ _ _ (eq_sym E)) as Hd. clear E G c.
    assert (X : forall l c, incl l (kl_addrs x) -> good c ->
      Forall2 (fun wa r => finds_alone (kl_mode x) (fst wa) k (snd wa) (kl_opts x) r) l
        (fst (kr_finds (kl_mode x) k (kl_opts x) l c)) /\ good (snd (kr_finds (kl_mode x) k (kl_opts x) l c))).
    { induction l as [|[w a] l IH]; intros c Hl G; cbn [kr_finds fst snd]; [auto|].
      pose proof (gives_find x w k a Hx (Hl _ (or_introl eq_refl)) Hd c G) as [F G2].
      destruct (kr_find_sym (kl_mode x) w k a (kl_opts x) c) as [r c2]. cbn [fst snd] in *. subst r.
      destruct (IH c2 (fun y Hy => Hl y (or_intror Hy)) G2) as [F3 G3].
      destruct (kr_finds (kl_mode x) k (kl_opts x) l c2) as [rs c3]. cbn [fst snd] in *. split; auto. constructor; auto. cbn [fst snd].
      exists (fun q => let* r := module_alone w (kl_debug x) q in Ok (r_find r)). split; auto.
      intros q f Hf. apply module_at_only in Hf. subst f. unfold module_alone. rewrite Hd. now destruct (module_at _ q) as [[p r]|e| |]. }
    destruct (X (kl_addrs x) c1 (incl_refl _) G1) as [X1 X2].
    destruct (kr_finds (kl_mode x) k (kl_opts x) (kl_addrs x) c1) as [rs c2]. cbn [fst snd] in *. split; eauto.
  Qed.
  Lemma run_good : forall h' c, incl h' h -> good c -> good (kr_run load_ksym h' c).
  Proof.
    induction h' as [|x h' IH]; intros c Hi G; auto. cbn [kr_run fold_left]. apply IH.
    - intros y Hy. apply Hi. now right.
    - apply call_ok; auto. apply Hi. now left.
  Qed.
End History.
