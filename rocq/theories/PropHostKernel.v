(** * C76: kernel addresses, from the contents of files *)

From Coq Require Import String Permutation.
From Verif Require Import Base Util UtilProofs Bytes Amap Nom Text Num Sym Inspect Elf ElfSpec BuildIdSpec ModMap ModSpec PropMod Depmod DepmodSpec
  PropDepmod Kaslr KaslrSpec FileCache Symbolizer HistorySpec KernelCache KernelCacheSpec KernelHistory Host HostSpec HostKernel HostKernelSpec.
From Verif Require ElfFormat Kernel Ksym PropElf PropHost PropKaslr PropKernel PropKsym.
Local Close Scope string_scope.
Local Open Scope N_scope.
Local Notation length := List.length.
Import Kernel(kernel, maybe_default, MNone, MDefault, MSome, find_with, sources, newenv, ne_ksym, ne_elf, ne_release, ne_exists, ne_kcore,
  kernel_new, checked_sub, split_extension).

Section Kernel.
  Context (x : ext) (m : mode) (pick : N -> N -> N) (rest : world (N * list N) parser).
  Context (sort : list kmod -> list kmod) (code : list N -> N -> res (option code_info)) (cf : config).
  Context (Hx : sorts x) (Hsort : sorts_modules sort) (Hcode : forall t a, safe (code t a)).
  Notation kw := (host_kworld x m pick rest sort).
  Notation load := (ksym_of code).

  (** ** The list of symbols *)
  Definition is_list (es : list kentry) (r : Symbolizer.resolver) : Prop :=
    exists t ks, kallsyms_text es t /\ Forall (fun e => PropKsym.plain (ke_name e)) (visible es) /\ Ksym.ksym_load t = Ok ks /\
      r = Resolver (Ksym.ksym_find_sym code ks) (fun _ => Err EUnsupported)
            (fun name opts => Ok (Ksym.ksym_find_addr ks name opts)) (ksym_calls ks).
  Lemma list_file : forall s p ptr t es, file_at (sy_host s) p ptr t -> kallsyms_text es t ->
    Forall (fun e => PropKsym.plain (ke_name e)) (visible es) ->
    exists r, is_list es r /\ file_alone (kw_files (kw s)) load (path_of p) = Ok r.
  Proof.
    intros s p ptr t es Hf Ht Hp. destruct (PropKsym.C33_load es t Ht Hp) as (ks & E & _).
    eexists. split; [exists t, ks; eauto|]. unfold file_alone. cbn [kw_files host_kworld].
    rewrite (PropHost.opened_at x m pick rest (sy_host s) _ _ _ Hf). cbn [bind of_outcome ksym_of snd]. unfold ksym_of. cbn [snd]. rewrite E. reflexivity.
  Qed.
  Definition opt_list (o : option (list kentry)) (r : option Symbolizer.resolver) : Prop :=
    match o, r with Some es, Some r => is_list es r | None, None => True | _, _ => False end.
  Lemma list_opens : forall s src o, list_of (sy_host s) src o ->
    exists r, opt_list o r /\ PropKernel.opens_ksym (new_env load (kw s)) src (option_map both r).
  Proof.
    intros s src o [src0 p ptr t es Hsrc Hf Ht Hp|k Hk|].
    - destruct (list_file s p ptr t es Hf Ht Hp) as (r & Hr & E). exists (Some r). split; [exact Hr|].
      destruct Hsrc as [->|[-> ->]]; cbn [PropKernel.opens_ksym option_map new_env ne_ksym]; rewrite E; reflexivity.
    - exists None. split; [exact I|]. cbn [PropKernel.opens_ksym option_map new_env ne_ksym]. exists k.
      unfold file_alone, opened. cbn [kw_files host_kworld host_world w_fs fs_stat]. rewrite Hk. reflexivity.
    - exists None. split; [exact I|]. exact I.
  Qed.
  Lemma sub_small : forall a b, b <= a -> sub64 m a b = Ok (a - b).
  Proof. intros a b H. unfold sub64. now apply usub_small. Qed.
  Lemma found_sym : forall addr n md v sz lang ci, v <= addr ->
    with_found m cf addr (Ok (inl (ResolvedSym n md v sz lang ci []))) =
    Ok (Known (Sym (cf_demangle cf n lang) md v (addr - v) sz ci [])).
  Proof.
    intros addr n md v sz lang ci H. unfold with_found, with_resolver. cbn [symbolize_only r_find bind].
    unfold convert_sym. cbn [rs_addr rs_name rs_lang rs_module rs_size rs_code_info rs_inlined map]. rewrite sub_small by auto. reflexivity.
  Qed.
  Lemma found_inv : forall addr f, match with_found m cf addr f with Ok (Known _) => exists s, f = Ok (inl s) | _ => True end.
  Proof.
    intros addr [[s|r]|k| |]; cbn; auto. unfold with_found, with_resolver. cbn [symbolize_only r_find bind].
    unfold convert_sym. destruct (sub64 _ _ _); cbn [bind]; eauto.
  Qed.
  Lemma list_answers : forall es r addr, is_list es r -> exists f, r_find r addr (cf_opts cf) = f /\ safe f /\
    list_answer code cf es addr (with_found m cf addr f) /\
    (forall s, f = Ok (inl s) -> exists y, with_found m cf addr f = Ok (Known y)).
  Proof.
    intros es r addr (t & ks & Ht & Hp & E & ->). cbn [r_find].
    assert (D : (exists e, In e (visible es) /\ ke_addr e <= addr) \/ (forall e, In e (visible es) -> addr < ke_addr e)).
    { clear. induction (visible es) as [|e l [(e' & H1 & H2)|H]]; [right; intros e []|left; exists e'; split; auto; now right|].
      destruct (N.le_gt_cases (ke_addr e) addr) as [Hl|Hl]; [left; exists e; split; auto; now left|].
      right. intros z [<-|Hz]; auto. }
    destruct D as [D|D].
    - destruct (PropKsym.C33_found es t ks addr Ht Hp E D) as (e & H1 & H2 & H3 & H4 & R1 & R2).
      assert (Hl : listed es addr e) by (repeat split; auto; apply H2). assert (Hle : ke_addr e <= addr) by apply H2.
      assert (B : is_bpf (ke_name e) \/ ~ is_bpf (ke_name e)).
      { rewrite Forall_forall in Hp. destruct (PropKsym.bpf_parse_plain _ (Hp _ H1)) as (o & _ & Ho).
        destruct o as [tg|]; [left; exists tg; now apply Ho|]. right. intros (tg & Htg). apply Ho in Htg. discriminate. }
      destruct B as [(tg & Htg)|B].
      + destruct (R2 tg Htg code) as (F1 & F2).
        assert (Do : cf_opts cf = Basic \/ cf_opts cf <> Basic) by (destruct (cf_opts cf); auto; right; discriminate). destruct Do as [Eo|Eo].
        * rewrite Eo, F1. eexists. split; [reflexivity|]. split; [split; discriminate|]. rewrite found_sym by auto. split; [|eauto]. eapply LaBpf; eauto.
        * destruct (F2 _ Eo) as (F3 & F4). pose proof (Hcode tg addr) as S. destruct (code tg addr) as [ci|k| |] eqn:Ec;
            [| |destruct S; congruence..].
          -- eexists. split; [exact (F3 ci eq_refl)|]. split; [split; discriminate|]. rewrite found_sym by auto. split; [|eauto].
             eapply LaBpf; eauto.
          -- eexists. split; [exact (F4 k eq_refl)|]. split; [split; discriminate|]. split; [|discriminate].
             eapply LaBpfError; eauto.
      + eexists. split; [exact (R1 B code (cf_opts cf))|]. split; [split; discriminate|]. rewrite found_sym by auto.
        split; [|eauto]. now apply LaPlain.
    - destruct (PropKsym.C33_none es t ks addr Ht Hp E D code (cf_opts cf)) as (F1 & F2).
      pose proof (LaNone code cf es addr D) as H. destruct (visible es) as [|e l] eqn:Ev.
      + eexists. split; [exact (F1 eq_refl)|]. split; [split; discriminate|]. split; [exact H|discriminate].
      + eexists. split; [apply F2; discriminate|]. split; [split; discriminate|]. split; [exact H|discriminate].
  Qed.

  (** ** ELF files *)
  Definition is_elf (i : elf_info) (r : Symbolizer.resolver) : Prop :=
    exists ptr data e, elf_program x ptr data e (ei_symtab i) (ei_dynsym i) /\
      r = elf_resolver_of x m (Parser (Some (ei_path i)) (Mem ptr data)).
  Lemma elf_opens : forall s f i, elf_at x (sy_host s) f i ->
    exists r, is_elf i r /\ elf_alone (kw_files (kw s)) f (path_of (ei_path i)) false = Ok r.
  Proof.
    intros s f i (mt & ptr & data & e & H1 & H2 & Hb & He). eexists. split; [exists ptr, data, e; eauto|].
    unfold elf_alone, parsed, opened. cbn [kw_files host_kworld host_world w_fs fs_stat fs_open w_elf_parse w_elf_plain]. rewrite H1, H2.
    cbn [of_outcome bind elf_from_file fst snd]. now rewrite (PropHost.unpath_path_of _ Hb).
  Qed.
  Lemma elf_answers : forall i r at_ addr opts, is_elf i r -> at_ <= addr ->
    (exists name s y, r_find r at_ opts = Ok (inl y) /\ finds i at_ name s /\ rs_size y = size_of s /\
       with_found m cf addr (Ok (inl y)) = Ok (file_answer cf i addr name s)) \/
    (r_find r at_ opts = Ok (inr (match t_syms (ei_symtab i) with [] => MissingSyms | _ => UnknownAddr end)) /\ lacks i at_).
  Proof.
    intros i r at_ addr opts (ptr & data & e & (Hf & Hs & Hst & Hdt & S1 & S2 & N1 & N2) & ->) Hle. cbn [elf_resolver_of r_find].
    destruct (PropElf.C27_symbolize x m ptr data e _ _ (Some (ei_path i)) at_ Hx Hf Hst Hdt S1 S2 N1 N2) as (f & E & H).
    rewrite E. assert (Hsym : forall kind t s y, closest_symbol kind t TUndefined at_ s -> ElfSpec.reported (Some (ei_path i)) t s y ->
      exists name, has_name t s name /\ rs_size y = size_of s /\ with_found m cf addr (Ok (inl y)) = Ok (file_answer cf i addr name s)).
    { intros kind t s [nm md ad sz lg ci il] (_ & _ & _ & _ & (Hv & _) & _) (Hn & Hm & Ha & Hz & Hl & Hc & Hi).
      cbn [rs_name rs_module rs_addr rs_size rs_lang rs_code_info rs_inlined] in *. subst. exists nm. split; auto. split; auto. rewrite found_sym by lia. reflexivity. }
    destruct f as [y|why].
    - left. destruct H as [(s & Hc & Hr)|(Hm & s & Hc & Hr)]; destruct (Hsym _ _ _ _ Hc Hr) as (name & Hn & Hz & Ha); exists name, s, y;
        split; auto; split; auto; [left|right]; auto.
    - right. destruct H as (H1 & H2 & ->). split; auto. split; auto.
  Qed.
  Definition opt_elf (o : option elf_info) (r : option Symbolizer.resolver) : Prop :=
    match o, r with Some i, Some r => is_elf i r | None, None => True | _, _ => False end.
  Lemma there_iff : forall s p, exists_at (sy_host s) p = true <-> there (sy_host s) p.
  Proof.
    intros s p. unfold exists_at, there. destruct (h_stat _ _) as [mt|k]; split; eauto; try discriminate. intros (mt & H). discriminate.
  Qed.
  Lemma installed_iff : forall s release p, installed (sy_host s) release p <-> PropKernel.image_path (new_env load (kw s)) release p.
  Proof.
    intros s release p. unfold installed, PropKernel.image_path. cbn [new_env ne_exists kw_exists host_kworld].
    rewrite <- !there_iff. destruct (exists_at (sy_host s) (bs "/boot/vmlinux-"%string ++ release)); intuition congruence.
  Qed.
  Lemma image_opens : forall s src o, image_of x s src o ->
    exists r, opt_elf o r /\ PropKernel.opens_image (new_env load (kw s)) src false (option_map both r).
  Proof.
    intros s src o [src0 i Hsrc Hf|release Hr Hn|].
    - destruct (elf_opens s _ i Hf) as (r & Hr & E). exists (Some r). split; [exact Hr|].
      destruct Hsrc as [->|[-> (release & Hl & Hi)]]; cbn [PropKernel.opens_image option_map new_env ne_elf ne_release kw_release host_kworld].
      + rewrite E. reflexivity.
      + exists release, (ei_path i). split; auto. split; [now apply installed_iff|]. rewrite E. reflexivity.
    - exists None. split; [exact I|]. exists release. split; auto. intros p Hp. apply installed_iff in Hp. destruct (Hn p Hp).
    - exists None. split; [exact I|]. exact I.
  Qed.

  (** ** The offset *)
  Lemma start_first : forall i r b, is_elf i r -> start_linked i b -> exists lv, inspect_of r n_stext = Ok lv /\ first_named lv stext b.
  Proof.
    intros i r b (ptr & data & e & (Hf & Hs & Hst & Hdt & S1 & S2 & N1 & N2) & ->) (Hex & Hall). unfold inspect_of. cbn [elf_resolver_of r_find_addr].
    destruct (PropElf.C29_symtab x m ptr data e _ (Some (ei_path i)) default_addr_opts stext Hx Hf Hst N1 ltac:(discriminate) Hex) as (lv & l & E & Hp & Hi).
    exists lv. split; auto. destruct Hp as (left & Hperm & HP & HQ). destruct Hex as (s & Hin & Hsn).
    destruct l as [|z l].
    { exfalso. apply (Permutation_in _ Hperm) in Hin. rewrite Forall_forall in HQ. exact (HQ _ Hin Hsn). }
    inversion Hi as [|? y ? ys Hy Hys]; subst. inversion HP as [|? ? Hz Hzs]; subst.
    destruct Hy as (Hn & Ha & _). exists [], y, ys. split; auto. split.
    - destruct Hz as (_ & _ & Hz). unfold has_name in *. eapply ElfFormat.string_at_fun; eauto.
    - split; [|constructor]. rewrite Ha. apply Hall; auto. apply (Permutation_in _ (Permutation_sym Hperm)). now left.
  Qed.
  Lemma offset_found : forall s given lst img off k v, offset_of (sy_host s) given lst img off -> opt_list lst k -> opt_elf img v ->
    match given, v with
    | None, Some v => exists o, find_kaslr_offset m (kw_kcore (kw s)) (option_map inspect_of k) (Some (inspect_of v)) = Ok o /\
        off = match o with Some o => o | None => 0 end
    | Some o, _ => off = o
    | None, None => off = 0
    end.
  Proof.
    intros s given lst img off k v H Hk Hv. cbn [kw_kcore host_kworld].
    destruct H as [lst img o|lst|lst i ptr data v0 Hc Hs|lst i ptr data Hc Hs|lst i Hc|es i a b Hc Ha Hb Hab]; auto.
    - destruct v; [destruct Hv|reflexivity].
    - destruct v as [v|]; [|destruct Hv]. unfold core in Hc. unfold contents. rewrite Hc. cbn [of_outcome bind snd].
      destruct Hs as (n & value & (ss & la & p & l1 & l2 & b & ? & ? & ? & ? & ? & ? & ? & ?) & ? & ?).
      eexists. split; [eapply (PropKaslr.C36_kcore_partial m data ss la p l1 n l2 b); eauto|]. reflexivity.
    - destruct v as [v|]; [|destruct Hv]. unfold core in Hc. unfold contents. rewrite Hc. cbn [of_outcome bind snd].
      exists None. split; auto. destruct Hs as [(n & (ss & la & p & l1 & l2 & b & ? & ? & ? & ? & ? & ? & ? & ?) & ?)|(phs & ls & ? & ? & ?)].
      + eapply (PropKaslr.C36_other_lines_partial m data ss la p l1 n l2 b); eauto.
      + eapply PropKaslr.C36_unstated; eauto.
    - destruct v as [v|]; [|destruct Hv]. unfold core in Hc. unfold contents. rewrite Hc. cbn [of_outcome bind]. exists None. auto.
    - destruct v as [v|]; [|destruct Hv]. destruct k as [k|]; [|destruct Hk]. unfold core in Hc. unfold contents. rewrite Hc. cbn [of_outcome bind option_map].
      destruct Hk as (t & ks & Ht & Hp & E & ->). destruct (start_first i v b Hv Hb) as (lv & El & Hl). destruct Ha as [Ha1 Ha2].
      exists (Some (a - b)). split; auto. unfold inspect_of at 1. cbn [r_find_addr].
      eapply (PropKaslr.C36_kallsyms m es t ks (inspect_of v) lv a b default_addr_opts); eauto. discriminate.
  Qed.

  (** ** The kernel *)
  Lemma kernel_opens : forall s src lst img off, ks_debug_syms src = false -> list_of (sy_host s) (ks_kallsyms src) lst ->
    image_of x s (ks_vmlinux src) img -> ~ (lst = None /\ img = None) -> offset_of (sy_host s) (ks_offset src) lst img off ->
    exists k v, opt_list lst k /\ opt_elf img v /\
      fst (kernel_new m (new_env load (kw s)) None (ks_kallsyms src) (ks_vmlinux src) (ks_offset src) (ks_debug_syms src)) =
      Ok (Kernel.Kernel (option_map r_find k) (option_map r_find v) off false).
  Proof.
    intros s src lst img off Hd Hl Hi Hn Ho. destruct (list_opens s _ _ Hl) as (k & Hk & Ek). destruct (image_opens s _ _ Hi) as (v & Hv & Ev).
    exists k, v. split; auto. split; auto. rewrite Hd. pose proof (offset_found s _ _ _ _ k v Ho Hk Hv) as E.
    assert (Hnn : ~ (option_map both k = None /\ option_map both v = None)).
    { intros [H1 H2]. apply Hn. destruct k; [discriminate|]. destruct v; [discriminate|].
      destruct lst; [destruct Hk|]. destruct img; [destruct Hv|]. auto. }
    destruct (PropKernel.C34_sources m _ None _ _ (ks_offset src) _ _ _ Ek Ev) as (_ & P1 & P2 & P3).
    assert (Fk : option_map fst (option_map both k) = option_map r_find k) by (destruct k; reflexivity).
    assert (Fv : option_map fst (option_map both v) = option_map r_find v) by (destruct v; reflexivity).
    rewrite Fk, Fv in *. destruct (ks_offset src) as [o|].
    - subst o. rewrite (P1 off eq_refl Hnn). reflexivity.
    - destruct v as [v|]; cbn [option_map] in *.
      + destruct E as (o & E & ->). assert (E' : option_map snd (option_map both k) = option_map inspect_of k) by (destruct k; reflexivity).
        rewrite E' in P3. rewrite (P3 (both v) eq_refl eq_refl eq_refl o E). reflexivity.
      + subst off. rewrite (P2 eq_refl eq_refl); [reflexivity|]. destruct k; [discriminate|]. exfalso. apply Hnn. auto.
  Qed.
  (** ** Looking up *)
  Lemma modules_found : forall s es, modules_are (sy_host s) es ->
    exists t ms, modules_text es t /\ modmap sort t = Ok ms /\ kw_modules (kw s) = Ok ms /\ Forall module_ok es /\ disjoint_modules es.
  Proof.
    intros s es (ptr & t & Ho & Ht & Hm & Hd). destruct (C32_parse sort es t Hsort Ht) as (ms & E & _).
    exists t, ms. split; auto. split; auto. split; auto. cbn [kw_modules host_kworld]. unfold modules_of, contents. rewrite Ho. cbn [of_outcome bind snd]. exact E.
  Qed.
  Lemma index_found : forall s dir t, index_at s dir t -> exists data, kw_depmod (kw s) = Ok (dir, data) /\ index_file data t.
  Proof.
    intros s dir t (release & f & ptr & data & Hr & Hu & -> & Hf & Ho & Hi). exists data. split; auto. cbn [kw_depmod host_kworld]. unfold depmod_of.
    rewrite Hr. cbn [bind]. rewrite (proj1 (text_valid release) Hu).
    unfold contents. rewrite (under_fun _ _ _ _ (join_under _ _) Hf), Ho. cbn [of_outcome bind snd].
    destruct Hi as (root & rs & Hr0 & -> & _). unfold depmod_validate.
    rewrite read_be32_app by reflexivity. cbn [ok_or bind N.eqb negb Pos.eqb]. rewrite read_be32_app by reflexivity. reflexivity.
  Qed.
  Lemma module_opens : forall s name i, module_elf x s name i ->
    exists dir data q r, kw_depmod (kw s) = Ok (dir, data) /\ find_path m dir data name = Ok (Some q) /\
      module_alone (kw s) false q = Ok r /\ is_elf i r.
  Proof.
    intros s name i (dir & t & v & vs & p & full & Hidx & Hh & Hv & Hu & Hfile).
    destruct (index_found s dir t Hidx) as (data & Ed & Hd).
    destruct (C35_found m dir data t name v vs p Hd Hh Hv) as (_ & full' & Ef & Hu'). assert (full' = full) by (eapply under_fun; eauto). subst full'.
    exists dir, data, full. unfold module_alone, module_at. destruct Hfile as [(Hno & Hp & Hf)|(ext & tmp & Hin & Hext & Ht & Hf)].
    - destruct (elf_opens s _ i Hf) as (r & Hr & E). exists r. split; auto. split; auto. split; auto. rewrite Hp in E.
      destruct (split_extension full) as [[stem ext]|] eqn:Es; [|exact E]. destruct (is_packed ext) eqn:P; [|exact E]. exfalso.
      apply (Hno stem ext); [now apply PropKernel.split_extension_inv|]. apply is_packed_ok in P. destruct P as [->|[->| ->]]; cbn; auto.
    - destruct (elf_opens s _ i Hf) as (r & Hr & E). exists r. split; auto. split; auto. split; auto.
      rewrite (PropKernel.split_extension_some full (ei_path i) ext); auto.
      + assert (P : is_packed ext = true) by (apply is_packed_ok; destruct Hin as [<-|[<-|[<-|[]]]]; unfold packed; auto).
        rewrite P. cbn [kw_unpack host_kworld]. rewrite Ht. cbn [bind]. exact E.
      + destruct Hin as [<-|[<-|[<-|[]]]]; repeat constructor; discriminate.
      + destruct Hin as [<-|[<-|[<-|[]]]]; repeat constructor; discriminate.
  Qed.
  Definition looks (s : system) (k : kernel) (addr : N) : find_result :=
    find_with m (kw_modules (kw s)) (kw_depmod (kw s)) (fun q => let* r := module_alone (kw s) false q in Ok (r_find r)) k addr (cf_opts cf).
  Lemma looks_ok : forall s lst img off k v addr p, opt_list lst k -> opt_elf img v -> ~ (lst = None /\ img = None) ->
    (img <> None -> located x s addr p) ->
    safe (looks s (Kernel.Kernel (option_map r_find k) (option_map r_find v) off false) addr) /\
    answers code cf addr lst img off p
      (with_found m cf addr (looks s (Kernel.Kernel (option_map r_find k) (option_map r_find v) off false) addr)).
  Proof.
    intros s lst img off k v addr p Hk Hv Hn Hloc. unfold looks, find_with. cbn [Kernel.kr_vmlinux Kernel.kr_ksym Kernel.kr_kaslr].
    destruct img as [i|].
    2:{ destruct v; [destruct Hv|]. destruct lst as [es|]; [|destruct Hn; auto]. destruct k as [k|]; [|destruct Hk]. cbn [option_map].
        destruct (list_answers es k addr Hk) as (f & -> & Sf & Hf & _). split; auto. now apply AnList. }
    destruct v as [v|]; [|destruct Hv]. cbn [option_map]. destruct (Hloc ltac:(discriminate)) as (es & Hes & Hp). clear Hloc.
    destruct (modules_found s es Hes) as (t & ms & Ht & Hms & -> & Hok & Hdis). cbn [bind].
    destruct p as [base mi| |].
    - destruct Hp as (md & Hin & Hsh & Hat & -> & Hm). rewrite (C32_found m sort es t ms addr md) by auto. cbn [bind].
      destruct (module_opens s _ mi Hm) as (dir & data & q & r & -> & E2 & E3 & Hr). cbn [bind]. rewrite E2. cbn [bind]. rewrite E3. cbn [bind].
      destruct Hat as [Ha _]. unfold checked_sub. rewrite (proj2 (N.leb_le _ _) Ha). cbn [of_option bind].
      destruct (elf_answers mi r (addr - km_addr md) addr (cf_opts cf) Hr ltac:(lia)) as [(name & sm & y & -> & Hf & _ & Hy)|(-> & Hl)]; cbn [bind].
      + split; [split; discriminate|]. rewrite Hy. now apply AnModule.
      + split; [split; discriminate|]. now apply AnNotInModule.
    - destruct Hp as (md & dir & tr & Hin & Hsh & Hat & Hidx & Hno). rewrite (C32_found m sort es t ms addr md) by auto. cbn [bind].
      destruct (index_found s dir tr Hidx) as (data & -> & Hd). cbn [bind]. rewrite (C35_missing m dir data tr (km_name md)) by auto. cbn [bind].
      split; [split; discriminate|]. apply AnUnknown.
    - assert (Ef : exists r, find_module m ms addr = Ok (inr r)).
      { destruct (C32_none m sort es t ms addr Hsort Ht Hms Hok Hp) as [H1 H2].
        destruct (existsb shownb es) eqn:E.
        - apply existsb_exists in E. destruct E as (z & Hz & Hzs). apply shownb_iff in Hzs. eauto.
        - eexists. apply H1. intros z Hz Hs. apply shownb_iff in Hs. apply not_true_iff_false in E. apply E. apply existsb_exists. eauto. }
      destruct Ef as (rs & ->). cbn [bind]. unfold checked_sub.
      destruct (N.leb_spec off addr) as [Hle|Hlt]; cbn [of_option bind]; [|split; [split; discriminate|now apply AnLow]].
      destruct (elf_answers i v (addr - off) addr (cf_opts cf) Hv ltac:(lia)) as [(name & sm & y & -> & Hf & Hz & Hy)|(-> & Hl)]; cbn [bind].
      + destruct lst as [ls|].
        * destruct k as [k|]; [|destruct Hk]. cbn [option_map]. rewrite Hz.
          destruct (size_of sm) as [sz|] eqn:Esz.
          { split; [split; discriminate|]. rewrite Hy. apply AnImage; auto. left. congruence. }
          destruct (list_answers ls k addr Hk) as (f & -> & Sf & Hfa & Hfk).
          pose proof (AnSizeless code cf addr ls i off name sm _ Hle Hf Esz Hfa) as A.
          pose proof (found_inv addr f) as I. destruct f as [[s'|r']|ek| |]; try (destruct Sf; congruence).
          -- split; [split; discriminate|]. destruct (Hfk s' eq_refl) as (z & Ez). rewrite Ez in A. rewrite Ez. exact A.
          -- split; [split; discriminate|]. rewrite Hy. exact A.
          -- split; [split; discriminate|]. rewrite Hy. exact A.
        * destruct k; [destruct Hk|]. cbn [option_map]. rewrite Hz.
          assert (A : answers code cf addr None (Some i) off InKernel (Ok (file_answer cf i addr name sm))) by (apply AnImage; auto).
          destruct (size_of sm); (split; [split; discriminate|]); rewrite Hy; exact A.
      + destruct lst as [ls|].
        * destruct k as [k|]; [|destruct Hk]. cbn [option_map]. destruct (list_answers ls k addr Hk) as (f & -> & Sf & Hfa & _).
          split; auto. now apply AnElse.
        * destruct k; [destruct Hk|]. cbn [option_map]. split; [split; discriminate|]. now apply AnNothing.
  Qed.

  (** ** Time and again *)
  Lemma answers_safe : forall addr lst img off p y, answers code cf addr lst img off p y -> safe y.
  Proof.
    assert (L : forall es addr y, list_answer code cf es addr y -> safe y) by (intros es addr y []; split; discriminate).
    intros addr lst img off p y H. destruct H as [es o q y Hy| | | | | |es i o name sm y ? ? ? Hy|es i o y ? ? Hy|]; eauto; try (split; discriminate).
    apply L in Hy. destruct y as [[]|k| |]; auto; split; discriminate.
  Qed.
  (** The kernel's [each] *)
  Definition step (s : system) (k : kernel) (a : N) (c : kcache (N * list N) parser) : res symbolized * kcache (N * list N) parser :=
    let '(f, c) := kr_find_sym m (kw s) k a (cf_opts cf) c in (with_found m cf a f, c).
  (** The answers, and what becomes of errors *)
  Definition folded (fold : ekind -> res symbolized) (y : res symbolized) : res symbolized := match y with Err k => fold k | y => y end.
  Fixpoint collected (l : list (res symbolized)) : res (list symbolized) :=
    match l with [] => Ok [] | y :: l => let* y := y in let* l := collected l in Ok (y :: l) end.
  Lemma impl_ok : forall hist s src lst img off addrs ps fold b,
    still load (hist ++ [kernel_call x m pick rest sort cf s src addrs]) ->
    ks_debug_syms src = false -> list_of (sy_host s) (ks_kallsyms src) lst -> image_of x s (ks_vmlinux src) img -> ~ (lst = None /\ img = None) ->
    offset_of (sy_host s) (ks_offset src) lst img off -> (img <> None -> Forall2 (located x s) addrs ps) -> length addrs = length ps ->
    exists ys, Forall2 (fun '(a, p) y => answers code cf a lst img off p y) (combine addrs ps) ys /\
      fst (kernel_impl x m pick rest sort code cf s src AbsAddr addrs fold (kr_run load hist (kc_new b))) = collected (map (folded fold) ys).
  Proof.
    intros hist s src lst img off addrs ps fold b HS Hd Hl Hi Hn Ho Hloc Hlen. cbn [kernel_impl].
    set (h := hist ++ [kernel_call x m pick rest sort cf s src addrs]) in *. set (call := kernel_call x m pick rest sort cf s src addrs) in *.
    assert (Hin : In call h) by (apply in_or_app; right; now left).
    assert (G : good load h (kr_run load hist (kc_new b))) by (apply run_good; auto; [apply incl_appl, incl_refl|apply good_new]).
    destruct (kernel_opens s src lst img off Hd Hl Hi Hn Ho) as (k & v & Hk & Hv & E).
    pose proof (gives_new load h HS call Hin _ G) as [E1 G1]. cbn [call kernel_call kl_mode kl_world kl_kallsyms kl_vmlinux kl_offset kl_debug] in E1, G1.
    rewrite E in E1. destruct (kr_new load m (kw s) (ks_kallsyms src) (ks_vmlinux src) (ks_offset src) (ks_debug_syms src) _) as [r c]. cbn [fst snd] in *. subst r.
    cbn [then_]. clear E G. set (K := Kernel.Kernel (option_map r_find k) (option_map r_find v) off false) in *. fold (step s K).
    assert (X : forall l ps c, incl l addrs -> good load h c -> (img <> None -> Forall2 (located x s) l ps) -> length l = length ps ->
      exists ys, Forall2 (fun '(a, p) y => answers code cf a lst img off p y) (combine l ps) ys /\
        fst (each (step s K) fold l c) = collected (map (folded fold) ys)).
    { induction l as [|a l IH]; intros qs c0 Hincl Gc Hq Hlq; destruct qs as [|q qs]; try discriminate.
      { exists []. split; [constructor|reflexivity]. }
      assert (Ha : In (kw s, a) (kl_addrs call)) by (cbn [call kernel_call kl_addrs]; apply in_map, Hincl; now left).
      pose proof (gives_find load h HS call (kw s) K a Hin Ha (eq_sym Hd) c0 Gc) as [F G2].
      cbn [call kernel_call kl_mode kl_debug kl_opts] in F, G2. rewrite Hd in F. fold (looks s K a) in F.
      destruct (looks_ok s lst img off k v a q Hk Hv Hn) as [_ A]; [intros Hne; specialize (Hq Hne); now inversion Hq|]. fold K in A.
      cbn [each]. unfold step at 1. destruct (kr_find_sym m (kw s) K a (cf_opts cf) c0) as [f c1]. cbn [fst snd] in F, G2. subst f.
      destruct (IH qs c1) as (ys & H1 & H2); [intros z Hz; apply Hincl; now right|exact G2|intros Hne; specialize (Hq Hne); now inversion Hq|cbn in Hlq; lia|].
      revert A. generalize (with_found m cf a (looks s K a)). intros y A.
      exists (y :: ys). split; [cbn [combine]; constructor; auto|]. cbn [map collected].
      replace (match y with Err k0 => fold k0 | r => r end) with (folded fold y) by (destruct y; reflexivity).
      destruct (folded fold y) as [z|e| |]; cbn [then_ bind]; auto.
      destruct (each (step s K) fold l c1) as [r c2]. cbn [fst] in H2. rewrite <- H2. destruct r; reflexivity. }
    apply X; auto. apply incl_refl.
  Qed.

  (** Whatever was symbolized before, the answers are those that the contents of
      files give; errors are reported as such for single addresses only. *)
  Theorem C76_single : forall hist s src lst img off addr p b,
    still load (hist ++ [kernel_call x m pick rest sort cf s src [addr]]) ->
    ks_debug_syms src = false -> list_of (sy_host s) (ks_kallsyms src) lst -> image_of x s (ks_vmlinux src) img -> ~ (lst = None /\ img = None) ->
    offset_of (sy_host s) (ks_offset src) lst img off -> (img <> None -> located x s addr p) ->
    exists y, fst (kernel_single x m pick rest sort code cf s src AbsAddr addr (kr_run load hist (kc_new b))) = y /\
      answers code cf addr lst img off p y.
  Proof.
    intros hist s src lst img off addr p b HS Hd Hl Hi Hn Ho Hloc. unfold kernel_single.
    destruct (impl_ok hist s src lst img off [addr] [p] Err b HS Hd Hl Hi Hn Ho) as (ys & H & E); [intros Hne; repeat constructor; auto|auto|].
    inversion H as [|? y ? ys' Hy Hys]; subst. inversion Hys; subst. exists y. split; auto.
    destruct (kernel_impl x m pick rest sort code cf s src AbsAddr [addr] Err _) as [r c]. cbn [fst] in E. subst r. cbn [map collected folded].
    destruct y; reflexivity.
  Qed.
  Theorem C76_symbolize : forall hist s src lst img off addrs ps b,
    still load (hist ++ [kernel_call x m pick rest sort cf s src addrs]) ->
    ks_debug_syms src = false -> list_of (sy_host s) (ks_kallsyms src) lst -> image_of x s (ks_vmlinux src) img -> ~ (lst = None /\ img = None) ->
    offset_of (sy_host s) (ks_offset src) lst img off -> (img <> None -> Forall2 (located x s) addrs ps) -> length addrs = length ps ->
    exists rs, fst (kernel_symbolize x m pick rest sort code cf s src AbsAddr addrs (kr_run load hist (kc_new b))) = Ok rs /\
      Forall2 (fun '(a, p) r => exists y, answers code cf a lst img off p y /\ (y = Ok r \/ exists k, y = Err k /\ r = Unknown IgnoredError))
        (combine addrs ps) rs.
  Proof.
    intros hist s src lst img off addrs ps b HS Hd Hl Hi Hn Ho Hloc Hlen. unfold kernel_symbolize.
    destruct (impl_ok hist s src lst img off addrs ps (fun _ => Ok (Unknown IgnoredError)) b HS Hd Hl Hi Hn Ho Hloc Hlen) as (ys & H & ->).
    clear - H. induction H as [|[a p] y l ys Hy H (rs & E & F)]; [exists []; split; [reflexivity|constructor]|].
    pose proof (answers_safe _ _ _ _ _ _ Hy) as S. cbn [map collected]. rewrite E.
    destruct y as [r|k| |]; try (destruct S; congruence); cbn [folded bind].
    - exists (r :: rs). split; auto. constructor; auto. exists (Ok r). auto.
    - exists (Unknown IgnoredError :: rs). split; auto. constructor; auto. exists (Err k). split; auto. right. exists k. auto.
  Qed.
  (** Without any source there is an error; nothing but absolute addresses is
      supported. *)
  Theorem C76_no_source : forall s src k addrs c, ks_kallsyms src = MNone -> ks_vmlinux src = MNone ->
    fst (kernel_symbolize x m pick rest sort code cf s src k addrs c) = Err (match k with AbsAddr => ENotFound | _ => EUnsupported end).
  Proof.
    intros s src k addrs c H1 H2. destruct k; try reflexivity. unfold kernel_symbolize, kernel_impl, kr_new, new_ksym, new_vmlinux. rewrite H1, H2. reflexivity.
  Qed.
  (** A file that was asked for has to be there, also if there is another
      source. *)
  Theorem C76_missing : forall hist s src lst p e addrs b,
    still load (hist ++ [kernel_call x m pick rest sort cf s src addrs]) -> h_stat (sy_host s) (path_of p) = Bad e ->
    ks_kallsyms src = MSome p \/ list_of (sy_host s) (ks_kallsyms src) lst /\ ks_vmlinux src = MSome p ->
    fst (kernel_symbolize x m pick rest sort code cf s src AbsAddr addrs (kr_run load hist (kc_new b))) = Err e.
  Proof.
    intros hist s src lst p e addrs b HS Hp Hsrc. unfold kernel_symbolize. cbn [kernel_impl].
    set (h := hist ++ [kernel_call x m pick rest sort cf s src addrs]) in *. set (call := kernel_call x m pick rest sort cf s src addrs) in *.
    assert (Hin : In call h) by (apply in_or_app; right; now left).
    assert (G : good load h (kr_run load hist (kc_new b))) by (apply run_good; auto; [apply incl_appl, incl_refl|apply good_new]).
    pose proof (gives_new load h HS call Hin _ G) as [E1 _]. cbn [call kernel_call kl_mode kl_world kl_kallsyms kl_vmlinux kl_offset kl_debug] in E1.
    assert (E : fst (kernel_new m (new_env load (kw s)) None (ks_kallsyms src) (ks_vmlinux src) (ks_offset src) (ks_debug_syms src)) = Err e).
    { unfold kernel_new. destruct Hsrc as [->|[Hl ->]].
      - cbn [Kernel.open_ksym new_env ne_ksym]. unfold file_alone, opened. cbn [kw_files host_kworld host_world w_fs fs_stat]. rewrite Hp. reflexivity.
      - destruct (list_opens s _ _ Hl) as (k & _ & Ek). rewrite (PropKernel.open_ksym_ok _ _ _ Ek). cbn [bind Kernel.open_vmlinux new_env ne_elf].
        unfold elf_alone, parsed, opened. cbn [kw_files host_kworld host_world w_fs fs_stat]. rewrite Hp. reflexivity. }
    rewrite E in E1. destruct (kr_new load m (kw s) (ks_kallsyms src) (ks_vmlinux src) (ks_offset src) (ks_debug_syms src) _) as [r c]. cbn [fst] in E1. subst r. reflexivity.
  Qed.
End Kernel.
Print Assumptions C76_missing.
Print Assumptions C76_single.
Print Assumptions C76_symbolize.
Print Assumptions C76_no_source.

(** ** Example: a kernel that was moved, with a module and one that has no file *)
Section Example.
  Definition ex_release : list N := bs "6.1"%string.
  Definition ex_base : N := 0xffffffffa0000000.
  Definition ex_mods : list kmod := [KMod (bs "a"%string) ex_base 8192; KMod (bs "b"%string) 0xffffffffa0100000 4096].
  Definition ex_mods_text : list N := bs "a 8192 0 - Live 0xffffffffa0000000"%string ++ 10 :: bs "b 4096 1 - Live 0xffffffffa0100000"%string ++ 10 :: [].
  Definition ex_core : list N := PropKaslr.ex_core [PropKaslr.ex_other; PropKaslr.ex_info].
  Definition ex_image : list N := bs "/boot/vmlinux-6.1"%string.
  Definition ex_module : list N := bs "/lib/modules/6.1/k/a.ko"%string.
  Definition ex_files : list (list N * (N * list N)) :=
    [(bs "/proc/kallsyms"%string, (0, PropKsym.ex_kall)); (bs "/proc/modules"%string, (0, ex_mods_text)); (bs "/proc/kcore"%string, (0, ex_core));
     (bs "/lib/modules/6.1/modules.dep.bin"%string, (0, PropDepmod.ex_index)); (ex_image, (4096, PropElf.ex_data)); (ex_module, (4096, PropElf.ex_data))].
  Definition ex_at (p : path) : outcome (N * list N) :=
    match find (fun '(q, _) => path_of q =? p) ex_files with Some (_, f) => Good f | None => Bad ENotFound end.
  Definition ex_host : host :=
    Host (fun p => match ex_at p with Good _ => Good (FileMeta 1 p 0 0%Z 0%Z) | Bad k => Bad k end) ex_at
      (fun _ => Bad ENotFound) (fun _ _ => []) 42 (fun _ => 8).
  Definition ex_sys : system := System ex_host (Ok ex_release) (fun _ _ => Err EUnsupported).
  Definition ex_src : ksource := KSource MDefault MDefault None false.
  Definition ex_cf : config := Config Basic (fun name _ => name) 42.
  Definition ex_sort : list kmod -> list kmod := isort km_leb.
  Definition ex_addrs : list N := [0x2e000000 + 4100; ex_base + 4100; 0xffffffffa0100010; 0xffffffff81000f61; 5].
  Notation ex_call := (kernel_call ElfExample.no_ext Checked (fun _ _ => 0) PropHost.ex_rest ex_sort ex_cf ex_sys ex_src).
  Notation load := (ksym_of PropKsym.ex_code).
  Notation ex_run hist := (kr_run load (map ex_call hist) (kc_new true)).
  Notation ex_symbolize hist addrs :=
    (fst (kernel_symbolize ElfExample.no_ext Checked (fun _ _ => 0) PropHost.ex_rest ex_sort PropKsym.ex_code ex_cf ex_sys ex_src AbsAddr addrs (ex_run hist))).
  Example C76_example : (let* l := ex_symbolize [[5]; ex_addrs] ex_addrs in Ok (map PropHost.brief_of l)) =
    Ok [inl (bs "main"%string, Some ex_image, 4096, 0x2e000000 + 4);
        inl (bs "main"%string, Some ex_module, 4096, ex_base + 4);
        inr UnknownAddr; inl (bs "do_one_initcall"%string, None, 0xffffffff81000f60, 1); inr IgnoredError].
  Proof. vm_compute. reflexivity. Qed.

  (** All that was assumed holds. *)
  Definition ex_info : elf_info := ElfInfo ex_image PropElf.ex_st PropElf.ex_dt.
  Definition ex_minfo : elf_info := ElfInfo ex_module PropElf.ex_st PropElf.ex_dt.
  Lemma ex_list : list_of ex_host MDefault (Some PropKsym.ex_kentries).
  Proof.
    apply (LoFile _ _ (bs "/proc/kallsyms"%string) 0 PropKsym.ex_kall); auto.
    - split; [eexists; vm_compute; reflexivity|vm_compute; reflexivity].
    - exact PropKsym.ex_kall_ok.
    - exact (proj1 (proj2 PropKsym.C33_example)).
  Qed.
  Lemma ex_elf : forall p i, (p, (4096, PropElf.ex_data)) = (ei_path i, (4096, PropElf.ex_data)) -> ei_symtab i = PropElf.ex_st -> ei_dynsym i = PropElf.ex_dt ->
    is_bytes p -> ex_at (path_of p) = Good (4096, PropElf.ex_data) -> elf_at ElfExample.no_ext ex_host (path_of p) i.
  Proof.
    intros p i [= E] Hs Hd Hb Ho. exists (FileMeta 1 (path_of p) 0 0%Z 0%Z), 4096, PropElf.ex_data, PropElf.ex_e. cbn [ex_host h_stat h_open]. rewrite Ho, Hs, Hd.
    split; auto. split; auto. split; [now rewrite <- E|exact PropHost.ex_program].
  Qed.
  Lemma ex_image_of : image_of ElfExample.no_ext ex_sys MDefault (Some ex_info).
  Proof.
    apply IoFile.
    - right. split; auto. exists ex_release. split; auto. left. split; [eexists; vm_compute; reflexivity|reflexivity].
    - apply ex_elf; [reflexivity|reflexivity|reflexivity|repeat constructor|vm_compute; reflexivity].
  Qed.
  Lemma ex_offset : forall lst, offset_of ex_host None lst (Some ex_info) 0x2e000000.
  Proof.
    intros lst. destruct PropKaslr.C36_example as (H1 & H2 & H3 & H4 & H5 & H6 & _).
    apply (OfCore _ _ _ 0 ex_core); [vm_compute; reflexivity|]. exists PropKaslr.ex_info, (bs "2e000000"%string). split; [|auto].
    exists [], [], (PropKaslr.ex_seg [PropKaslr.ex_other; PropKaslr.ex_info]), [PropKaslr.ex_other], [], [].
    split; [exact H1|]. split; [constructor|]. split; [constructor|]. split; [reflexivity|]. split; [exact H2|]. split; [repeat constructor; auto|].
    split; [exact H4|]. vm_compute. discriminate.
  Qed.
  Lemma ex_modules : modules_are ex_host ex_mods.
  Proof.
    exists 0, ex_mods_text. split; [vm_compute; reflexivity|]. split.
    { apply TextCons. { mod_line (bs "8192"%string) (bs "0"%string) (bs "-"%string) (bs "Live"%string) (bs "ffffffffa0000000"%string) (@nil N). }
      apply TextCons. { mod_line (bs "4096"%string) (bs "1"%string) (bs "-"%string) (bs "Live"%string) (bs "ffffffffa0100000"%string) (@nil N). }
      constructor. }
    split; [repeat constructor; cbn [km_addr km_size]; vm_compute; reflexivity|].
    intros i j k l a Hi Hj Sk Sl Hk Hl. unfold ex_mods, ex_base in Hi, Hj.
    destruct i as [|[|i]]; try (destruct i; discriminate); injection Hi as <-;
      (destruct j as [|[|j]]; try (destruct j; discriminate); injection Hj as <-); auto;
      exfalso; unfold in_module, shown in *; cbn [km_addr km_size] in *; lia.
  Qed.
  Lemma ex_index : index_at ex_sys (bs "/lib/modules/6.1"%string) PropDepmod.ex_trie.
  Proof.
    exists ex_release, (bs "/lib/modules/6.1/modules.dep.bin"%string), 0, PropDepmod.ex_index. split; auto. split; [apply text_valid; vm_compute; reflexivity|].
    split; [reflexivity|]. split; [|split; [vm_compute; reflexivity|exact PropDepmod.ex_index_file]].
    apply (PropDepmod.join_under (bs "/lib/modules/6.1"%string) (bs "modules.dep.bin"%string)).
  Qed.
  Lemma ex_places : Forall2 (located ElfExample.no_ext ex_sys) ex_addrs [InKernel; InModule ex_base ex_minfo; InUnknown; InKernel; InKernel].
  Proof.
    assert (K : forall a, a < ex_base \/ 0xffffffffa0101000 <= a -> located ElfExample.no_ext ex_sys a InKernel).
    { intros a Ha. exists ex_mods. split; [exact ex_modules|]. intros k Hk Hs. unfold ex_base in Ha.
      destruct Hk as [<-|[<-|[]]]; unfold in_module; cbn [km_addr km_size]; unfold ex_base; lia. }
    constructor; [apply K; left; vm_compute; reflexivity|]. constructor; [|constructor; [|repeat constructor; apply K; left; vm_compute; reflexivity]].
    - exists ex_mods. split; [exact ex_modules|]. exists (KMod (bs "a"%string) ex_base 8192). split; [now left|]. split; [discriminate|].
      split; [unfold in_module; cbn [km_addr km_size]; lia|]. split; auto.
      exists (bs "/lib/modules/6.1"%string), PropDepmod.ex_trie, (PropDepmod.ex_v "k/a.ko:k/abc.ko"), [], (bs "k/a.ko"%string), ex_module.
      split; [exact ex_index|]. split; [exact (proj1 (proj2 (proj2 PropDepmod.C35_example)))|]. split.
      { exists (bs "k/abc.ko"%string). split; [reflexivity|]. repeat constructor; discriminate. }
      split; [exact (PropDepmod.join_under (bs "/lib/modules/6.1"%string) (bs "k/a.ko"%string))|].
      left. split; [|split; [reflexivity|apply ex_elf; [reflexivity|reflexivity|reflexivity|repeat constructor|vm_compute; reflexivity]]].
      intros stem ext (He & _) Hin. apply (f_equal (@rev N)) in He. rewrite !rev_app_distr in He.
      destruct Hin as [<-|[<-|[<-|[]]]]; discriminate He.
    - exists ex_mods. split; [exact ex_modules|]. exists (KMod (bs "b"%string) 0xffffffffa0100000 4096), (bs "/lib/modules/6.1"%string), PropDepmod.ex_trie.
      split; [right; now left|]. split; [discriminate|]. split; [unfold in_module; cbn [km_addr km_size]; lia|]. split; [exact ex_index|].
      intros vs H. inversion H as [|? ? ? ? i t n us Hn Ht E]; subst. destruct i as [|[|[|i]]]; try discriminate.
      destruct i; discriminate.
  Qed.
  (** Nothing changes: it is the same system all the time. *)
  Lemma ex_still : forall hist, still load (map ex_call hist).
  Proof.
    intros hist. set (h := map ex_call hist).
    assert (Hc : forall c, In c h -> exists l, c = ex_call l) by (intros c H; apply in_map_iff in H; destruct H as (l & <- & _); eauto).
    assert (Hl : forall w, looking h w -> w = host_kworld ElfExample.no_ext Checked (fun _ _ => 0) PropHost.ex_rest ex_sort ex_sys).
    { intros w (c & a & H & Ha). destruct (Hc c H) as (l & ->). cbn [kernel_call kl_addrs] in Ha. apply in_map_iff in Ha. destruct Ha as (z & [= <- <-] & _). reflexivity. }
    assert (Hf : forall f, files_of h f -> f = host_world ElfExample.no_ext Checked (fun _ _ => 0) PropHost.ex_rest ex_host).
    { intros f (w & -> & [(c & H & ->)|H]); [destruct (Hc c H) as (l & ->); reflexivity|]. rewrite (Hl w H). reflexivity. }
    assert (Hi : forall p r d, reads_image h p r d -> d = false /\ p = r).
    { intros p r d [c q H Hq|c release dir q H Hq|c w a modules name base dir index q p0 r0 H Ha Hm Hfm Hd Hp Hq]; destruct (Hc c H) as (l & ->); try discriminate.
      - split; reflexivity.
      - split; [reflexivity|]. assert (Hw : w = host_kworld ElfExample.no_ext Checked (fun _ _ => 0) PropHost.ex_rest ex_sort ex_sys) by (apply Hl; exists (ex_call l), a; auto).
        subst w. inversion Hq as [|? ? ? ? Hx]; subst; auto. }
    assert (Ha : forall p r, any_image h p r -> p = r).
    { intros p r [p0 r0 d H|f p0 r0 P q H]; [exact (proj2 (Hi _ _ _ H))|reflexivity]. }
    assert (Hid : forall U : path -> path -> Prop, (forall p r, U p r -> p = r) -> identified (files_of h) U).
    { intros U HU w w' p r p' r' meta Hw Hw' Hp Hp'. rewrite (Hf w Hw), (Hf w' Hw'). apply HU in Hp, Hp'. subst r r'.
      cbn [host_world w_fs fs_stat fs_open ex_host h_stat h_open]. destruct (ex_at p) as [f|] eqn:E; [|discriminate]. destruct (ex_at p') as [f'|] eqn:E'; [|discriminate].
      intros [= <-] [= ->]. split; congruence. }
    constructor.
    - constructor.
      + intros w w' Hw Hw'. rewrite (Hf w Hw), (Hf w' Hw'). repeat split.
      + apply Hid, Ha.
      + intros p r H. eapply AiFile; eauto.
      + intros w w' p r p' r' meta P Hw Hw' H. destruct (Hi _ _ _ H). discriminate.
      + intros w p r P q Hw H. destruct (Hi _ _ _ H). discriminate.
    - apply Hid. intros p r [H _]. exact H.
    - intros w w' Hw Hw'. now rewrite (Hl w Hw), (Hl w' Hw').
    - intros w w' Hw Hw'. now rewrite (Hl w Hw), (Hl w' Hw').
    - intros c c' o o' H H' (_ & k & v & E1 & E2 & ->) (_ & k' & v' & E1' & E2' & ->). destruct (Hc c H) as (l & ->), (Hc c' H') as (l' & ->).
      cbn [kernel_call kl_mode kl_world kl_kallsyms kl_vmlinux kl_offset kl_debug] in *. congruence.
  Qed.
  Example C76_symbolize_example : forall hist, exists rs, ex_symbolize hist ex_addrs = Ok rs /\
    Forall2 (fun '(a, p) r => exists y, answers PropKsym.ex_code ex_cf a (Some PropKsym.ex_kentries) (Some ex_info) 0x2e000000 p y /\
        (y = Ok r \/ exists k, y = Err k /\ r = Unknown IgnoredError))
      (combine ex_addrs [InKernel; InModule ex_base ex_minfo; InUnknown; InKernel; InKernel]) rs.
  Proof.
    intros hist. apply (C76_symbolize ElfExample.no_ext Checked (fun _ _ => 0) PropHost.ex_rest ex_sort PropKsym.ex_code ex_cf ElfExample.no_ext_sorts isort_sorts);
      auto using ex_list, ex_image_of, ex_offset, ex_places.
    - intros t a. split; discriminate.
    - change [ex_call ex_addrs] with (map ex_call [ex_addrs]). rewrite <- map_app. apply ex_still.
    - intros [H _]. discriminate.
  Qed.

  (** ** Refuted: the offset is how far into the symbol the address is *)

  (** How far the kernel was moved, or where the module was loaded, is added. *)
  Theorem C76_offset_refuted : exists x pick rest sort code cf s src lst img off addrs ps zs,
    sorts x /\ sorts_modules sort /\ (forall t a, safe (code t a)) /\
    still (ksym_of code) [kernel_call x Checked pick rest sort cf s src addrs] /\
    ks_debug_syms src = false /\ list_of (sy_host s) (ks_kallsyms src) lst /\ image_of x s (ks_vmlinux src) (Some img) /\
    offset_of (sy_host s) (ks_offset src) lst (Some img) off /\ Forall2 (located x s) addrs ps /\
    fst (kernel_symbolize x Checked pick rest sort code cf s src AbsAddr addrs (kc_new true)) = Ok (map Known zs) /\
    exists a b za zb base i na nb sa sb, addrs = [a; b] /\ zs = [za; zb] /\ ps = [InKernel; InModule base i] /\
      finds img (a - off) na sa /\ finds i (b - base) nb sb /\
      sy_name za = na /\ sy_name zb = nb /\ st_value sa = sy_addr za /\ st_value sb = sy_addr zb /\
      sy_offset za <> a - off - st_value sa /\ sy_offset zb <> b - base - st_value sb.
  Proof.
    assert (F : forall i, ei_symtab i = PropElf.ex_st -> finds i 4100 (bs "main"%string) (ESym 1 18 0 1 4096 32)).
    { intros i E. left. rewrite E. split; [exact (proj1 PropElf.C27_example)|]. split; [|repeat constructor; discriminate]. exists [0], (skipn 6 PropElf.ex_strs). split; reflexivity. }
    exists ElfExample.no_ext, (fun _ _ => 0), PropHost.ex_rest, ex_sort, PropKsym.ex_code, ex_cf, ex_sys, ex_src, (Some PropKsym.ex_kentries), ex_info, 0x2e000000,
      [0x2e000000 + 4100; ex_base + 4100], [InKernel; InModule ex_base ex_minfo].
    eexists [_; _].
    split; [exact ElfExample.no_ext_sorts|]. split; [exact isort_sorts|]. split; [intros t a; split; discriminate|].
    split; [exact (ex_still [_])|]. split; [reflexivity|]. split; [exact ex_list|]. split; [exact ex_image_of|]. split; [apply ex_offset|].
    split; [pose proof ex_places as H; inversion H as [|? ? ? ? H1 H2]; subst; inversion H2 as [|? ? ? ? H3 H4]; subst; constructor; [exact H1|constructor; [|constructor]];
      exact H3|].
    split; [vm_compute; reflexivity|].
    eexists _, _, _, _, _, _, _, _, _, _. split; [reflexivity|]. split; [reflexivity|]. split; [reflexivity|].
    split; [apply F; reflexivity|]. split; [apply F; reflexivity|]. repeat split; vm_compute; discriminate.
  Qed.
End Example.
Print Assumptions C76_offset_refuted.
