(** * Which source a kernel address is resolved from

    Claim C34 of /verif/properties.jsonl, and the last part of C36. *)

From Coq Require Import String Permutation.
From Verif Require Import Base Lists Util UtilProofs Nom Text Num Sym Inspect ModMap ModSpec PropMod Depmod DepmodSpec PropDepmod
  Kaslr Kernel.
Local Close Scope string_scope.
Local Open Scope N_scope.

(** ** Specification *)

(** The modules of the kernel, as it prints them *)
Definition modules_are (env : kenv) (es : list kmod) : Prop :=
  exists sort t ms, sorts_modules sort /\ modules_text es t /\ modmap sort t = Ok ms /\ env_modmap env = Ok ms /\
    Forall module_ok es /\ disjoint_modules es.
Definition in_no_module (es : list kmod) (a : N) : Prop := forall k, In k es -> shown k -> ~ in_module k a.
(** The path to a module's file according to depmod *)
Definition module_path (env : kenv) (name full : list N) : Prop :=
  exists dir data t v vs path, env_depmod env = Ok (dir, data) /\ index_file data t /\ has t name (v :: vs) /\
    module_value v path /\ under dir path full.
(** A file name with an extension *)
Definition extended (full stem ext : list N) : Prop :=
  full = stem ++ bs "."%string ++ ext /\ stem <> [] /\ (forall p, stem <> p ++ [47]).
(** What is in the file [full], and the name it is known by *)
Inductive unpacked (env : kenv) (full : list N) : list N -> list N -> Prop :=
| Plain : forall c, env_file env full = Ok c ->
    (forall stem ext, extended full stem ext -> ~ In ext [bs "gz"; bs "xz"; bs "zstd"]%string) ->
    unpacked env full c full
| Gz : forall stem z c, extended full stem (bs "gz"%string) -> env_file env full = Ok z -> env_gz env z = Ok c ->
    unpacked env full c stem
| Xz : forall stem z c, extended full stem (bs "xz"%string) -> env_file env full = Ok z -> env_xz env z = Ok c ->
    unpacked env full c stem
| Zstd : forall stem z c, extended full stem (bs "zstd"%string) -> env_file env full = Ok z -> env_zstd env z = Ok c ->
    unpacked env full c stem.

(** ** Paths *)
Lemma rsplit_none : forall l, rsplit_dot l = None <-> Forall (fun c => c <> 46) l.
Proof.
  induction l as [|c l IH]; cbn [rsplit_dot]; [split; [constructor|reflexivity]|].
  destruct (rsplit_dot l) as [[a b]|].
  - split; [discriminate|]. intros H. inversion H; subst. now apply IH in H3.
  - destruct (N.eqb_spec c 46) as [->|Hne].
    + split; [discriminate|]. intros H. inversion H; congruence.
    + split; [|reflexivity]. intros _. constructor; auto. now apply IH.
Qed.
Lemma rsplit_some : forall l a b, rsplit_dot l = Some (a, b) <-> l = a ++ 46 :: b /\ Forall (fun c => c <> 46) b.
Proof.
  induction l as [|c l IH]; intros a b; cbn [rsplit_dot].
  - split; [discriminate|]. intros [H _]. destruct a; discriminate.
  - destruct (rsplit_dot l) as [[x y]|] eqn:E.
    + destruct (proj1 (IH x y) eq_refl) as [El Hy]. split.
      * intros H. injection H as <- <-. cbn [app]. split; congruence.
      * intros [H Hb]. destruct a as [|c' a].
        { injection H as -> ->. exfalso. rewrite Forall_forall in Hb. apply (Hb 46); [rewrite El; apply in_elt|reflexivity]. }
        injection H as -> H. assert (E' : Some (x, y) = Some (a, b)) by (apply IH; auto). injection E' as -> ->. reflexivity.
    + apply rsplit_none in E. destruct (N.eqb_spec c 46) as [->|Hne].
      * split.
        { intros H. injection H as <- <-. auto. }
        intros [H Hb]. destruct a as [|c' a]; [injection H as ->; reflexivity|].
        injection H as _ ->. exfalso. rewrite Forall_forall in E. apply (E 46); [apply in_elt|reflexivity].
      * split; [discriminate|]. intros [H Hb]. exfalso. destruct a as [|c' a]; [injection H as -> _; congruence|].
        injection H as _ ->. rewrite Forall_forall in E. apply (E 46); [apply in_elt|reflexivity].
Qed.
Lemma split_extension_some : forall full stem ext, Forall (fun c => c <> 46) ext -> Forall (fun c => c <> 47) ext ->
  extended full stem ext -> split_extension full = Some (stem, ext).
Proof.
  intros full stem ext H46 H47 (-> & Hne & Hs). unfold split_extension.
  rewrite (proj2 (rsplit_some _ stem ext)) by (split; auto).
  assert (E : existsb (fun c => c =? 47) ext = false).
  { apply not_true_is_false. intros H. apply existsb_exists in H. destruct H as (c & Hc & Ec). apply N.eqb_eq in Ec. subst c.
    rewrite Forall_forall in H47. now apply (H47 47). }
  rewrite E. destruct (rev stem) as [|c r] eqn:Er.
  - exfalso. apply Hne. rewrite <- (rev_involutive stem), Er. reflexivity.
  - assert (Est : stem = rev r ++ [c]) by (rewrite <- (rev_involutive stem), Er; reflexivity).
    destruct (N.eqb_spec c 47) as [->|_]; [exfalso; eapply Hs; eauto|reflexivity].
Qed.
Lemma split_extension_inv : forall full stem ext, split_extension full = Some (stem, ext) -> extended full stem ext.
Proof.
  intros full stem ext H. unfold split_extension in H. destruct (rsplit_dot full) as [[a b]|] eqn:E; [|discriminate].
  apply rsplit_some in E. destruct E as [-> _]. destruct (existsb _ b); [discriminate|].
  destruct (rev a) as [|c r] eqn:Er; [discriminate|]. destruct (N.eqb_spec c 47) as [|Hc]; [discriminate|].
  injection H as <- <-. assert (Est : a = rev r ++ [c]) by (rewrite <- (rev_involutive a), Er; reflexivity).
  split; [reflexivity|]. split; [rewrite Est; destruct (rev r); discriminate|].
  intros p Hp. rewrite Est in Hp. apply app_inj_tail in Hp. destruct Hp. congruence.
Qed.
Lemma module_resolver_ok : forall env full c rep debug, unpacked env full c rep ->
  module_resolver env full debug = env_elf env c rep debug.
Proof.
  intros env full c rep debug H. unfold module_resolver. destruct H as [c Hf Hext|stem z c He Hf Hz|stem z c He Hf Hz|stem z c He Hf Hz].
  - destruct (split_extension full) as [[stem ext]|] eqn:E; [|rewrite Hf; reflexivity].
    apply split_extension_inv in E. specialize (Hext stem ext E).
    destruct (beq_spec ext (bs "gz"%string)) as [->|_]; [exfalso; apply Hext; now left|].
    destruct (beq_spec ext (bs "xz"%string)) as [->|_]; [exfalso; apply Hext; right; now left|].
    destruct (beq_spec ext (bs "zstd"%string)) as [->|_]; [exfalso; apply Hext; do 2 right; now left|].
    rewrite Hf. reflexivity.
  - rewrite (split_extension_some full stem (bs "gz"%string));
      [|repeat constructor; discriminate|repeat constructor; discriminate|exact He].
    cbn [beq bs]. rewrite Hf. cbn [bind]. rewrite Hz. reflexivity.
  - rewrite (split_extension_some full stem (bs "xz"%string));
      [|repeat constructor; discriminate|repeat constructor; discriminate|exact He].
    cbn [beq bs]. rewrite Hf. cbn [bind]. rewrite Hz. reflexivity.
  - rewrite (split_extension_some full stem (bs "zstd"%string));
      [|repeat constructor; discriminate|repeat constructor; discriminate|exact He].
    cbn [beq bs]. rewrite Hf. cbn [bind]. rewrite Hz. reflexivity.
Qed.

(** ** Looking up *)

(** An address in a module is resolved from that module's file only, relative
    to where the module was loaded, whatever other sources have. *)
Theorem C34_module : forall m env es ksym vmlinux off debug addr opts k full c rep r,
  modules_are env es -> In k es -> shown k -> in_module k addr ->
  module_path env (km_name k) full -> unpacked env full c rep -> env_elf env c rep debug = Ok r ->
  kernel_find_sym m env (Kernel ksym (Some vmlinux) off debug) addr opts =
  match r (addr - km_addr k) opts with Ok (inr _) => Ok (inr UnknownAddr) | x => x end.
Proof.
  intros m env es ksym vmlinux off debug addr opts k full c rep r (sort & t & ms & Hs & Ht & Hm & He & Hok & Hd)
    Hin Hsh Hat (dir & data & tr & v & vs & path & Hdm & Hix & Hhas & Hv & Hu) Hun Helf.
  unfold kernel_find_sym, find_with. cbn [kr_vmlinux kr_ksym kr_debug_syms]. rewrite He. cbn [bind].
  rewrite (C32_found m sort es t ms addr k) by auto. cbn [bind]. rewrite Hdm. cbn [bind].
  destruct (C35_found m dir data tr (km_name k) v vs path Hix Hhas Hv) as (_ & full' & -> & Hu').
  assert (full' = full) by (eapply under_fun; eauto). subst full'. cbn [bind].
  rewrite (module_resolver_ok env full c rep debug Hun), Helf. cbn [bind].
  unfold checked_sub. destruct Hat as [Ha _]. apply N.leb_le in Ha. rewrite Ha. cbn [of_option bind].
  destruct (r (addr - km_addr k) opts) as [[s|x]|e| |]; reflexivity.
Qed.
Print Assumptions C34_module.
(** If the module is not in the index, it has no symbols. *)
Theorem C34_no_file : forall m env es ksym vmlinux off debug addr opts k dir data t,
  modules_are env es -> In k es -> shown k -> in_module k addr ->
  env_depmod env = Ok (dir, data) -> index_file data t -> (forall vs, ~ has t (km_name k) vs) ->
  kernel_find_sym m env (Kernel ksym (Some vmlinux) off debug) addr opts = Ok (inr UnknownAddr).
Proof.
  intros m env es ksym vmlinux off debug addr opts k dir data tr (sort & t & ms & Hs & Ht & Hm & He & Hok & Hd)
    Hin Hsh Hat Hdm Hix Hhas.
  unfold kernel_find_sym, find_with. cbn [kr_vmlinux kr_ksym kr_debug_syms]. rewrite He. cbn [bind].
  rewrite (C32_found m sort es t ms addr k) by auto. cbn [bind]. rewrite Hdm. cbn [bind].
  rewrite (C35_missing m dir data tr (km_name k)) by auto. reflexivity.
Qed.
Print Assumptions C34_no_file.

Lemma not_in_module : forall m env es addr, modules_are env es -> in_no_module es addr ->
  exists ms r, env_modmap env = Ok ms /\ find_module m ms addr = Ok (inr r).
Proof.
  intros m env es addr (sort & t & ms & Hs & Ht & Hm & He & Hok & Hd) Hno. exists ms.
  destruct (C32_none m sort es t ms addr Hs Ht Hm Hok Hno) as [H1 H2].
  destruct (existsb shownb es) eqn:E.
  - apply existsb_exists in E. destruct E as (k & Hk & Ek). apply shownb_iff in Ek. eexists. split; [exact He|]. apply H2; eauto.
  - eexists. split; [exact He|]. apply H1. intros k Hk Hsh. apply shownb_iff in Hsh.
    assert (existsb shownb es = true) by (apply existsb_exists; eauto). congruence.
Qed.

(** Any other address not below the offset is resolved from the image if that
    has a symbol with a size for it, or there is no list of symbols. *)
Theorem C34_image : forall m env es ksym vmlinux off debug addr opts s,
  modules_are env es -> in_no_module es addr -> off <= addr ->
  vmlinux (addr - off) opts = Ok (inl s) -> (rs_size s <> None \/ ksym = None) ->
  kernel_find_sym m env (Kernel ksym (Some vmlinux) off debug) addr opts = Ok (inl s).
Proof.
  intros m env es ksym vmlinux off debug addr opts s Hm Hno Hoff Hv Hs.
  destruct (not_in_module m env es addr Hm Hno) as (ms & r & He & Hf).
  unfold kernel_find_sym, find_with. cbn [kr_vmlinux kr_ksym kr_kaslr]. rewrite He. cbn [bind]. rewrite Hf. cbn [bind].
  unfold checked_sub. apply N.leb_le in Hoff. rewrite Hoff. cbn [of_option bind]. rewrite Hv. cbn [bind].
  destruct (rs_size s); [reflexivity|]. destruct Hs as [Hs| ->]; [congruence|reflexivity].
Qed.
Print Assumptions C34_image.
(** If the symbol has no size, one of the list of symbols is preferred. *)
Theorem C34_sizeless : forall m env es ksym vmlinux off debug addr opts s,
  modules_are env es -> in_no_module es addr -> off <= addr ->
  vmlinux (addr - off) opts = Ok (inl s) -> rs_size s = None ->
  (forall s', ksym addr opts = Ok (inl s') ->
    kernel_find_sym m env (Kernel (Some ksym) (Some vmlinux) off debug) addr opts = Ok (inl s')) /\
  (forall x, ksym addr opts = Ok (inr x) ->
    kernel_find_sym m env (Kernel (Some ksym) (Some vmlinux) off debug) addr opts = Ok (inl s)) /\
  (forall e, ksym addr opts = Err e ->
    kernel_find_sym m env (Kernel (Some ksym) (Some vmlinux) off debug) addr opts = Ok (inl s)).
Proof.
  intros m env es ksym vmlinux off debug addr opts s Hm Hno Hoff Hv Hs.
  destruct (not_in_module m env es addr Hm Hno) as (ms & r & He & Hf).
  unfold kernel_find_sym, find_with. cbn [kr_vmlinux kr_ksym kr_kaslr]. rewrite He. cbn [bind]. rewrite Hf. cbn [bind].
  unfold checked_sub. apply N.leb_le in Hoff. rewrite Hoff. cbn [of_option bind]. rewrite Hv. cbn [bind]. rewrite Hs.
  split; [|split]; intros x Hx; rewrite Hx; reflexivity.
Qed.
Print Assumptions C34_sizeless.
(** If it has no symbol, the list of symbols decides. *)
Theorem C34_fallback : forall m env es ksym vmlinux off debug addr opts x,
  modules_are env es -> in_no_module es addr -> off <= addr ->
  vmlinux (addr - off) opts = Ok (inr x) ->
  kernel_find_sym m env (Kernel (Some ksym) (Some vmlinux) off debug) addr opts = ksym addr opts /\
  kernel_find_sym m env (Kernel None (Some vmlinux) off debug) addr opts = Ok (inr x).
Proof.
  intros m env es ksym vmlinux off debug addr opts x Hm Hno Hoff Hv.
  destruct (not_in_module m env es addr Hm Hno) as (ms & r & He & Hf).
  unfold kernel_find_sym, find_with. cbn [kr_vmlinux kr_ksym kr_kaslr]. rewrite He. cbn [bind]. rewrite Hf. cbn [bind].
  unfold checked_sub. apply N.leb_le in Hoff. rewrite Hoff. cbn [of_option bind]. rewrite Hv. cbn [bind].
  split; reflexivity.
Qed.
Print Assumptions C34_fallback.
(** Without an image, neither modules nor the offset matter. *)
Theorem C34_list_only : forall m env ksym off debug addr opts,
  kernel_find_sym m env (Kernel (Some ksym) None off debug) addr opts = ksym addr opts.
Proof. reflexivity. Qed.
Print Assumptions C34_list_only.

(** ** Creation *)

(** A source that was asked for and cannot be opened is an error; one that is
    only a default is left out; there has to be one. *)
Definition opens_ksym (e : newenv) (src : maybe_default (list N)) (o : option sources) : Prop :=
  match src, o with
  | MSome p, Some s => ne_ksym e p = Ok s
  | MDefault, Some s => ne_ksym e (bs "/proc/kallsyms"%string) = Ok s
  | MDefault, None => exists k, ne_ksym e (bs "/proc/kallsyms"%string) = Err k
  | MNone, None => True
  | _, _ => False
  end.
Definition image_path (e : newenv) (release p : list N) : Prop :=
  let boot := bs "/boot/vmlinux-"%string ++ release in
  let debug := bs "/usr/lib/debug/boot/vmlinux-"%string ++ release in
  (ne_exists e boot = true /\ p = boot) \/ (ne_exists e boot = false /\ ne_exists e debug = true /\ p = debug).
Definition opens_image (e : newenv) (src : maybe_default (list N)) (debug : bool) (o : option sources) : Prop :=
  match src, o with
  | MSome p, Some s => ne_elf e p debug = Ok s
  | MDefault, Some s => exists release p, ne_release e = Ok release /\ image_path e release p /\ ne_elf e p debug = Ok s
  | MDefault, None => exists release, ne_release e = Ok release /\
      (forall p, image_path e release p -> exists k, ne_elf e p debug = Err k)
  | MNone, None => True
  | _, _ => False
  end.
Lemma open_ksym_ok : forall e src o, opens_ksym e src o -> open_ksym e src = Ok o.
Proof.
  intros e [| |p] [s|] H; cbn in *; try contradiction; try reflexivity.
  - unfold default_kallsyms. rewrite H. reflexivity.
  - destruct H as (k & H). unfold default_kallsyms. rewrite H. reflexivity.
  - rewrite H. reflexivity.
Qed.
Lemma open_vmlinux_ok : forall e src debug o, opens_image e src debug o -> open_vmlinux e src debug = Ok o.
Proof.
  intros e [| |p] debug [s|] H; cbn [opens_image] in H; try contradiction; cbn [open_vmlinux]; try reflexivity.
  - destruct H as (rel & p & Hr & Hp & He). rewrite Hr. cbn [bind map vmlinux_dirs find].
    destruct Hp as [(Hx & ->)|(Hx & Hy & ->)];
      change (path_join (bs "/boot/"%string) (bs "vmlinux-"%string ++ rel)) with (bs "/boot/vmlinux-"%string ++ rel); rewrite Hx.
    + rewrite He. reflexivity.
    + change (path_join (bs "/usr/lib/debug/boot/"%string) (bs "vmlinux-"%string ++ rel)) with (bs "/usr/lib/debug/boot/vmlinux-"%string ++ rel).
      rewrite Hy, He. reflexivity.
  - destruct H as (rel & Hr & He). rewrite Hr. cbn [bind map vmlinux_dirs find].
    change (path_join (bs "/boot/"%string) (bs "vmlinux-"%string ++ rel)) with (bs "/boot/vmlinux-"%string ++ rel).
    change (path_join (bs "/usr/lib/debug/boot/"%string) (bs "vmlinux-"%string ++ rel)) with (bs "/usr/lib/debug/boot/vmlinux-"%string ++ rel).
    destruct (ne_exists e (bs "/boot/vmlinux-"%string ++ rel)) eqn:Ex.
    { destruct (He _ (or_introl (conj Ex eq_refl))) as (k & ->). reflexivity. }
    destruct (ne_exists e (bs "/usr/lib/debug/boot/vmlinux-"%string ++ rel)) eqn:Ey; [|reflexivity].
    destruct (He _ (or_intror (conj Ex (conj Ey eq_refl)))) as (k & ->). reflexivity.
  - rewrite H. reflexivity.
Qed.
Theorem C34_sources : forall m e cell kallsyms vmlinux given debug k v,
  opens_ksym e kallsyms k -> opens_image e vmlinux debug v ->
  (k = None /\ v = None -> fst (kernel_new m e cell kallsyms vmlinux given debug) = Err ENotFound) /\
  (forall off, given = Some off -> ~ (k = None /\ v = None) ->
     kernel_new m e cell kallsyms vmlinux given debug = (Ok (Kernel (option_map fst k) (option_map fst v) off debug), cell)) /\
  (given = None -> v = None -> k <> None ->
     kernel_new m e cell kallsyms vmlinux given debug = (Ok (Kernel (option_map fst k) None 0 debug), cell)) /\
  (forall i, given = None -> v = Some i -> cell = None ->
     forall o, find_kaslr_offset m (ne_kcore e) (option_map snd k) (Some (snd i)) = Ok o ->
     let off := match o with Some x => x | None => 0 end in
     kernel_new m e cell kallsyms vmlinux given debug = (Ok (Kernel (option_map fst k) (Some (fst i)) off debug), Some off)).
Proof.
  intros m e cell kallsyms vmlinux given debug k v Hk Hv.
  apply open_ksym_ok in Hk. apply open_vmlinux_ok in Hv. unfold kernel_new. rewrite Hk. cbn [bind]. rewrite Hv. cbn [bind].
  split; [|split; [|split]].
  - intros [-> ->]. reflexivity.
  - intros off -> Hn. destruct k, v; try reflexivity. exfalso. apply Hn. auto.
  - intros -> -> Hn. destruct k; [reflexivity|congruence].
  - intros i -> -> -> o Ho. cbv zeta. destruct k as [kk|]; cbn [is_some option_map] in *; unfold kaslr_offset, get_or_try_init;
      rewrite Ho; reflexivity.
Qed.
Print Assumptions C34_sources.
(** A source that was asked for has to be there. *)
Theorem C34_required : forall m e cell kallsyms vmlinux given debug p x,
  (ne_ksym e p = Err x -> fst (kernel_new m e cell (MSome p) vmlinux given debug) = Err x) /\
  (forall k, opens_ksym e kallsyms k -> ne_elf e p debug = Err x ->
     fst (kernel_new m e cell kallsyms (MSome p) given debug) = Err x).
Proof.
  intros m e cell kallsyms vmlinux given debug p x. split.
  - intros H. unfold kernel_new. cbn [open_ksym]. rewrite H. reflexivity.
  - intros k Hk H. apply open_ksym_ok in Hk. unfold kernel_new. rewrite Hk. cbn [bind open_vmlinux]. rewrite H. reflexivity.
Qed.
Print Assumptions C34_required.

(** ** Examples *)
Definition ex_ks : list N := bs "fuse 4096 0 - Live 0xffffffffc0200000"%string ++ [10].
Definition ex_fuse : kmod := KMod (bs "fuse"%string) 0xffffffffc0200000 4096.
Definition ex_index_of (path : string) : list N :=
  be32 0xb007f457 ++ be32 0x00020001 ++ be32 (12 + 2 ^ 30 + 2 ^ 31) ++ node_bytes (bs "fuse"%string) 0 [] [(0, bs path ++ [58])].
Definition ex_rsym (name : string) (addr : N) (size : option N) : resolved_sym :=
  ResolvedSym (bs name) None addr size LangUnknown None [].
(** Files are stored as they are, behind a byte for the format if compressed. *)
Definition ex_dec (tag : N) (z : list N) : res (list N) :=
  match z with t :: c => if t =? tag then Ok c else Err EInvalidData | [] => Err EInvalidData end.
Definition ex_env (path : string) (files : list N -> res (list N)) : kenv :=
  KEnv (modmap (isort km_leb) ex_ks) (Ok (bs "/lib/modules"%string, ex_index_of path)) files
    (ex_dec 1) (ex_dec 2) (ex_dec 3)
    (fun c rep _ => if beq c (bs "elf"%string) then
       Ok (fun a _ => if a <? 100 then Ok (inl (ResolvedSym (bs "fuse_init"%string) (Some rep) 0 (Some 100) LangUnknown None []))
                      else Ok (inr UnknownAddr))
     else Err EInvalidData).
Definition ex_vmlinux : resolver := fun a _ =>
  if (4096 <=? a) && (a <? 8192) then Ok (inl (ex_rsym "do_exit" 4096 (Some 4096)))
  else if 8192 <=? a then Ok (inl (ex_rsym "_end" 8192 None)) else Ok (inr UnknownAddr).
Definition ex_list : resolver := fun a _ =>
  if a <? 30000 then Ok (inl (ex_rsym "listed" 10 None)) else Ok (inr UnknownAddr).
Lemma ex_modules_are : forall path files, modules_are (ex_env path files) [ex_fuse].
Proof.
  intros path files. exists (isort km_leb), ex_ks, [ex_fuse]. split; [exact isort_sorts|].
  split. { unfold ex_ks, ex_fuse. apply TextCons; [|constructor].
    mod_line (bs "4096"%string) (bs "0"%string) (bs "-"%string) (bs "Live"%string) (bs "ffffffffc0200000"%string) (@nil N). }
  split; [vm_compute; reflexivity|]. split; [vm_compute; reflexivity|].
  split; [constructor; [split; reflexivity|constructor]|].
  intros [|i] [|j] k l a Hi Hj; try (destruct i; discriminate); try (destruct j; discriminate). reflexivity.
Qed.
Lemma ex_module_path : forall path files full, nlen (bs path) < 100 -> Forall (fun c => c <> 58) (bs path) ->
  under (bs "/lib/modules"%string) (bs path) full -> module_path (ex_env path files) (bs "fuse"%string) full.
Proof.
  intros path files full Hl Hp Hu.
  set (v := (0, bs path ++ [58])).
  exists (bs "/lib/modules"%string), (ex_index_of path), (Trie (bs "fuse"%string) 0 [] [v]), v, [], (bs path).
  split; [reflexivity|]. split; [|split; [|split; [|exact Hu]]].
  - exists (12 + 2 ^ 30 + 2 ^ 31), (node_bytes (bs "fuse"%string) 0 [] [v]). split; [reflexivity|]. split; [reflexivity|].
    change (12 + 2 ^ 30 + 2 ^ 31) with (ref_word 12 (bs "fuse"%string) [] [v]).
    apply (Stored _ 12 (bs "fuse"%string) 0 [] [v] [] []).
    + reflexivity.
    + unfold ex_index_of. rewrite !nlen_app, !be32_nlen. lia.
    + reflexivity.
    + repeat constructor; discriminate.
    + congruence.
    + reflexivity.
    + rewrite app_nil_r. unfold ex_index_of. rewrite app_assoc, app_assoc. apply ndrop_app_exact. reflexivity.
    + constructor.
  - constructor. discriminate.
  - exists []. split; [reflexivity|exact Hp].
Qed.
Example C34_example :
  let files := fun p => if beq p (bs "/lib/modules/fuse.ko.xz"%string) then Ok (2 :: bs "elf"%string) else Err ENotFound in
  let env := ex_env "fuse.ko.xz" files in
  let find := kernel_find_sym Checked env (Kernel (Some ex_list) (Some ex_vmlinux) 1000 false) in
  modules_are env [ex_fuse] /\
  module_path env (bs "fuse"%string) (bs "/lib/modules/fuse.ko.xz"%string) /\
  unpacked env (bs "/lib/modules/fuse.ko.xz"%string) (bs "elf"%string) (bs "/lib/modules/fuse.ko"%string) /\
  find 0xffffffffc0200010 Basic = Ok (inl (ResolvedSym (bs "fuse_init"%string) (Some (bs "/lib/modules/fuse.ko"%string)) 0 (Some 100) LangUnknown None [])) /\
  find 0xffffffffc0200f00 Basic = Ok (inr UnknownAddr) /\
  find 5100 Basic = Ok (inl (ex_rsym "do_exit" 4096 (Some 4096))) /\
  find 9500 Basic = Ok (inl (ex_rsym "listed" 10 None)) /\
  find 30500 Basic = Ok (inl (ex_rsym "_end" 8192 None)) /\
  find 1100 Basic = Ok (inl (ex_rsym "listed" 10 None)).
Proof.
  cbv zeta. split; [apply ex_modules_are|]. split.
  { apply ex_module_path; [reflexivity|repeat constructor; discriminate|]. right. split; [intros (p & H); discriminate|].
    exists []. right. left. split; [|reflexivity]. split; [discriminate|]. intros (b & H).
    apply (f_equal (@rev N)) in H. rewrite rev_app_distr in H. discriminate. }
  split.
  { apply (Xz _ _ _ (2 :: bs "elf"%string)); [|reflexivity|reflexivity]. split; [reflexivity|]. split; [discriminate|].
    intros p H. apply (f_equal (@rev N)) in H. rewrite rev_app_distr in H. discriminate. }
  repeat split; vm_compute; reflexivity.
Qed.

(** An address below the offset is an error, even if the list of symbols has
    one for it. *)
Theorem C34_low_refuted : exists env es ksym vmlinux off addr s, modules_are env es /\ in_no_module es addr /\
  ksym addr Basic = Ok (inl s) /\
  kernel_find_sym Checked env (Kernel (Some ksym) (Some vmlinux) off false) addr Basic = Err EInvalidInput.
Proof.
  exists (ex_env "fuse.ko" (fun _ => Err ENotFound)), [ex_fuse], ex_list, ex_vmlinux, 0x1000, 0x800, (ex_rsym "listed" 10 None).
  split; [apply ex_modules_are|]. split.
  { intros k [<-|[]] _ [H _]. cbn [km_addr ex_fuse] in H. lia. }
  split; vm_compute; reflexivity.
Qed.
(** Modules compressed with zstd have the extension "zst" (kernel's
    scripts/Makefile.modinst); such a file is not decompressed. *)
Theorem C34_zst_refuted : exists env es k addr z c r s, modules_are env es /\ In k es /\ in_module k addr /\
  module_path env (km_name k) (bs "/lib/modules/fuse.ko.zst"%string) /\
  env_file env (bs "/lib/modules/fuse.ko.zst"%string) = Ok z /\ env_zstd env z = Ok c /\
  env_elf env c (bs "/lib/modules/fuse.ko"%string) false = Ok r /\ r (addr - km_addr k) Basic = Ok (inl s) /\
  kernel_find_sym Checked env (Kernel (Some ex_list) (Some ex_vmlinux) 0 false) addr Basic = Err EInvalidData.
Proof.
  exists (ex_env "fuse.ko.zst" (fun _ => Ok (3 :: bs "elf"%string))), [ex_fuse], ex_fuse, 0xffffffffc0200010,
    (3 :: bs "elf"%string), (bs "elf"%string).
  eexists _, _. split; [apply ex_modules_are|]. split; [now left|].
  split; [unfold in_module, ex_fuse; cbn [km_addr km_size]; lia|]. split.
  { apply ex_module_path; [reflexivity|repeat constructor; discriminate|]. right. split; [intros (p & H); discriminate|].
    exists []. right. left. split; [|reflexivity]. split; [discriminate|]. intros (b & H).
    apply (f_equal (@rev N)) in H. rewrite rev_app_distr in H. discriminate. }
  split; [reflexivity|]. split; [reflexivity|]. split; [reflexivity|]. split; [reflexivity|]. vm_compute. reflexivity.
Qed.
(** The offset found for the first image is used for any other image. *)
Definition ex_stext (a : N) : inspector := fun _ => Ok [SymInfo n_stext a None TFunction None None].
Definition ex_new : newenv := NewEnv (fun _ => Ok (ex_list, ex_stext 9000))
  (fun p _ => if beq p (bs "/a"%string) then Ok (ex_vmlinux, ex_stext 8000) else Ok (ex_vmlinux, ex_stext 7000))
  (Ok []) (fun _ => false) (Err EPermissionDenied).
Theorem C36_shared_refuted : exists e cell k1 k2 k3,
  kernel_new Checked e None MDefault (MSome (bs "/a"%string)) None false = (Ok k1, cell) /\
  fst (kernel_new Checked e cell MDefault (MSome (bs "/b"%string)) None false) = Ok k2 /\
  fst (kernel_new Checked e None MDefault (MSome (bs "/b"%string)) None false) = Ok k3 /\
  kr_kaslr k1 = 1000 /\ kr_kaslr k2 = 1000 /\ kr_kaslr k3 = 2000.
Proof.
  exists ex_new, (Some 1000), (Kernel (Some ex_list) (Some ex_vmlinux) 1000 false),
    (Kernel (Some ex_list) (Some ex_vmlinux) 1000 false), (Kernel (Some ex_list) (Some ex_vmlinux) 2000 false).
  repeat split.
Qed.
