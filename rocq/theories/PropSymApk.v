(** * C61: members of archives *)

From Verif Require Import Base Util UtilProofs Amap Maps FileCache FileCacheProofs CacheViews Sym Normalize NormalizeProofs
  Symbolizer SymbolizerSpec SymbolizerElf SymbolizerApk SymbolizerState SymbolizerProcess SymbolizerDemo PropSymBatch PropSymCache.
Local Open Scope N_scope.

Section Members.
  Context {File Parser : Type}.
  Notation world := (world File Parser).
  Notation state := (state File Parser).

  (** Who is responsible for a member: the application's function if it wants to,
      otherwise the default. *)
  Inductive responsible (w : world) (p : path) (debug : bool) (mb : member) : outcome resolver -> Prop :=
  | resp_own : forall f r, mb_mapped mb = true -> w_apk_dispatch w = Some f -> f p mb = Good (Some r) ->
      responsible w p debug mb (Good r)
  | resp_error : forall f k, mb_mapped mb = true -> w_apk_dispatch w = Some f -> f p mb = Bad k ->
      responsible w p debug mb (Bad k)
  | resp_declined : forall f, mb_mapped mb = true -> w_apk_dispatch w = Some f -> f p mb = Good None ->
      responsible w p debug mb (w_apk_default w p mb debug)
  | resp_default : mb_mapped mb = true -> w_apk_dispatch w = None ->
      responsible w p debug mb (w_apk_default w p mb debug)
  | resp_outside : mb_mapped mb = false -> responsible w p debug mb (Bad EInvalidInput).
  Definition inside (off : N) (mb : member) : Prop := mb_offset mb <= off < mb_offset mb + mb_len mb.
  Definition small (mb : member) : Prop := mb_offset mb + mb_len mb < two64.
  (** No path led to this file so far. *)
  Definition unseen {T} (c : file_cache File T) (mt : file_meta) : Prop :=
    forall q pe, pget q (fc_cache c) = Some pe -> ~ In mt (metas pe).

  Lemma responsible_member : forall w p debug mb o, responsible w p debug mb o -> member_resolver w p p debug mb = o.
  Proof.
    intros w p debug mb o [f r Hm Hf Hr|f k Hm Hf Hr|f Hm Hf Hr|Hm Hf|Hm]; unfold member_resolver; rewrite Hm; auto; rewrite Hf; auto; now rewrite Hr.
  Qed.
  Lemma unseen_slot : forall T (c : file_cache File T) mt, Inv c -> unseen c mt -> slot mt c = None.
  Proof.
    intros T c mt HI Hn. unfold slot. pose proof (inv_refs _ HI mt) as R. destruct (eget mt (fc_entries c)) as [e|]; [|reflexivity].
    exfalso. destruct R as [_ R]. apply cnt_pos in R; [|apply HI]. destruct R as (q & Hq). unfold has in Hq.
    destruct (pget q (fc_cache c)) as [pe|] eqn:Ep; [|discriminate]. apply (Hn q pe Ep). now apply contains_In.
  Qed.
  Lemma add_small : forall m mb, small mb -> add64 m (mb_offset mb) (mb_len mb) = Ok (mb_offset mb + mb_len mb).
  Proof.
    intros m mb H. unfold small in H. unfold add64, uadd, wrap. destruct m; destruct (N.ltb_spec (mb_offset mb + mb_len mb) two64); try lia; auto.
  Qed.
  Lemma hit_skip : forall m off l1 rest, Forall small l1 -> Forall (fun mb => ~ inside off mb) l1 ->
    hit m off (map Good l1 ++ rest) = hit m off rest.
  Proof.
    intros m off l1 rest. induction l1 as [|mb l1 IH]; intros Hs Ho; cbn [map app hit]; auto.
    inversion Hs; inversion Ho; subst. rewrite add_small by auto. cbn [bind].
    destruct (N.leb_spec (mb_offset mb) off), (N.ltb_spec off (mb_offset mb + mb_len mb)); cbn [andb]; auto.
    exfalso. apply H5. now split.
  Qed.

  (** An archive looked at for the first time *)
  Lemma apk_new : forall m cf w p debug off (s : state) mt f members, reachable s ->
    file_at (w_fs w) (s_apk s) p = Good mt -> fs_open (w_fs w) p = Good f -> unseen (s_apk s) mt -> w_archive w f = Good members ->
    fst (symbolize_single m cf w (SApk p debug) FileOffset off s) =
    let* x := find_view m w p p debug off members [] in
    match x with Some (r, addr) => with_resolver m cf addr r | None => Ok (Unknown InvalidFileOffset) end.
  Proof.
    intros m cf w p debug off s mt f members Hr Em Ho Hu Ha. pose proof (reachable_ok s Hr) as H. rewrite file_at_emeta in Em.
    unfold symbolize_single. cbn [symbolize_impl]. rewrite each_single. unfold on_apk.
    pose proof (apk_resolver_ok m w p p off debug (s_apk s) (so_apk s H)) as V.
    destruct (apk_resolver m w p p off debug (s_apk s)) as [r c1]. destruct V as (-> & _).
    unfold apk_view, efile. rewrite Em, (unseen_slot _ _ _ (so_apk s H) Hu), Ho. cbn [load]. rewrite Ha.
    destruct (find_view m w p p debug off members []) as [[[r a]|]|k| |]; reflexivity.
  Qed.

  (** An offset in the data of a member is looked up with the resolver of the one
      responsible, at the address it has for the offset in the member. *)
  Theorem C61_member : forall m cf w p debug off (s : state) mt f l1 mb l2 o, reachable s ->
    file_at (w_fs w) (s_apk s) p = Good mt -> fs_open (w_fs w) p = Good f -> unseen (s_apk s) mt ->
    w_archive w f = Good (map Good l1 ++ Good mb :: l2) -> Forall small (mb :: l1) ->
    inside off mb -> Forall (fun mb => ~ inside off mb) l1 -> responsible w p debug mb o ->
    fst (symbolize_single m cf w (SApk p debug) FileOffset off s) =
    match o with
    | Bad k => Err k
    | Good r =>
        let* a := r_virt r (off - mb_offset mb) in
        match a with Some a => with_resolver m cf a r | None => Ok (Unknown InvalidFileOffset) end
    end.
  Proof.
    intros m cf w p debug off s mt f l1 mb l2 o Hr Em Ho Hu Ha Hs [Hi1 Hi2] Hn Hres.
    rewrite (apk_new m cf w p debug off s mt f _ Hr Em Ho Hu Ha). inversion Hs as [|? ? Hmb Hl1]; subst.
    unfold find_view. rewrite hit_skip by auto. cbn [hit]. rewrite add_small by auto. cbn [bind].
    destruct (N.leb_spec (mb_offset mb) off), (N.ltb_spec off (mb_offset mb + mb_len mb)); try lia. cbn [andb bind].
    unfold resolver_for. cbn [aget]. rewrite (responsible_member _ _ _ _ _ Hres). destruct o as [r|k]; cbn [of_outcome bind]; auto.
    assert (E : sub64 m off (mb_offset mb) = Ok (off - mb_offset mb)).
    { unfold sub64, usub. destruct (N.leb_spec (mb_offset mb) off); [destruct m; reflexivity|lia]. }
    rewrite E. cbn [bind]. destruct (r_virt r (off - mb_offset mb)) as [[a|]|k| |]; reflexivity.
  Qed.
  (** Offsets in none are unknown. *)
  Theorem C61_between : forall m cf w p debug off (s : state) mt f l, reachable s ->
    file_at (w_fs w) (s_apk s) p = Good mt -> fs_open (w_fs w) p = Good f -> unseen (s_apk s) mt ->
    w_archive w f = Good (map Good l) -> Forall small l -> Forall (fun mb => ~ inside off mb) l ->
    fst (symbolize_single m cf w (SApk p debug) FileOffset off s) = Ok (Unknown InvalidFileOffset).
  Proof.
    intros m cf w p debug off s mt f l Hr Em Ho Hu Ha Hs Hn.
    rewrite (apk_new m cf w p debug off s mt f _ Hr Em Ho Hu Ha). unfold find_view.
    rewrite <- (app_nil_r (map Good l)), hit_skip by auto. reflexivity.
  Qed.
  (** Archives and members that cannot be read give their error. *)
  Theorem C61_unreadable : forall m cf w p debug off (s : state) mt f k, reachable s ->
    file_at (w_fs w) (s_apk s) p = Good mt -> fs_open (w_fs w) p = Good f -> unseen (s_apk s) mt ->
    (w_archive w f = Bad k \/ exists l1 l2, w_archive w f = Good (map Good l1 ++ Bad k :: l2) /\ Forall small l1 /\ Forall (fun mb => ~ inside off mb) l1) ->
    fst (symbolize_single m cf w (SApk p debug) FileOffset off s) = Err k.
  Proof.
    intros m cf w p debug off s mt f k Hr Em Ho Hu [Ha|(l1 & l2 & Ha & Hs & Hn)].
    - pose proof (reachable_ok s Hr) as H. rewrite file_at_emeta in Em.
      unfold symbolize_single. cbn [symbolize_impl]. rewrite each_single. unfold on_apk.
      pose proof (apk_resolver_ok m w p p off debug (s_apk s) (so_apk s H)) as V.
      destruct (apk_resolver m w p p off debug (s_apk s)) as [r c1]. destruct V as (-> & _).
      unfold apk_view, efile. rewrite Em, (unseen_slot _ _ _ (so_apk s H) Hu), Ho. cbn [load]. now rewrite Ha.
    - rewrite (apk_new m cf w p debug off s mt f _ Hr Em Ho Hu Ha). unfold find_view. now rewrite hit_skip by auto.
  Qed.
End Members.

(** ** Examples *)

Definition with_apk (d : path -> member -> outcome (option resolver)) (w : world N N) : world N N :=
  World (w_fs w) (w_elf_parse w) (w_elf_plain w) (w_elf_cache w) (w_link w) (w_crc w) (w_dwp w) (w_dwarf w)
    (fun f => Good [Good (Member [f; 1] 100 50 (Some (0, []))); Good (Member [f; 2] 150 50 (Some (0, []))); Good (Member [f; 3] 300 50 None); Bad EInvalidData])
    (Some d) (w_apk_default w) (w_breakpad w) (w_gsym w) (w_perf_map w) (w_gsym_data w) (w_kernel w) (w_maps w) (w_image w) (w_dispatch w).
Definition ex_dispatch (p : path) (mb : member) : outcome (option resolver) :=
  match mb_path mb with [_; 1] => Good (Some (demo_resolver 77)) | [_; 2] => Good None | _ => Bad EUnexpectedEof end.
Definition w_apk := with_apk ex_dispatch (demo plain_setup).
Definition look_apk (w : world N N) debug off s := brief_one (fst (symbolize_single Checked demo_config w (SApk 5 debug) FileOffset off s)).
Example C61_ex :
  look_apk w_apk true 104 demo_new = Ok (inl ([77; 4096], 4096, 4)) /\
  look_apk w_apk true 170 demo_new = Ok (inl ([3000; 4112], 4112, 4)) /\
  look_apk w_apk true 310 demo_new = Err EInvalidInput /\
  look_apk w_apk true 10 demo_new = Err EInvalidData /\
  look_apk (demo plain_setup) true 10 demo_new = Ok (inr InvalidFileOffset) /\
  unseen (s_apk demo_new) (meta_of 5).
Proof. repeat (split; [vm_compute; reflexivity|]). intros q pe H. discriminate. Qed.

(** Whether debug symbols are wanted matters for the first lookup in a member only:
    later ones get the resolver made then. *)
Theorem C61_debug_refuted : exists (w : world N N) (s : state N N) off, reachable s /\
  let s1 := snd (symbolize_single Checked demo_config w (SApk 5 false) FileOffset off s) in
  look_apk w true off s = Ok (inl ([3000; 4096], 4096, 4)) /\ look_apk w true off s1 = Ok (inl ([2000; 4096], 4096, 4)).
Proof. exists (demo plain_setup), demo_new, 104. split; [apply demo_reachable|]. split; vm_compute; reflexivity. Qed.
Print Assumptions C61_member.
Print Assumptions C61_between.
Print Assumptions C61_unreadable.
Print Assumptions C61_debug_refuted.
