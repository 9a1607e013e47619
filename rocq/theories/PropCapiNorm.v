(** * C82: normalization by C programs, from memory to memory *)

From Coq Require Import ZArith Permutation.
From Verif Require Import Base Util UtilProofs Bytes Sym Elf ElfSpec FileCache Normalize Symbolizer CapiIn CapiSpec CapiOut CapiProofs CapiCalls CapiCallsSpec CapiNorm CapiNormSpec CapiNormProofs Host HostNorm HostSpec PropCapiCalls PropCapiEnd PropHost PropHostNorm.
From Verif Require ElfExample PropZip ZipSpec.
Local Open Scope N_scope.
Local Notation length := List.length.

(** ** Results in memory *)
Section Results.
  Context (al : allocator) (Hal : sound al).
  (** The whole result can be read, in newly allocated memory, and nothing else in
      memory changes. Otherwise there is no memory, for which Rust ends the
      program. *)
  Theorem C82_output : forall m o h, output_ok o ->
    (exists p h' bs, convert_output al m o h = Ok (p, h') /\ holds h' p o bs (hp_live h) /\
       Forall (fun b => Forall (fun c => apart (region_of b) (region_of c)) (hp_live h)) bs /\
       forall i, ~ covered bs i -> hp_get h' i = hp_get h i) \/
    (convert_output al m o h = Err EOutOfMemory /\ exists h' size align, 0 < size /\ al h' size align = 0).
  Proof.
    intros m o h Ho. destruct (output_converted al Hal m o h Ho) as [((p & h') & E & bs & Hc & [L A O S])|(E & R)]; [left|right; auto].
    exists p, h', bs. split; [exact E|]. split; [split; [exact Hc|split; [exact L|exact O]]|]. split; [exact A|]. intros i Hi. apply S; [exact Hi|lia].
  Qed.
  (** Freeing a result, at any later time: exactly its allocations are given
      back. *)
  Theorem C82_free : forall fuel m o p h bs rest, Forall (short fuel) (uo_meta o) -> holds h p o bs rest ->
    exists h', blaze_user_output_free fuel m p h = Ok h' /\ Permutation (hp_live h') rest /\ forall i, ~ covered bs i -> hp_get h' i = hp_get h i.
  Proof. intros. eapply output_freed; eauto. Qed.
  Theorem C82_free_null : forall fuel m h, blaze_user_output_free fuel m 0 h = Ok h.
  Proof. reflexivity. Qed.

  (** Any number of results that are asked for and freed, in any order *)
  Inductive session (fuel : nat) (m : mode) (h0 : heap) : list (N * uoutput sym) -> heap -> Prop :=
  | SsStart : session fuel m h0 [] h0
  | SsNormalize : forall held h o p h', session fuel m h0 held h -> output_ok o -> Forall (short fuel) (uo_meta o) ->
      convert_output al m o h = Ok (p, h') -> session fuel m h0 ((p, o) :: held) h'
  | SsFree : forall a b p o h h', session fuel m h0 (a ++ (p, o) :: b) h -> blaze_user_output_free fuel m p h = Ok h' -> session fuel m h0 (a ++ b) h'.
  Definition all_held (h : heap) (held : list (N * uoutput sym)) (bss : list (list lay)) (h0 : heap) : Prop :=
    Forall2 (fun e bs => c_user_output (hp_get h) (fst e) (snd e) bs) held bss /\
    Permutation (hp_live h) (List.concat bss ++ hp_live h0) /\ all_apart (map region_of (List.concat bss)) /\
    lays_apart (List.concat bss) (hp_live h0) /\
    forall i, covered (hp_live h0) i -> hp_get h i = hp_get h0 i.
  Lemma c_user_output_agree : forall g g' p o bs, c_user_output g p o bs -> (forall i, covered bs i -> g' i = g i) -> c_user_output g' p o bs.
  Proof.
    intros g g' p o bs (metas & outputs & bs' & P0 & M0 & O0 & N1 & N2 & N3 & N4 & Hz & Cm & Co & ->) E.
    assert (E48 : forall i, p <= i < p + 48 -> g' i = g i) by (intros i Hi; apply E; constructor; exact Hi).
    assert (Ep : forall b i, In b (piece (Lay metas (64 * nlen (uo_meta o)) 8) ++ piece (Lay outputs (32 * nlen (uo_outputs o)) 8) ++ bs') -> l_base b <= i < l_base b + l_size b -> g' i = g i).
    { intros b i Hb Hi. apply E. apply Exists_cons_tl, Exists_exists. exists b. auto. }
    exists metas, outputs, bs'. split; [exact P0|]. split; [exact M0|]. split; [exact O0|].
    split; [eapply num_agree; [exact N1|]; intros i Hi; change (N.of_nat 8) with 8 in Hi; apply E48; lia|].
    split; [eapply num_agree; [exact N2|]; intros i Hi; change (N.of_nat 8) with 8 in Hi; apply E48; lia|].
    split; [eapply num_agree; [exact N3|]; intros i Hi; change (N.of_nat 8) with 8 in Hi; apply E48; lia|].
    split; [eapply num_agree; [exact N4|]; intros i Hi; change (N.of_nat 8) with 8 in Hi; apply E48; lia|].
    split; [eapply has_agree; [exact Hz|]; intros i Hi; change (nlen (repeat 0 16)) with 16 in Hi; apply E48; lia|].
    split; [|split; [|reflexivity]].
    - eapply c_umetas_agree; [exact Cm| |].
      + intros i Hi. apply (Ep (Lay metas (64 * nlen (uo_meta o)) 8)); [|exact Hi]. apply in_or_app. left. apply piece_in. cbn. lia.
      + intros i Hi. unfold covered in Hi. rewrite Exists_exists in Hi. destruct Hi as (b & Hb & Hi). apply (Ep b); [|exact Hi]. apply in_or_app. right. apply in_or_app. auto.
    - eapply c_outputs_agree; [exact Co|]. intros i Hi. apply (Ep (Lay outputs (32 * nlen (uo_outputs o)) 8)); [|exact Hi].
      apply in_or_app. right. apply in_or_app. left. apply piece_in. cbn. lia.
  Qed.
  Lemma concat_covered : forall bs bss i, In bs bss -> covered bs i -> covered (List.concat bss) i.
  Proof.
    intros bs bss i Hb Hc. unfold covered in *. rewrite Exists_exists in *. destruct Hc as (b & Hin & Hi). exists b. split; [|exact Hi]. apply in_concat. eauto.
  Qed.
  Lemma covered_lay : forall bs cs i, lays_apart bs cs -> covered cs i -> ~ covered bs i.
  Proof.
    intros bs cs i A Hc. unfold covered in Hc. rewrite Exists_exists in Hc. destruct Hc as (c & Hin & Hi). apply (not_covered c); [|exact Hi].
    apply lays_apart_sym in A. unfold lays_apart in A. rewrite Forall_forall in A. auto.
  Qed.
  (** All results that have not been freed can be read, freeing any of them
      works, and what was allocated before is as it was. *)
  Theorem C82_session : forall fuel m h0 held h, session fuel m h0 held h ->
    (exists bss, all_held h held bss h0) /\ Forall (fun e => exists h', blaze_user_output_free fuel m (fst e) h = Ok h') held /\
    (held = [] -> Permutation (hp_live h) (hp_live h0)).
  Proof.
    intros fuel m h0 held h Hs.
    assert (G : Forall (fun e => Forall (short fuel) (uo_meta (snd e))) held /\ exists bss, all_held h held bss h0).
    { induction Hs as [|held h o p h' Hs (IHs & bss & IHf & IHp & IHa & IHr & IHk) Ho Hsh E|a b p o h h' Hs (IHs & bss & IHf & IHp & IHa & IHr & IHk) E].
      - split; [constructor|]. exists []. split; [constructor|]. split; [apply Permutation_refl|]. split; [constructor|]. split; [constructor|]. reflexivity.
      - split; [constructor; auto|].
        destruct (output_converted al Hal m o h Ho) as [((p' & h1) & E' & bs & Hc & [L A O S])|(E' & _)]; rewrite E in E'; [|discriminate]. injection E' as <- <-.
        assert (A' := lays_apart_perm _ _ _ IHp A). apply lays_apart_app_r in A'. destruct A' as (A1 & A2).
        exists (bs :: bss). split; [|split; [|split; [|split]]]; cbn [List.concat].
        + constructor; [exact Hc|].
          assert (K : forall i, covered (List.concat bss) i -> hp_get h' i = hp_get h i) by (intros i Hi; apply S; [eapply covered_lay; [exact A1|exact Hi]|lia]).
          clear - IHf K. assert (K' : forall bs i, In bs bss -> covered bs i -> hp_get h' i = hp_get h i) by (intros bs i Hb Hi; apply K; eapply concat_covered; eauto). clear K.
          induction IHf as [|e bs held bss Hc _ IH]; constructor.
          * eapply c_user_output_agree; [exact Hc|]. intros i Hi. apply (K' bs i); [now left|exact Hi].
          * apply IH. intros bs' i Hb Hi. apply (K' bs' i); [now right|exact Hi].
        + rewrite L. rewrite <- app_assoc. apply Permutation_app_head. exact IHp.
        + apply lays_all. repeat split; auto.
        + apply lays_apart_app_l. auto.
        + intros i Hi. rewrite S; [now apply IHk|eapply covered_lay; [exact A2|exact Hi]|lia].
      - apply Forall_app in IHs. destruct IHs as (Sa & Sb). inversion Sb as [|? ? So Sb']; subst. cbn [snd] in So.
        split; [apply Forall_app; auto|].
        apply Forall2_app_inv_l in IHf. destruct IHf as (ba & bb & Fa & Fb & ->). inversion Fb as [|? bs ? bb' Fo Fb']; subst. cbn [fst snd] in Fo.
        assert (Pm : Permutation (List.concat (ba ++ bs :: bb')) (bs ++ List.concat (ba ++ bb'))).
        { rewrite !concat_app. cbn [List.concat]. rewrite !app_assoc. apply Permutation_app_tail, Permutation_app_comm. }
        assert (Ha' := all_apart_perm _ _ (Permutation_map region_of Pm) IHa). apply lays_all in Ha'. destruct Ha' as (A1 & A2 & A12).
        assert (Hh : holds h p o bs (List.concat (ba ++ bb') ++ hp_live h0)).
        { split; [exact Fo|]. split; [|exact A1]. rewrite IHp, Pm. now rewrite app_assoc. }
        destruct (output_freed fuel m o p h bs _ So Hh) as (h1 & E1 & P1 & K1). rewrite E in E1. injection E1 as <-.
        assert (IHr' := IHr). apply lays_apart_sym in IHr'. pose proof (lays_apart_perm _ _ _ Pm IHr') as IHr2. apply lays_apart_app_r in IHr2. destruct IHr2 as (R1 & R2).
        exists (ba ++ bb'). split; [|split; [exact P1|split; [exact A2|split; [now apply lays_apart_sym|]]]].
        + assert (K : forall i bs', In bs' (ba ++ bb') -> covered bs' i -> hp_get h' i = hp_get h i).
          { intros i bs' Hb Hi. apply K1. eapply covered_lay; [exact A12|]. eapply concat_covered; eauto. }
          assert (W : forall (l : list (N * uoutput sym)) l', Forall2 (fun e bs => c_user_output (hp_get h) (fst e) (snd e) bs) l l' -> (forall b, In b l' -> In b (ba ++ bb')) ->
            Forall2 (fun e bs => c_user_output (hp_get h') (fst e) (snd e) bs) l l').
          { intros l l' F. induction F as [|e c l l' Hc _ IH]; intros Hin; constructor.
            - eapply c_user_output_agree; [exact Hc|]. intros i Hi. apply (K i c); [apply Hin; now left|exact Hi].
            - apply IH. intros b' Hb'. apply Hin. now right. }
          apply Forall2_app; apply W; auto; intros b' Hb'; apply in_or_app; auto.
        + intros i Hi. rewrite K1; [now apply IHk|]. apply lays_apart_sym in R1. eapply covered_lay; [exact R1|exact Hi]. }
    destruct G as (Gs & bss & Gf & Gp & Ga & Gr & Gk). split; [exists bss; repeat split; auto|]. split.
    - apply Forall_forall. intros e Hin. apply in_split in Hin. destruct Hin as (a & b & ->).
      apply Forall_app in Gs. destruct Gs as (_ & Sb). inversion Sb as [|? ? So _]; subst.
      apply Forall2_app_inv_l in Gf. destruct Gf as (ba & bb & Fa & Fb & ->). inversion Fb as [|? bs ? bb' Fo Fb']; subst.
      assert (Pm : Permutation (List.concat (ba ++ bs :: bb')) (bs ++ List.concat (ba ++ bb'))).
      { rewrite !concat_app. cbn [List.concat]. rewrite !app_assoc. apply Permutation_app_tail, Permutation_app_comm. }
      assert (Ha' := all_apart_perm _ _ (Permutation_map region_of Pm) Ga). apply lays_all in Ha'. destruct Ha' as (A1 & _).
      destruct (output_freed fuel m (snd e) (fst e) h bs (List.concat (ba ++ bb') ++ hp_live h0) So) as (h1 & E1 & _); [|eauto].
      split; [exact Fo|]. split; [|exact A1]. rewrite Gp, Pm. now rewrite app_assoc.
    - intros ->. inversion Gf; subst. exact Gp.
  Qed.
End Results.
Print Assumptions C82_output.
Print Assumptions C82_free.
Print Assumptions C82_session.

(** ** Calls *)
Section Calls.
  Context (al : allocator) (Hal : sound al) (x : ext) (m : mode) (pick : N -> N -> N) (rest : world (N * list N) parser) (H : host).
  (** The library, on a computer, for a normalizer that caches VMAs or not *)
  Definition lib_on (cache : bool) (p : pid) (o : nopts) (addrs : list N) : res (uoutput sym) := host_normalize x m pick rest H p o cache addrs.

  Lemma pid_ok : forall n p, wanted_pid n p -> pid_of n = p.
  Proof. intros n p [(-> & ->)|(Hn & ->)]; [reflexivity|]. unfold pid_of. destruct (N.eqb_spec n 0); [contradiction|reflexivity]. Qed.
  Lemma impl_ok : forall lib n p addrs l o h, wanted_pid n p -> array (hp_get h) addrs l ->
    normalize_user_addrs_impl al m lib n addrs (length l) o h =
    match lib p o l with
    | Ok out => let* '(p, h) := convert_output al m out h in Ok (0%Z, p, h)
    | Err k => let* e := blaze_err_from k in Ok (e, 0, h)
    | Panic => Panic
    | NoFuel => NoFuel
    end.
  Proof. intros lib n p addrs l o h Hp Ha. unfold normalize_user_addrs_impl. rewrite (C68_arrays _ _ _ Ha). cbn [bind]. now rewrite (pid_ok n p Hp). Qed.

  (** What a call gives, for what the library says *)
  Definition gives (h : heap) (r : res (Z * N * heap)) (says : res (uoutput sym)) : Prop :=
    (forall out, says = Ok out -> output_ok out ->
      (exists p h' bs, r = Ok (0%Z, p, h') /\ holds h' p out bs (hp_live h) /\ forall i, ~ covered bs i -> hp_get h' i = hp_get h i) \/
      (r = Err EOutOfMemory /\ exists h' size align, 0 < size /\ al h' size align = 0)) /\
    (forall e, says = Err e -> e <> ENone -> r = Ok (code_of e, 0, h)).
  Lemma impl_gives : forall lib n p addrs l o h, wanted_pid n p -> array (hp_get h) addrs l ->
    gives h (normalize_user_addrs_impl al m lib n addrs (length l) o h) (lib p o l).
  Proof.
    intros lib n p addrs l o h Hp Ha. rewrite (impl_ok lib n p addrs l o h Hp Ha). split.
    - intros out E Ho. rewrite E. destruct (C82_output al Hal m out h Ho) as [(q & h' & bs & -> & Hh & _ & Hk)|(-> & R)]; cbn [bind]; [left|right; auto].
      exists q, h', bs. auto.
    - intros e E He. rewrite E, (code_from _ He). reflexivity.
  Qed.
  (** The default options: symbolic paths, archives as they are *)
  Theorem C82_normalize : forall cache build_ids n p addrs l h, wanted_pid n p -> array (hp_get h) addrs l ->
    gives h (blaze_normalize_user_addrs al m (lib_on cache) build_ids n addrs (length l) h) (host_normalize x m pick rest H p (NOpts false false false build_ids) cache l).
  Proof. intros. now apply (impl_gives (lib_on cache)). Qed.
  Theorem C82_normalize_opts : forall cache build_ids n p addrs l c o more h, wanted_pid n p -> array (hp_get h) addrs l ->
    declares c -> unknown_zero 11 c -> options c build_ids o ->
    gives h (blaze_normalize_user_addrs_opts al m (lib_on cache) build_ids n addrs (length l) (c ++ more) h) (host_normalize x m pick rest H p o cache l).
  Proof.
    intros cache build_ids n p addrs l c o more h Hp Ha Hc U (F1 & F2 & F3 & F4). unfold blaze_normalize_user_addrs_opts.
    destruct (taken blaze_normalize_opts c (c ++ more)) as (z & E & Hz); [cbn; tauto|split; eauto|exact U|]. rewrite E. cbn [bind]. unfold normalize_flags.
    rewrite (flag_there _ 1 c z _ Hz) by first [exact F1|at_]. rewrite (flag_there _ 2 c z _ Hz) by first [exact F2|at_]. rewrite (flag_there _ 3 c z _ Hz) by first [exact F3|at_]. cbn [bind].
    replace (NOpts (no_sorted_addrs o) (no_map_files o) (no_apk_to_elf o) build_ids) with o by (destruct o; cbn in *; congruence).
    now apply (impl_gives (lib_on cache)).
  Qed.
  (** Options with members that are unknown *)
  Theorem C82_refused : forall lib build_ids n addrs cnt c more h, declares c -> ~ unknown_zero 11 c ->
    blaze_normalize_user_addrs_opts al m lib build_ids n addrs cnt (c ++ more) h = Ok ((-256)%Z, 0, h).
  Proof.
    intros lib build_ids n addrs cnt c more h Hc U. unfold blaze_normalize_user_addrs_opts.
    destruct (PropCapiIn.C47_taken blaze_normalize_opts c more ltac:(cbn; tauto) Hc) as (_ & B). now rewrite (B U).
  Qed.
End Calls.
Print Assumptions C82_normalize.
Print Assumptions C82_normalize_opts.
Print Assumptions C82_refused.

(** ** Creating normalizers *)
Theorem C82_options : forall c more query cache_vmas build_ids cache_build_ids, declares c -> unknown_zero 12 c ->
  nflag c 8 query -> nflag c 9 cache_vmas -> nflag c 10 build_ids -> nflag c 11 cache_build_ids ->
  blaze_normalizer_new_opts (c ++ more) = Ok (0%Z, Some (NBuilt query cache_vmas build_ids cache_build_ids)).
Proof.
  intros c more q cv b cb Hc U F1 F2 F3 F4. unfold blaze_normalizer_new_opts.
  destruct (taken blaze_normalizer_opts c (c ++ more)) as (z & E & Hz); [cbn; tauto|split; eauto|exact U|]. rewrite E. cbn [bind].
  rewrite (flag_there _ 1 c z _ Hz) by first [exact F1|at_]. rewrite (flag_there _ 2 c z _ Hz) by first [exact F2|at_].
  rewrite (flag_there _ 3 c z _ Hz) by first [exact F3|at_]. rewrite (flag_there _ 4 c z _ Hz) by first [exact F4|at_]. reflexivity.
Qed.
Print Assumptions C82_options.
Theorem C82_options_refused : forall c more, declares c -> ~ unknown_zero 12 c -> blaze_normalizer_new_opts (c ++ more) = Ok (-256, None)%Z.
Proof.
  intros c more Hc U. unfold blaze_normalizer_new_opts.
  destruct (PropCapiIn.C47_taken blaze_normalizer_opts c more ltac:(cbn; tauto) Hc) as (_ & B). now rewrite (B U).
Qed.
Print Assumptions C82_options_refused.
(** Options of a program whose header has none of these are not those of
    [blaze_normalizer_new]: build IDs are not read. *)
Theorem C82_default_refuted : exists b, blaze_normalizer_new = (0%Z, Some b) /\ nb_build_ids b = true /\
  forall c more, declares c -> (forall i, 8 <= i -> byte c i = 0) ->
    exists b', blaze_normalizer_new_opts (c ++ more) = Ok (0%Z, Some b') /\ nb_build_ids b' = false.
Proof.
  eexists. split; [reflexivity|]. split; [reflexivity|]. intros c more Hc Hz. eexists. split; [apply C82_options; auto; [intros i Hi; apply Hz; lia|..]; try (instantiate (1 := false)); apply Hz; lia|reflexivity].
Qed.
Print Assumptions C82_default_refuted.

(** ** Examples: memory is handed out upwards, and the process of C73 *)
Definition nc_top (h : heap) : N := fold_right (fun b t => N.max (l_base b + l_size b) t) 65536 (hp_live h).
Definition nc_alloc : allocator := fun h size align =>
  let p := (nc_top h / align + 1) * align in
  if (align =? 0) || (2 ^ 40 <? p + size) then 0 else p.
Lemma nc_above : forall l, Forall (fun b => l_base b + l_size b <= fold_right (fun b t => N.max (l_base b + l_size b) t) 65536 l) l.
Proof.
  induction l as [|b l IH]; constructor; cbn [fold_right]; [lia|]. eapply Forall_impl; [|exact IH]. intros c Hc. cbn beta in Hc. lia.
Qed.
Lemma nc_sound : sound nc_alloc.
Proof.
  intros h size align Hs. unfold nc_alloc. destruct (N.eqb_spec align 0) as [|Ha]; cbn [orb]; [contradiction|].
  destruct (N.ltb_spec (2 ^ 40) ((nc_top h / align + 1) * align + size)) as [|Hf]; [contradiction|]. intros _.
  split; [now apply N.mod_mul|]. split; [change (2 ^ 40) with 1099511627776 in Hf; change (2 ^ 64) with 18446744073709551616; lia|].
  pose proof (N.mul_succ_div_gt (nc_top h) align Ha) as Ht.
  eapply Forall_impl; [|exact (nc_above (hp_live h))]. intros b Hb. unfold apart, region_of. cbn [fst snd]. right. change (l_base b + l_size b <= nc_top h) in Hb. rewrite N.mul_comm, N.add_1_r. lia.
Qed.
(* The program's own array of addresses *)
Definition nc_addrs : list N := [7340032 + 178; 4194304 + 178; 5242880 + 178; 6291456 + 71 + 100; 4294967290; 0].
Definition nc_mem : mem := fun i => if (4096 <=? i) && (i <? 4096 + 48) then nnth (i - 4096) (flat_map (le_bytes 8) nc_addrs) else None.
Definition nc_heap : heap := Heap [Lay 4096 48 8] nc_mem.
(* sort_addrs 0, map_files 0, apk_to_elf 1 *)
Definition nc_opts : list N := le_bytes 8 16 ++ [0; 0; 1; 0; 0; 0; 0; 0].
Definition nc_call (h : host) (n : N) (hp : heap) : res (Z * N * heap) :=
  blaze_normalize_user_addrs_opts nc_alloc Checked (lib_on ElfExample.no_ext Checked (fun _ _ => 0) ex_rest h false) true n 4096 6 nc_opts hp.
Example C82_array_ex : array nc_mem 4096 nc_addrs.
Proof.
  split; [discriminate|]. intros i v E. assert (Hi : (i < 6)%nat) by (apply (nth_error_Some nc_addrs i); congruence).
  exists (le_bytes 8 v). do 6 (destruct i as [|i];
    [injection E as <-; split; [reflexivity|]; split; [repeat constructor; reflexivity|]; split; [reflexivity|];
     intros i x Hx; do 8 (destruct i as [|i]; [exact Hx|]); destruct i; discriminate|]). lia.
Qed.
(* The fourth meta data is of the archive's member: its path and build ID are read. *)
Example C82_call_ex :
  (let* '(code, p, h) := nc_call nx_host 7 nc_heap in
   let* metas := get_num 8 (p + 8) h in
   let* kind := get_num 1 (metas + 3 * 64) h in
   let* path := get_num 8 (metas + 3 * 64 + 8) h in
   let* text := read_cstr (hp_get h) 100 path in
   let* len := get_num 8 (metas + 3 * 64 + 16) h in
   let* id := get_num 8 (metas + 3 * 64 + 24) h in
   let* id := read_at (hp_get h) id (N.to_nat len) in
   let* h' := blaze_user_output_free 100 Checked p h in
   Ok (code, kind, text, id, nlen (hp_live h), hp_live h')) =
  Ok (0%Z, 2, ex_apk ++ [33; 47; 98; 47; 99], [222; 173; 190; 239; 1], 10, [Lay 4096 48 8]) /\
  (let* '(code, p, h) := nc_call nx_host 8 nc_heap in Ok (code, p, hp_live h)) = Ok ((-2)%Z, 0, [Lay 4096 48 8]).
Proof. split; vm_compute; reflexivity. Qed.
Lemma nc_opts_ok : declares nc_opts /\ unknown_zero 11 nc_opts /\ options nc_opts true (NOpts false false true true).
Proof.
  split; [split; [repeat constructor; reflexivity|split; [split; [vm_compute; discriminate|reflexivity]|reflexivity]]|].
  split; [|repeat split]. intros i Hi. unfold byte. destruct (N.ltb_spec i 16) as [L|L].
  - assert (K : forallb (fun j => nth j nc_opts 0 =? 0) (seq 11 5) = true) by reflexivity. rewrite forallb_forall in K. apply N.eqb_eq, K, in_seq. lia.
  - apply nth_overflow. cbn. lia.
Qed.

(** Paths with a zero byte: the call does not return. *)
Definition nul_path (u : umeta sym) : Prop := match u with UApk path | UElf path _ => In 0 path | _ => False end.
Lemma cstring_nul : forall al s h r, In 0 s -> cstring_new al s h <> Ok r.
Proof.
  intros al s h r Hs. unfold cstring_new. replace (existsb (fun b => b =? 0) s) with true; [discriminate|]. symmetry. apply existsb_exists. exists 0. auto.
Qed.
Lemma umeta_nul : forall al m u out h h', nul_path u -> convert_umeta al m u out h <> Ok h'.
Proof.
  intros al m u out h h' Hu. unfold convert_umeta. destruct u as [path|path id|s|r]; cbn [nul_path] in Hu; try contradiction; unfold convert_apk, convert_elf;
    (destruct (cstring_new al path h) as [(q & h1)| | |] eqn:E; [now apply cstring_nul in E|discriminate..]).
Qed.
Lemma metas_nul : forall al m l out h h', Exists nul_path l -> convert_metas al m l out h <> Ok h'.
Proof.
  intros al m l. induction l as [|u l IH]; intros out h h' Hl; [inversion Hl|]. cbn [convert_metas].
  destruct (convert_umeta al m u out h) as [h1| | |] eqn:E; cbn [bind]; try discriminate. inversion Hl; subst; [now apply umeta_nul in E|now apply IH].
Qed.
Theorem C82_nul : forall al m lib build_ids n p addrs l c o h out r, wanted_pid n p -> array (hp_get h) addrs l -> declares c -> unknown_zero 11 c -> options c build_ids o ->
  lib p o l = Ok out -> Exists nul_path (uo_meta out) ->
  blaze_normalize_user_addrs_opts al m lib build_ids n addrs (length l) c h <> Ok r.
Proof.
  intros al m lib build_ids n p addrs l c o h out r Hp Ha Hc U (F1 & F2 & F3 & F4) El Hn. unfold blaze_normalize_user_addrs_opts.
  destruct (taken blaze_normalize_opts c c) as (z & E & Hz); [cbn; tauto|split; [exact Hc|exists []; now rewrite app_nil_r]|exact U|]. rewrite E. cbn [bind]. unfold normalize_flags.
  rewrite (flag_there _ 1 c z _ Hz) by first [exact F1|at_]. rewrite (flag_there _ 2 c z _ Hz) by first [exact F2|at_]. rewrite (flag_there _ 3 c z _ Hz) by first [exact F3|at_]. cbn [bind].
  replace (NOpts (no_sorted_addrs o) (no_map_files o) (no_apk_to_elf o) build_ids) with o by (destruct o; cbn in *; congruence).
  rewrite (impl_ok al m lib n p addrs l o h Hp Ha), El. unfold convert_output.
  destruct (h_alloc al _ 8 h) as [(q & h1)| | |]; cbn [bind]; try discriminate.
  destruct (convert_metas al m (uo_meta out) q h1) as [h2| | |] eqn:E2; [now apply metas_nul in E2|discriminate..].
Qed.
Print Assumptions C82_nul.

(** An archive of which a member's name has a zero byte: the library can say
    where the address is, but the call of a C program ends it. *)
Definition nc_rs : list ZipSpec.cdrec := [PropZip.sample_record 0 [97]; PropZip.sample_record 36 [98; 0; 99]].
Definition nc_members : list N := PropZip.sample_local 0 [97] [1; 2; 3] ++ PropZip.sample_local 0 [98; 0; 99] nx_data.
Definition nc_zip : list N := nc_members ++ flat_map ZipSpec.enc_cdrec nc_rs ++ ZipSpec.enc_eocd (ZipSpec.Eocd 0 0 2 2 0 (nlen nc_members) 0).
Definition nc_host : host :=
  Host (h_stat nx_host) (fun p => if p =? path_of ex_apk then Good (4096 - 71, nc_zip) else h_open nx_host p) (h_maps nx_host) (h_memory nx_host) 42 (fun _ => 8).
Theorem C82_nul_refuted : exists H c o p addrs l h out, options c true o /\ declares c /\ unknown_zero 11 c /\ wanted_pid 7 p /\ array (hp_get h) addrs l /\
  host_normalize ElfExample.no_ext Checked (fun _ _ => 0) ex_rest H p o false l = Ok out /\
  forall al r, blaze_normalize_user_addrs_opts al Checked (lib_on ElfExample.no_ext Checked (fun _ _ => 0) ex_rest H false) true 7 addrs (length l) c h <> Ok r.
Proof.
  exists nc_host, nc_opts, (NOpts false false true true), (Pid 7), 4096, nc_addrs, nc_heap. destruct nc_opts_ok as (O1 & O2 & O3).
  eexists. split; [exact O3|]. split; [exact O1|]. split; [exact O2|]. split; [right; split; [discriminate|reflexivity]|]. split; [exact C82_array_ex|].
  split; [vm_compute; reflexivity|].
  intros al r. eapply (C82_nul al Checked _ true 7 (Pid 7) 4096 nc_addrs nc_opts (NOpts false false true true) nc_heap); [right; split; [discriminate|reflexivity]|exact C82_array_ex|exact O1|exact O2|exact O3|vm_compute; reflexivity|].
  do 3 apply Exists_cons_tl. apply Exists_cons_hd. vm_compute. auto 30.
Qed.
Print Assumptions C82_nul_refuted.
