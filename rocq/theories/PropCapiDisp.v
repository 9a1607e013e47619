(** * C84: the process dispatcher of C programs *)

From Coq Require Import ZArith Permutation.
From Verif Require Import Base Util UtilProofs Bytes Maps Sym FileCache Symbolizer SymbolizerSpec SymbolizerState SymbolizerProcess NormalizeProofs HistorySpec HistoryProofs SymHistorySpec SymHistory Amap CapiIn CapiSpec CapiOut CapiProofs CapiCalls CapiCallsSpec CapiNorm CapiNormSpec CapiNormProofs CapiInsp CapiInspSpec CapiInspProofs CapiDisp CapiDispSpec.
From Verif Require Import PropCapiOut PropCapiCalls PropCapiNorm PropCapiInsp PropSymBatch PropSymHistory PropRemote SymbolizerDemo.
Local Open Scope N_scope.
Local Notation length := List.length.

Lemma no_nul : forall s, ~ In 0 s -> existsb (fun b => b =? 0) s = false.
Proof.
  intros s H. apply Bool.not_true_is_false. intros E. apply existsb_exists in E. destruct E as (x & Hx & E). apply N.eqb_eq in E. now subst.
Qed.
Lemma a_nul : forall s, In 0 s -> existsb (fun b => b =? 0) s = true.
Proof. intros s H. apply existsb_exists. exists 0. auto. Qed.
Lemma c_freed : forall p n h rest, p <> 0 -> 0 < n -> Permutation (hp_live h) (Lay p n 16 :: rest) ->
  Forall (fun y => apart (p, n) (region_of y)) rest -> exists h', c_free p h = Ok h' /\ shrinks h h' [Lay p n 16].
Proof.
  intros p n h rest Hp Hn P Ha. unfold c_free. destruct (N.eqb_spec p 0) as [|_]; [contradiction|].
  assert (Hin : In (Lay p n 16) (hp_live h)) by (eapply Permutation_in; [symmetry; exact P|now left]).
  destruct (find _ (hp_live h)) as [c|] eqn:E.
  - apply find_some in E. destruct E as (Hc & E). rewrite !Bool.andb_true_iff, !N.eqb_eq, N.ltb_lt in E. destruct E as ((E1 & E2) & E3).
    assert (c = Lay p n 16) as ->.
    { apply (Permutation_in _ P) in Hc. destruct Hc as [<-|Hc]; [reflexivity|]. exfalso. rewrite Forall_forall in Ha. specialize (Ha c Hc).
      unfold apart, region_of in Ha. cbn [fst snd] in Ha. lia. }
    now apply hfree.
  - exfalso. pose proof (find_none _ _ E _ Hin) as K. cbn [l_base l_size l_align] in K. rewrite !N.eqb_refl in K. destruct (N.ltb_spec 0 n); [discriminate|lia].
Qed.
Lemma shrinks_released : forall h h' bs rest, Permutation (hp_live h) (bs ++ rest) -> shrinks h h' bs -> released h h' bs.
Proof.
  intros h h' bs rest P (S1 & S2). split; auto. rewrite P. apply Permutation_app_head. symmetry. now apply S1.
Qed.

Section Dispatch.
  Context (al : allocator) (Hal : sound al) (fuel : nat) {R : Type} (open : option (list (list N)) -> list N -> outcome R) (dirs : option (list (list N))).
  Local Notation call := (dispatch_call al fuel open dirs).
  Definition short_enough (s : list N) : Prop := nlen s + 1 <= 2 ^ 63 - 1.

  Lemma called : forall ctx wants does cb file sym h, obeys fuel ctx wants does cb ->
    ~ In 0 (file ++ sym) -> short_enough file -> short_enough sym ->
    (call cb ctx (PPath file sym) h = Err EOutOfMemory /\ runs_out al) \/
    exists p q h0 path result h1 block rest h',
      (string (hp_get h0) p file /\ string (hp_get h0) q sym /\ grows h h0 [string_lay p file; string_lay q sym] 0 0 /\
      cb p q ctx h0 = Ok (result, h1) /\ wants file sym path /\ returns fuel path result h1 block /\
      call cb ctx (PPath file sym) h = Ok (dispatched (open dirs) (fun _ _ => path) (PPath file sym), h') /\
      released h1 h' (block ++ [string_lay q sym; string_lay p file])) /\
      does h0 h1 (hp_live h) block rest /\ lays_apart block rest /\ Permutation (hp_live h') rest.
  Proof.
    intros ctx wants does cb file sym h Hcb Hn Hf Hs. rewrite in_app_iff in Hn.
    assert (Nf : ~ In 0 file) by tauto. assert (Ns : ~ In 0 sym) by tauto.
    cbn [dispatch_call]. rewrite (no_nul _ Nf), (no_nul _ Ns).
    destruct (cstring_ok al Hal file h 0 0 (conj Nf Hf)) as [((p & h2) & -> & _ & _ & Sf & G1)|(-> & O)]; [|left; auto]. cbn [bind].
    destruct (cstring_ok al Hal sym h2 0 0 (conj Ns Hs)) as [((q & h0) & -> & _ & _ & Ss & G2)|(-> & O)]; [|left; auto]. cbn [bind].
    right. pose proof (grows_trans _ _ _ _ _ _ _ G1 G2) as G. cbn [app] in G.
    assert (Sf' : string (hp_get h0) p file).
    { eapply string_agree; [exact Sf|]. intros i Hi. eapply (grows_kept _ _ _ _ _ (Lay p (nlen file + 1) 1)); [exact G2|eapply grows_new; [exact G1|now left]|exact Hi|lia]. }
    assert (P0 : Permutation (hp_live h0) (string_lay q sym :: string_lay p file :: hp_live h)).
    { rewrite (gr_live _ _ _ _ _ G). cbn [app]. apply perm_swap. }
    destruct (Hcb p q file sym h0 (hp_live h) Sf' Ss P0) as (path & result & h1 & block & rest & Hw & Ec & Hr & P & Ha & Hd).
    rewrite Ec. cbn [bind].
    assert (D : exists h3, (if result =? 0 then Ok (Good None, h1) else
        let* path := read_cstr (hp_get h1) fuel result in let* h := c_free result h1 in
        Ok (match open dirs path with Good r => Good (Some r) | Bad k => Bad k end, h)) = Ok (match path with None => Good None | Some t => match open dirs t with Good r => Good (Some r) | Bad k => Bad k end end, h3) /\ shrinks h1 h3 block).
    { destruct path as [t|]; cbn [returns] in Hr.
      - destruct Hr as (Hr0 & St & Lt & n & H0 & ->). destruct (N.eqb_spec result 0) as [|_]; [contradiction|].
        rewrite (read_string _ _ _ _ St Lt). cbn [bind].
        destruct (c_freed result n h1 _ Hr0 H0 P) as (h3 & -> & S3); [inversion Ha; assumption|]. exists h3. cbn [bind]. auto.
      - destruct Hr as (-> & ->). exists h1. split; [reflexivity|apply shrinks_refl]. }
    destruct D as (h3 & -> & S3). cbn [bind]. unfold drop_cstring.
    assert (P3 := proj1 S3 _ P).
    destruct (hfree q (nlen sym + 1) 1 h3) as (h4 & -> & S4); [lia|eapply Permutation_in; [symmetry; exact P3|now left]|]. cbn [bind].
    assert (P4 := proj1 S4 (string_lay p file :: rest) P3).
    destruct (hfree p (nlen file + 1) 1 h4) as (h5 & -> & S5); [lia|eapply Permutation_in; [symmetry; exact P4|now left]|]. cbn [bind].
    exists p, q, h0, path, result, h1, block, rest, h5. split.
    - split; [exact Sf'|]. split; [exact Ss|]. split; [exact G|]. split; [exact Ec|]. split; [exact Hw|]. split; [exact Hr|]. split.
      + cbn [dispatched]. destruct (in_dec N.eq_dec 0 (file ++ sym)) as [X|_]; [rewrite in_app_iff in X; tauto|reflexivity].
      + apply (shrinks_released _ _ _ rest); [rewrite P, <- app_assoc; reflexivity|].
        apply (shrinks_trans _ h3); [exact S3|]. exact (shrinks_trans _ _ _ [_] [_] S4 S5).
    - split; [exact Hd|]. split; [|exact (proj1 S5 rest P4)].
      eapply Forall_impl; [|exact Ha]. intros x Hx. inversion Hx as [|? ? _ Hx1]; subst. inversion Hx1; assumption.
  Qed.

  (** The function is called with the two paths, and the answer is what it
      wants. Of the memory it leaves, exactly the two strings lent to it and the
      one it returned are freed. *)
  Theorem C84_dispatch : forall ctx wants cb file sym h, obeys fuel ctx wants anything cb ->
    ~ In 0 (file ++ sym) -> short_enough file -> short_enough sym ->
    (call cb ctx (PPath file sym) h = Err EOutOfMemory /\ runs_out al) \/
    exists p q h0 path result h1 block h',
      string (hp_get h0) p file /\ string (hp_get h0) q sym /\ grows h h0 [string_lay p file; string_lay q sym] 0 0 /\
      cb p q ctx h0 = Ok (result, h1) /\ wants file sym path /\ returns fuel path result h1 block /\
      call cb ctx (PPath file sym) h = Ok (dispatched (open dirs) (fun _ _ => path) (PPath file sym), h') /\
      released h1 h' (block ++ [string_lay q sym; string_lay p file]).
  Proof.
    intros ctx wants cb file sym h Hcb Hn Hf Hs.
    destruct (called ctx wants anything cb file sym h Hcb Hn Hf Hs) as [O|(p & q & h0 & path & result & h1 & block & rest & h' & H & _)]; [left; exact O|].
    right. exists p, q, h0, path, result, h1, block, h'. exact H.
  Qed.

  (** If the function does nothing but that, the memory of the program is what it
      was before. *)
  Theorem C84_memory : forall ctx wants cb file sym h a h', obeys fuel ctx wants nothing_else cb ->
    ~ In 0 (file ++ sym) -> short_enough file -> short_enough sym ->
    call cb ctx (PPath file sym) h = Ok (a, h') ->
    kept h h' /\ exists path, wants file sym path /\ a = dispatched (open dirs) (fun _ _ => path) (PPath file sym).
  Proof.
    intros ctx wants cb file sym h a h' Hcb Hn Hf Hs E.
    destruct (called ctx wants nothing_else cb file sym h Hcb Hn Hf Hs)
      as [(E' & _)|(p & q & h0 & path & result & h1 & block & rest & h2 & (_ & _ & G & Ec & Hw & Hr & E' & Hp & Hg) & (-> & Hsame) & Ha & L)];
      rewrite E in E'; [discriminate|]. injection E' as -> ->. split; [|eauto]. split; [exact L|].
    intros i Hi. assert (Hb : ~ covered block i).
    { intros Hc. unfold covered in Hc. rewrite Exists_exists in Hc. destruct Hc as (x & Hx & Hxi). unfold lays_apart in Ha. rewrite Forall_forall in Ha.
      exact (not_covered _ _ _ (Ha x Hx) Hxi Hi). }
    assert (Hl : ~ covered [string_lay p file; string_lay q sym] i).
    { intros Hc. unfold covered in Hc. rewrite Exists_exists in Hc. destruct Hc as (x & Hx & Hxi). pose proof (gr_apart _ _ _ _ _ G) as A. unfold lays_apart in A. rewrite Forall_forall in A.
      exact (not_covered _ _ _ (A x Hx) Hxi Hi). }
    rewrite Hg by (intros Hc; apply covered_app in Hc; destruct Hc as [Hc|Hc]; [auto|apply Hl; eapply covered_perm; [apply perm_swap|exact Hc]]).
    rewrite Hsame by exact Hb.
    apply (gr_same _ _ _ _ _ G); [exact Hl|lia].
  Qed.

  (** The function is not called for members that are not files, or whose name
      could not be handed over. *)
  Theorem C84_component : forall cb ctx c h, call cb ctx (PComponent c) h = Ok (Good None, h).
  Proof. reflexivity. Qed.
  Theorem C84_nul : forall cb ctx file sym h, In 0 (file ++ sym) -> short_enough file ->
    (call cb ctx (PPath file sym) h = Err EOutOfMemory /\ runs_out al) \/
    exists h', call cb ctx (PPath file sym) h = Ok (Bad EInvalidData, h') /\ kept h h'.
  Proof.
    intros cb ctx file sym h Hn Hf. cbn [dispatch_call]. destruct (in_dec N.eq_dec 0 file) as [Nf|Nf].
    - right. rewrite (a_nul _ Nf). exists h. repeat split; auto.
    - rewrite (no_nul _ Nf). apply in_app_iff in Hn. destruct Hn as [Hn|Hn]; [contradiction|].
      destruct (cstring_ok al Hal file h 0 0 (conj Nf Hf)) as [((p & h2) & -> & _ & _ & Sf & G1)|(-> & O)]; [|left; auto]. cbn [bind].
      right. rewrite (a_nul _ Hn). unfold drop_cstring.
      destruct (hfree p (nlen file + 1) 1 h2) as (h3 & -> & S3); [lia|eapply grows_new; [exact G1|now left]|]. cbn [bind]. exists h3. split; [reflexivity|]. split.
      + apply (proj1 S3). exact (gr_live _ _ _ _ _ G1).
      + intros i Hi. assert (Hl : ~ covered [Lay p (nlen file + 1) 1] i).
        { intros Hc. unfold covered in Hc. rewrite Exists_exists in Hc. destruct Hc as (x & Hx & Hxi). pose proof (gr_apart _ _ _ _ _ G1) as A. unfold lays_apart in A. rewrite Forall_forall in A.
          exact (not_covered _ _ _ (A x Hx) Hxi Hi). }
        rewrite (proj2 S3) by exact Hl. apply (gr_same _ _ _ _ _ G1); [exact Hl|lia].
  Qed.

  (** What is registered is the function and the pointer of the structure, as they
      are at that time. *)
  Theorem C84_registered : forall functions h p f c, p <> 0 -> num (hp_get h) p 8 f -> num (hp_get h) (p + 8) 8 c ->
    registered functions p h = Ok (Some (functions f, c)) /\ registered functions 0 h = Ok None.
  Proof.
    intros functions h p f c Hp (l & L & _ & V & H) (l' & L' & _ & V' & H'). split; [|reflexivity]. unfold registered. destruct (N.eqb_spec p 0) as [|_]; [contradiction|].
    unfold get_num. rewrite <- L, (read_has _ _ _ H). cbn [bind]. rewrite L, <- L', (read_has _ _ _ H'). cbn [bind]. now rewrite V, V'.
  Qed.
End Dispatch.
Print Assumptions C84_dispatch.
Print Assumptions C84_memory.
Print Assumptions C84_component.
Print Assumptions C84_nul.
Print Assumptions C84_registered.

(** ** Processes *)
Section Process.
  Context {File Parser : Type}.
  Notation world := (world File Parser).
  Notation state := (state File Parser).
  Implicit Types (w : world) (s : state).
  Definition undispatched w : world :=
    World (w_fs w) (w_elf_parse w) (w_elf_plain w) (w_elf_cache w) (w_link w) (w_crc w) (w_dwp w) (w_dwarf w) (w_archive w) (w_apk_dispatch w)
      (w_apk_default w) (w_breakpad w) (w_gsym w) (w_perf_map w) (w_gsym_data w) (w_kernel w) (w_maps w) (w_image w) None.
  Lemma undispatched_parser : forall w c p r P, parser_of (undispatched w) c p r P -> parser_of w c p r P.
  Proof.
    intros w c p r P H. inversion H; subst; [eapply PoElf|eapply PoDwarf|eapply PoOpen|eapply PoNew]; eassumption.
  Qed.
  Lemma undispatched_debug : forall w P q, debug_path (undispatched w) P q -> debug_path w P q.
  Proof. intros w P q H. inversion H; subst; [eapply DpLink|eapply DpPackage]; eassumption. Qed.
  Lemma undispatched_looked_up : forall w o es s p r, looked_up (undispatched w) o es s p r -> looked_up w o es s p r.
  Proof.
    intros w o es s p r H. inversion H; subst; [eapply LuEntry|eapply LuDebug]; eauto using undispatched_parser, undispatched_debug.
  Qed.
  Lemma undispatched_settled : forall w p o es s, settled w p o es s -> settled (undispatched w) p o es s.
  Proof.
    intros w p o es s [A B C D E]. constructor; [| |exact C|exact D|intros d e0 e1 name X; discriminate X].
    - intros p1 r1 p2 r2 mt H1 H2. apply A; now apply undispatched_looked_up.
    - intros Hd e p1 r1 P q e' p2 r2 mt He Ht Hp Hq. apply (B Hd e p1 r1 P q e' p2 r2 mt He Ht); auto using undispatched_parser, undispatched_debug.
  Qed.

  (** An address in a file the program wants to be replaced is looked up in the
      replacement, at the same offset; if that cannot be opened, this is the error.
      If there is no replacement, the result is the one without a dispatcher. *)
  Theorem C84_process : forall m cf w p o es s e a file sym op choice, reachable s -> uses_vmas w p s es -> ordered es -> settled w p o es s ->
    In e es -> me_start e <= a < me_end e -> a < 2 ^ 64 -> entry_offset e a < 2 ^ 64 -> me_path e = Some (PPath file sym) -> ~ In 0 (file ++ sym) ->
    w_dispatch w = Some (fun _ _ name => dispatched op choice name) -> aget path_name_eqb (PPath file sym) (s_process s) = None ->
    fst (symbolize_single m cf w (SProcess p o) AbsAddr a s) =
    match choice file sym with
    | Some t => match op t with Good r => translated m cf (entry_offset e a) r | Bad k => Err k end
    | None => fst (symbolize_single m cf (undispatched w) (SProcess p o) AbsAddr a s)
    end.
  Proof.
    intros m cf w p o es s e a file sym op choice Hr Hu Ho Hs He Ha Ha64 Hoff Hp Hn Hd Hc. pose proof (reachable_ok s Hr) as Hok.
    assert (Hne : es <> []) by (intros ->; destruct He).
    rewrite (user_single m cf w p o es a s Hok Hu Ho Hne Hs).
    rewrite (user_single m cf (undispatched w) p o es a s Hok Hu Ho Hne (undispatched_settled _ _ _ _ _ Hs)).
    unfold one. rewrite (lookup_unique es a e Ho He Ha). unfold entry_view, dispatch_view. rewrite Hp, Hd, Hc. cbn [undispatched w_dispatch].
    assert (Eo : (let* d := sub64 m a (me_start e) in add64 m d (me_offset e)) = Ok (entry_offset e a)).
    { unfold entry_offset in *. assert (two64 = 2 ^ 64) by reflexivity. unfold sub64, add64. rewrite usub_small by lia. cbn [bind]. apply uadd_small. lia. }
    rewrite Eo. cbn [bind dispatched]. destruct (in_dec N.eq_dec 0 (file ++ sym)) as [|_]; [contradiction|].
    destruct (choice file sym) as [t|]; [destruct (op t); reflexivity|]. cbn [of_outcome bind]. unfold default_view. reflexivity.
  Qed.

  (** This is so whatever was asked before. *)
  Theorem C84_history : forall hist m cf w p o es e a file sym op choice,
    Forall unforced hist -> undisturbed (hist ++ [OSingle m cf w (SProcess p o) AbsAddr a]) ->
    w_maps w p = Good (map Ok es) -> ordered es -> settled w p o es (s_new true) ->
    In e es -> me_start e <= a < me_end e -> a < 2 ^ 64 -> entry_offset e a < 2 ^ 64 -> me_path e = Some (PPath file sym) -> ~ In 0 (file ++ sym) ->
    w_dispatch w = Some (fun _ _ name => dispatched op choice name) ->
    fst (symbolize_single m cf w (SProcess p o) AbsAddr a (SymbolizerSpec.run hist (s_new true))) =
    match choice file sym with
    | Some t => match op t with Good r => translated m cf (entry_offset e a) r | Bad k => Err k end
    | None => fst (symbolize_single m cf (undispatched w) (SProcess p o) AbsAddr a (s_new true))
    end.
  Proof.
    intros hist m cf w p o es e a file sym op choice Hu HH Hm Ho Hs He Ha Ha64 Hoff Hp Hn Hd. rewrite C65_single by assumption.
    apply (C84_process m cf w p o es (s_new true) e a file sym op choice); auto. exists true, []. reflexivity.
  Qed.

  (** [ElfResolver::open] and [open_with_debug_dirs] (src/elf/resolver.rs lines
      163-194), which use no cache *)
  Definition opens w (op : list N -> outcome resolver) (t : list N) : Prop :=
    of_outcome (op t) = elf_alone w (path_of t) (path_of t) true.
  (** So the result is that of symbolizing the offset in the replacement, with
      any other [Symbolizer]. *)
  Theorem C84_replaced : forall hist hist' m cf w p o es e a file sym op choice t,
    Forall unforced hist -> undisturbed (hist ++ [OSingle m cf w (SProcess p o) AbsAddr a]) ->
    w_maps w p = Good (map Ok es) -> ordered es -> settled w p o es (s_new true) ->
    In e es -> me_start e <= a < me_end e -> a < 2 ^ 64 -> entry_offset e a < 2 ^ 64 -> me_path e = Some (PPath file sym) -> ~ In 0 (file ++ sym) ->
    w_dispatch w = Some (fun _ _ name => dispatched op choice name) ->
    choice file sym = Some t -> opens w op t ->
    Forall unforced hist' -> undisturbed (hist' ++ [OSingle m cf w (SElf (path_of t) true) FileOffset (entry_offset e a)]) ->
    fst (symbolize_single m cf w (SProcess p o) AbsAddr a (SymbolizerSpec.run hist (s_new true))) =
    fst (symbolize_single m cf w (SElf (path_of t) true) FileOffset (entry_offset e a) (SymbolizerSpec.run hist' (s_new true))).
  Proof.
    intros hist hist' m cf w p o es e a file sym op choice t Hu HH Hm Ho Hs He Ha Ha64 Hoff Hp Hn Hd Ht Hop Hu' HH'.
    rewrite (C84_history hist m cf w p o es e a file sym op choice) by assumption. rewrite Ht, elf_single. unfold opens in Hop.
    pose proof (run_good hist' _ Hu' HH') as G. set (h' := hist' ++ [_]) in *. set (s := SymbolizerSpec.run hist' (s_new true)) in *. clearbody s. set (q := path_of t) in *.
    assert (Hq : asked h' cf w (SElf q true)) by (right; exists m, FileOffset, (entry_offset e a); apply in_or_app; right; now left).
    assert (Hr : reads_elf h' q q true) by (eapply ReElf; eauto).
    destruct (elf_resolver w q q true (s_elf s)) as [x c] eqn:E.
    destruct (elf_resolver_alone (worlds h') _ _ (ud_elf h' HH') w q q true (s_elf s) x c) as [E2 _]; auto.
    - exists cf, (SElf q true). exact Hq.
    - eapply AeFile; eauto.
    - apply G.
    - rewrite <- E2 in Hop. cbn [fst]. destruct x as [x|k| |]; cbn [bind] in *; destruct (op t) as [r|k']; cbn [of_outcome] in Hop; congruence.
  Qed.
End Process.
Print Assumptions C84_process.
Print Assumptions C84_history.
Print Assumptions C84_replaced.

(** ** Examples: a function that has "/dbg" be used for files with absolute paths *)
Definition dc_path : list N := [47; 100; 98; 103].
Definition dc_cb : callback := fun _ q _ h =>
  match hp_get h q with
  | Some b =>
      if b =? 47 then
        let '(r, h1) := malloc nc_alloc (nlen (dc_path ++ [0])) h in
        if r =? 0 then Ok (0, h1) else let* h2 := h_put 1 r (dc_path ++ [0]) h1 in Ok (r, h2)
      else Ok (0, h)
  | None => Panic
  end.
Definition dc_choice (file sym : list N) : option (list N) := if hd 0 sym =? 47 then Some dc_path else None.
Definition dc_wants (file sym : list N) (path : option (list N)) : Prop := path = dc_choice file sym \/ path = None.
Lemma dc_obeys : forall ctx, obeys 8 ctx dc_wants nothing_else dc_cb.
Proof.
  intros ctx p q s t h others Hs (Nt & Ht) P. unfold dc_cb.
  assert (E : hp_get h q = Some (hd 0 t)).
  { specialize (Ht 0%nat (hd 0 t)). change (N.of_nat 0) with 0 in Ht. rewrite N.add_0_r in Ht. apply Ht. now destruct t. }
  rewrite E.
  assert (D : exists path result h' block others', dc_wants s t path /\ Ok (0, h) = Ok (result, h') /\ returns 8 path result h' block /\
    Permutation (hp_live h') (block ++ string_lay q t :: string_lay p s :: others') /\
    Forall (fun x => Forall (fun y => apart (region_of x) (region_of y)) (string_lay q t :: string_lay p s :: others')) block /\
    nothing_else h h' others block others').
  { exists None, 0, h, [], others. split; [right; reflexivity|]. split; [reflexivity|]. split; [split; reflexivity|]. split; [exact P|]. split; [constructor|]. split; [reflexivity|]. reflexivity. }
  destruct (N.eqb_spec (hd 0 t) 47) as [E47|]; [|exact D].
  destruct (malloc nc_alloc (nlen (dc_path ++ [0])) h) as [r h1] eqn:Em. destruct (N.eqb_spec r 0) as [->|Hr].
  - destruct (malloc_ok nc_alloc nc_sound (nlen (dc_path ++ [0])) h) as [(r' & h2 & E' & X & _)|(E' & _)]; rewrite Em in E'; [injection E' as <- _; contradiction|injection E' as ->; exact D].
  - destruct (malloc_ok nc_alloc nc_sound (nlen (dc_path ++ [0])) h) as [(r' & h2 & E' & _ & G)|(E' & _)]; rewrite Em in E'; [injection E' as <- <-|congruence].
    assert (HA : In (Lay r (N.max 1 (nlen (dc_path ++ [0]))) 16) (hp_live h1)) by (eapply grows_new; [exact G|now left]).
    destruct (hput 1 r (dc_path ++ [0]) h1 _ (N.mod_1_r r) HA) as (g & Eg & _); cbn [l_base l_size]; try lia. rewrite Eg. cbn [bind].
    destruct (bytes_made nc_alloc nc_sound _ _ _ _ _ Em Hr Eg) as ((_ & Hh & _) & G2).
    eexists (Some dc_path), r, _, _, others. split; [left; unfold dc_choice; rewrite E47; reflexivity|]. split; [reflexivity|]. split.
    { split; [exact Hr|]. split; [split; [|exact Hh]|]. { unfold dc_path. cbn. intuition discriminate. } split; [cbn; lia|]. exists (N.max 1 (nlen (dc_path ++ [0]))). split; [lia|reflexivity]. }
    split; [rewrite (gr_live _ _ _ _ _ G2); apply Permutation_app_head; exact P|]. split; [exact (lays_apart_perm _ _ _ P (gr_apart _ _ _ _ _ G2))|].
    split; [reflexivity|]. intros i Hi. apply (gr_same _ _ _ _ _ G2); [exact Hi|lia].
Qed.
Definition dc_open (dirs : option (list (list N))) (path : list N) : outcome N :=
  match dirs with None => Good (nlen path) | Some _ => Bad ENotFound end.
Definition dc_run dirs cb file sym : res (outcome (option N) * list lay * option N) :=
  let* '(a, h) := dispatch_call nc_alloc 8 dc_open dirs cb 0 (PPath file sym) nc_heap in Ok (a, hp_live h, hp_get h 4096).
Example C84_dispatch_ex :
  dc_run None dc_cb [47; 112] [47; 97] = Ok (Good (Some 4), [Lay 4096 48 8], hp_get nc_heap 4096) /\
  dc_run (Some []) dc_cb [47; 112] [47; 97] = Ok (Bad ENotFound, [Lay 4096 48 8], hp_get nc_heap 4096) /\
  dc_run None dc_cb [47; 112] [97] = Ok (Good None, [Lay 4096 48 8], hp_get nc_heap 4096) /\
  dc_run None dc_cb [47; 112] [47; 0] = Ok (Bad EInvalidData, [Lay 4096 48 8], hp_get nc_heap 4096).
Proof. vm_compute. repeat split; reflexivity. Qed.
(** A string that was not allocated by [malloc] cannot be returned: here the one
    that was lent. *)
Theorem C84_lent : exists (cb : callback) file sym, (forall p q ctx h, cb p q ctx h = Ok (q, h)) /\ dc_run None cb file sym = Panic.
Proof. exists (fun _ q _ h => Ok (q, h)), [47; 112], [47; 97]. split; [reflexivity|]. vm_compute. reflexivity. Qed.
Print Assumptions C84_lent.

(* Two mapped files, one of which is replaced; and "/dbg" cannot be opened *)
Definition dc_entries := [ent 1000 2000 0 (Some (PPath [47; 112] [47; 97])); ent 3000 4000 50 (Some (PPath [47; 113] [98]))].
Definition dc_file (p : path) : option N :=
  if p =? path_of dc_path then Some 60 else if p =? path_of [47; 97] then Some 61 else if p =? path_of [98] then Some 62 else None.
Definition dc_world (op : list N -> outcome resolver) :=
  demo (with_dispatch (fun _ _ name => dispatched op dc_choice name) (with_entries dc_entries (with_file dc_file plain_setup))).
Definition dc_op (t : list N) : outcome resolver := match dc_file (path_of t) with Some f => Good (demo_resolver (1000 + f)) | None => Bad ENotFound end.
Definition dc_replaced := dc_world dc_op.
Definition dc_opts := PropSymBatch.ex_opts.
Example C84_process_ex :
  opens dc_replaced dc_op dc_path /\
  brief_one (fst (symbolize_single Checked demo_config dc_replaced (SProcess (Pid 1) dc_opts) AbsAddr 1500 demo_new)) = Ok (inl ([1060; 4592], 4592, 4)) /\
  brief_one (fst (symbolize_single Checked demo_config dc_replaced (SElf (path_of dc_path) true) FileOffset 500 demo_new)) = Ok (inl ([1060; 4592], 4592, 4)) /\
  brief_one (fst (symbolize_single Checked demo_config dc_replaced (SProcess (Pid 1) dc_opts) AbsAddr 3004 demo_new)) =
    brief_one (fst (symbolize_single Checked demo_config (undispatched dc_replaced) (SProcess (Pid 1) dc_opts) AbsAddr 3004 demo_new)) /\
  fst (symbolize_single Checked demo_config (dc_world (fun _ => Bad EPermissionDenied)) (SProcess (Pid 1) dc_opts) AbsAddr 1500 demo_new) = Err EPermissionDenied.
Proof. split; [reflexivity|]. vm_compute. repeat split; reflexivity. Qed.
Lemma dc_file_inj : forall p q f, dc_file p = Some f -> dc_file q = Some f -> p = q.
Proof.
  intros p q f. unfold dc_file. repeat match goal with |- context [?a =? ?b] => destruct (N.eqb_spec a b) end; congruence.
Qed.
Lemma dc_stat : forall p q mt, fs_stat (w_fs dc_replaced) p = Good mt -> fs_stat (w_fs dc_replaced) q = Good mt -> p = q.
Proof.
  intros p q mt. unfold dc_replaced, dc_world, demo. cbn [w_fs fs_stat su_file with_dispatch with_entries with_file].
  destruct (dc_file p) as [f|] eqn:E; [|discriminate]. destruct (dc_file q) as [f'|] eqn:E'; [|discriminate].
  intros H H'. assert (f = f') by (unfold meta_of in *; congruence). subst f'. exact (dc_file_inj p q f E E').
Qed.
Lemma dc_target : forall a e q r, In e dc_entries -> target_paths a dc_opts e q r -> a = false /\ q = r.
Proof.
  intros a e q r [<-|[<-|[]]] (mf & sy & E & Ha & -> & ->); injection E as <- <-; vm_compute in Ha; subst a; auto.
Qed.
Example C84_settled_ex : uses_vmas dc_replaced (Pid 1) demo_new dc_entries /\ ordered dc_entries /\ settled dc_replaced (Pid 1) dc_opts dc_entries demo_new.
Proof.
  split; [reflexivity|]. split; [repeat constructor; simpl; lia|].
  assert (Hl : forall q r, looked_up dc_replaced dc_opts dc_entries demo_new q r -> q = r).
  { intros q r [e q' r' He H|e q' r' P q2' Hd]; [|discriminate]. apply (dc_target _ _ _ _ He H). }
  constructor.
  - intros q r q' r' mt H1 H2 E1 E2. apply Hl in H1, H2. subst r r'. rewrite (dc_stat q q' mt E1 E2). auto.
  - discriminate.
  - intros e q r e' q' r' mt He H. destruct (dc_target _ _ _ _ He H) as [Hf _]. discriminate.
  - discriminate.
  - intros d e e' name Hd _ _ _ _. injection Hd as <-. reflexivity.
Qed.
(* Any history of requests for the process and the replacement *)
Definition dc_asks (o : @op N N) : Prop :=
  match o with
  | OSymbolize _ cf w src _ _ | OSingle _ cf w src _ _ => w = dc_replaced /\ (src = SElf (path_of dc_path) true \/ src = SProcess (Pid 1) dc_opts)
  | _ => False
  end.
Example C84_undisturbed_ex : forall hist, Forall dc_asks hist -> undisturbed hist.
Proof.
  intros hist HF. rewrite Forall_forall in HF.
  assert (Ha : forall cf w src, asked hist cf w src -> w = dc_replaced /\ (src = SElf (path_of dc_path) true \/ src = SProcess (Pid 1) dc_opts)).
  { intros cf w src [(m & k & l & H)|(m & k & l & H)]; exact (HF _ H). }
  assert (Hw : forall w, worlds hist w -> w = dc_replaced) by (intros w (cf & src & H); apply (Ha _ _ _ H)).
  assert (Hs : forall w p o e, sees hist w p o e -> w = dc_replaced /\ o = dc_opts /\ In e dc_entries).
  { intros w p o e (cf & items & H & Hm & Hi). destruct (Ha _ _ _ H) as (-> & [X|X]); [discriminate|]. injection X as -> ->. injection Hm as <-.
    split; [reflexivity|]. split; [reflexivity|]. change (In (Ok e) (map Ok dc_entries)) in Hi. apply in_map_iff in Hi. destruct Hi as (e' & [= ->] & Hi). exact Hi. }
  assert (He : forall p r d, reads_elf hist p r d -> p = r).
  { intros p r d [cf w p0 d0 _|w pid o e p0 r0 H Ht]; auto. destruct (Hs _ _ _ _ H) as (_ & -> & Hin). apply (dc_target _ _ _ _ Hin Ht). }
  assert (Hi : forall U : path -> path -> Prop, (forall p r, U p r -> p = r) -> identified (worlds hist) U).
  { intros U HU w w' p r p' r' mt H H' Hp Hp' S S'. apply Hw in H, H'. subst. rewrite <- (HU _ _ Hp), <- (HU _ _ Hp'), (dc_stat _ _ _ S S'). auto. }
  assert (Hd : forall w P q, worlds hist w -> ~ debug_file w P q) by (intros w P q H [q0 sum X|q0 X]; apply Hw in H; subst; discriminate).
  constructor.
  - constructor.
    + intros w w' H H'. apply Hw in H, H'. subst. repeat split.
    + apply Hi. intros p r [p0 r0 d H|w p0 r0 P q _ _ _ _]; auto. eapply He; eauto.
    + intros p r H. eapply AeFile; eauto.
    + intros w w' p r p' r' mt P H H' _ _ _ _ _. apply Hw in H, H'. now subst.
    + intros w p r P q H _ _ Hq. destruct (Hd w P q H Hq).
  - apply Hi. intros p r [H _]. exact H.
  - apply Hi. intros p r [H _]. exact H.
  - apply Hi. intros p r [H _]. exact H.
  - intros w w' p r d p' r' d' mt _ _ Hp. exfalso. inversion Hp as [cf w0 p0 d0 X|w0 pid o e p0 r0 X Ht]; subst.
    + destruct (Ha _ _ _ X) as (_ & [Y|Y]); discriminate.
    + destruct (Hs _ _ _ _ X) as (_ & -> & Hin). destruct (dc_target _ _ _ _ Hin Ht). discriminate.
  - exists (demo_resolver 7). intros w p o e H Hp. destruct (Hs _ _ _ _ H) as (_ & _ & Hin). destruct Hin as [<-|[<-|[]]]; discriminate.
  - intros w w' p p' o o' e e' name f f' H H' _ _. destruct (Hs _ _ _ _ H) as (-> & _). destruct (Hs _ _ _ _ H') as (-> & _). intros [= <-] [= <-]. reflexivity.
Qed.
