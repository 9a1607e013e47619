(** * C64: an [Inspector] used for many calls *)

From Verif Require Import Base Util Amap FileCache FileCacheProofs CacheViews Sym Inspect Symbolizer SymbolizerElf
  SymbolizerDemo HistorySpec HistoryProofs Inspector InspectorSpec.
Local Open Scope N_scope.

Section Inspector.
  Context {File Parser : Type}.
  Notation world := (world File Parser).
  Notation icall := (icall File Parser).
  Implicit Types (w : world) (h : list icall).

  (** ** Names, one after another *)
  Lemma find_all_ok : forall r names,
    (exists ls, answers r names ls /\ find_all r (all_syms true) names = Ok ls) \/
    first_failure r names (find_all r (all_syms true) names).
  Proof.
    intros r names. induction names as [|n names IH]; cbn [find_all].
    - left. exists []. split; [constructor|reflexivity].
    - destruct (r_find_addr r n (all_syms true)) as [l|k| |] eqn:E; cbn [bind].
      + destruct IH as [(ls & Ha & ->)|(b & n' & a & ls & -> & Hb & Hf)]; cbn [bind].
        * left. exists (l :: ls). split; [now constructor|reflexivity].
        * right. exists (n :: b), n', a, (l :: ls). split; auto. split; [now constructor|].
          destruct Hf as [(k & H1 & ->)|[[H1 ->]|[H1 ->]]]; cbn [bind]; eauto.
      + right. exists [], n, names, []. split; auto. split; [constructor|]. left. eauto.
      + right. exists [], n, names, []. split; auto. split; [constructor|]. auto.
      + right. exists [], n, names, []. split; auto. split; [constructor|]. auto.
  Qed.

  Section Run.
    Variable h : list icall.
    Hypothesis HS : steady h.
    Let W := world_in h.

    Definition good (s : inspector File Parser) : Prop :=
      good_files W (breakpad_in h) w_breakpad (in_breakpad s) /\ good_elf W (debug_in h) (elf_in h) (in_elf s).
    Lemma good_new : good i_new.
    Proof. split; [apply good_files_new|apply good_elf_new]. Qed.

    Definition get w (src : isource) (s : inspector File Parser) : res resolver * inspector File Parser :=
      match src with IBreakpad p => i_breakpad w p s | IElf p d => i_elf w p d s end.
    Lemma get_alone : forall c s x s', In c h -> good s -> get (world_of c) (source_of c) s = (x, s') ->
      x = source_alone (world_of c) (source_of c) /\ good s'.
    Proof.
      intros c s x s' Hc [G1 G2] E. destruct HS as [HL HB].
      assert (Hw : W (world_of c)) by (exists c; auto).
      destruct (source_of c) as [p|p d] eqn:Es; cbn [get source_alone] in *.
      - unfold i_breakpad in E. destruct (file_resolver _ _ _ _) as [r b] eqn:Ef. injection E as <- <-.
        destruct (file_resolver_alone W (breakpad_in h) w_breakpad) with (w := world_of c) (p := p) (c := in_breakpad s) (r := r) (c' := b)
          as [-> G]; auto.
        + intros w w' H H'. apply (la_program _ _ _ HL w w' H H').
        + split; eauto.
        + split; auto. split; auto.
      - unfold i_elf in E. destruct (elf_resolver _ _ _ _ _) as [r b] eqn:Ef. injection E as <- <-.
        destruct (elf_resolver_alone W (debug_in h) (elf_in h) HL (world_of c) p p d (in_elf s) r b) as [R G]; auto.
        + econstructor; eauto.
        + intros ->. split; auto. exists c. auto.
        + split; auto. split; auto.
    Qed.
    Lemma good_after : forall c s, In c h -> good s -> good (i_after c s).
    Proof.
      intros c s Hc G. destruct (get (world_of c) (source_of c) s) as [x s'] eqn:E.
      destruct (get_alone c s x s' Hc G E) as [_ G'].
      destruct c as [w src names|w src go]; cbn [world_of source_of i_after] in *.
      - change (i_lookup w src names s) with (then_ (get w src s) (fun r s => (find_all r (all_syms true) names, s))).
        rewrite E. destruct x; cbn [then_ snd]; auto.
      - unfold i_for_each. destruct src as [p|p d]; cbn [get] in E; rewrite E; destruct x; cbn [snd]; auto.
    Qed.
    Lemma good_run : forall l s, incl l h -> good s -> good (fold_left (fun s c => i_after c s) l s).
    Proof.
      induction l as [|c l IH]; intros s Hl G; cbn [fold_left]; auto.
      apply IH; [intros x Hx; apply Hl; now right|]. apply good_after; auto. apply Hl. now left.
    Qed.
  End Run.

  (** Looking up names gives what it would with a new inspector: for each name
      the symbols the source has, or the first problem. *)
  Theorem C64_lookup : forall h w src names, steady (h ++ [ILookup w src names]) ->
    looked_up w src names (fst (i_lookup w src names (i_run h))).
  Proof.
    intros h w src names HS. set (h' := h ++ [ILookup w src names]) in *.
    assert (Hc : In (ILookup w src names) h') by (apply in_or_app; right; now left).
    assert (G : good h' (i_run h)).
    { apply good_run; auto; [|apply good_new]. intros x Hx. apply in_or_app. now left. }
    destruct (get w src (i_run h)) as [x s'] eqn:E.
    destruct (get_alone h' HS _ _ _ _ Hc G E) as [Hx _]. cbn [world_of source_of] in Hx.
    change (i_lookup w src names (i_run h)) with
      (then_ (get w src (i_run h)) (fun r s => (find_all r (all_syms true) names, s))).
    rewrite E. unfold looked_up. rewrite <- Hx. destruct x as [r|k| |]; cbn [then_ fst]; auto.
    destruct (find_all_ok r names) as [(ls & Ha & Hf)|Hf]; [left; exists ls; auto|right; exact Hf].
  Qed.
  (** Iterating, too *)
  Theorem C64_for_each : forall h w src go, steady (h ++ [IForEach w src go]) ->
    visited w src go (fst (i_for_each w src go (i_run h))).
  Proof.
    intros h w src go HS. set (h' := h ++ [IForEach w src go]) in *.
    assert (Hc : In (IForEach w src go) h') by (apply in_or_app; right; now left).
    assert (G : good h' (i_run h)).
    { apply good_run; auto; [|apply good_new]. intros x Hx. apply in_or_app. now left. }
    destruct (get w src (i_run h)) as [x s'] eqn:E.
    destruct (get_alone h' HS _ _ _ _ Hc G E) as [Hx _]. cbn [world_of source_of] in Hx.
    unfold i_for_each, visited. rewrite <- Hx.
    destruct src as [p|p d]; cbn [get] in E; rewrite E; destruct x as [r|k| |]; reflexivity.
  Qed.
  (** As long as no debug information is asked for, files that tell changes and
      have one name are all that is needed. *)
  Theorem C64_plain : forall h,
    (forall c p, In c h -> source_of c <> IElf p true) -> one_program (world_in h) ->
    identified (world_in h) (fun p r => p = r /\ exists c, In c h /\ source_of c = IElf p false) ->
    identified (world_in h) (breakpad_in h) -> steady h.
  Proof.
    intros h Hd Hp Hi Hb. split; auto.
    assert (Hn : forall p r, ~ debug_in h p r) by (intros p r [_ (c & Hc & Hs)]; eapply Hd; eauto).
    constructor; auto.
    - intros w w' p r p' r' m Hw Hw' H H' E E'.
      assert (X : forall p r, elf_in h p r -> p = r /\ exists c, In c h /\ source_of c = IElf p false).
      { intros p0 r0 [p1 d c Hc Hs|p1 c w1 P q Hc Hs _ _ _].
        - split; auto. exists c. split; auto. destruct d; auto. exfalso. eapply Hd; eauto.
        - exfalso. eapply Hd; eauto. }
      apply (Hi w w' p r p' r' m); auto.
    - intros p r H. exfalso. eapply Hn; eauto.
    - intros w w' p r p' r' m P _ _ H. exfalso. eapply Hn; eauto.
    - intros w p r P q _ H. exfalso. eapply Hn; eauto.
  Qed.
End Inspector.
Print Assumptions C64_lookup.
Print Assumptions C64_for_each.
Print Assumptions C64_plain.

(** ** Examples: files are numbers, a parser knows the file and the path it was
    read from, and a file's symbols are at an address made of both *)
Definition ex_world (file : path -> option (N * N)) (dwp : N -> option path) : world N N :=
  World
    (Fs (fun p => match file p with Some (id, _) => Good (meta_of id) | None => Bad ENotFound end)
        (fun p => match file p with Some (_, f) => Good f | None => Bad ENotFound end))
    (fun f r => if f <? 100 then Good (f + 1000 * r) else Bad EInvalidData)
    demo_resolver (fun _ => Good tt) (fun _ => Ok None) (fun _ => 0) dwp
    (fun P _ dwp => Good (demo_resolver (match dwp with Some D => 100000 + D | None => P end)))
    (fun _ => Bad EInvalidData) None (fun _ _ _ => Bad EInvalidData)
    (fun f r => if f <? 100 then Bad EInvalidData else Good (demo_resolver f)) (fun _ _ => Bad EInvalidData) (fun _ _ => Bad EInvalidData)
    (fun _ => Bad EInvalidData) (fun _ => Bad EInvalidData)
    (fun _ => Bad ENotFound) (fun _ _ => demo_resolver 0) None.
(** Path 1 is file 11, path 2 a package of debug information for it, or not
    there, and path 3 a Breakpad file *)
Definition ex_files (two : option (N * N)) (p : path) : option (N * N) :=
  if p =? 1 then Some (11, 11) else if p =? 2 then two else if p =? 3 then Some (103, 103) else None.
Definition ex_dwp (P : N) : option path := if P =? 1011 then Some 2 else None.
Definition addrs_of (x : res (list (list sym_info))) : res (list (list N)) :=
  let* ls := x in Ok (map (map si_addr) ls).
Definition ex_a := ex_world (ex_files (Some (12, 12))) ex_dwp.
(** The file is another one. *)
Definition ex_b := ex_world (fun p => if p =? 1 then Some (13, 13) else ex_files (Some (12, 12)) p) ex_dwp.

Definition ex_h : list (icall N N) :=
  [ILookup ex_a (IElf 1 true) [[7]]; ILookup ex_b (IElf 1 false) [[7]; []]; IForEach ex_a (IBreakpad 3) (fun _ => true);
   ILookup ex_a (IElf 1 false) [[7]; [8]]].
Example C64_example :
  fst (i_lookup ex_a (IElf 1 true) [[7]; [8]] (i_run ex_h)) =
    Ok [[SymInfo [7] (16 * 102012) (Some 16) TFunction (Some 102012) None];
        [SymInfo [8] (16 * 102012) (Some 16) TFunction (Some 102012) None]] /\
  addrs_of (fst (i_lookup ex_b (IElf 1 false) [[7]] (i_run ex_h))) = Ok [[16 * 1013]] /\
  fst (i_lookup ex_b (IElf 1 false) [[7]; []; [8]] (i_run ex_h)) = Err EInvalidInput /\
  fst (i_lookup ex_b (IElf 4 true) [] (i_run ex_h)) = Err ENotFound /\
  fst (i_for_each ex_b (IBreakpad 3) (fun l => nlen l <? 1) (i_run ex_h)) =
    ([SymInfo [1] (16 * 103) (Some 16) TFunction None None], Ok tt).
Proof. vm_compute. auto 10. Qed.
(** There is nothing in the way of remembering in there. *)
Lemma ex_world_in : forall l w, world_in (ex_h ++ [l]) w -> world_of l = ex_a \/ world_of l = ex_b -> w = ex_a \/ w = ex_b.
Proof.
  intros l w (c & Hc & ->) Hl. unfold ex_h in Hc. cbn [app] in Hc.
  repeat (destruct Hc as [<-|Hc]; [cbn [world_of]; auto|]). destruct Hc.
Qed.
Example C64_example_steady : steady (ex_h ++ [ILookup ex_a (IElf 1 true) [[7]; [8]]]).
Proof.
  set (h := ex_h ++ _).
  assert (HW : forall w, world_in h w -> w = ex_a \/ w = ex_b).
  { intros w Hw. apply (ex_world_in _ _ Hw). now left. }
  assert (HE : forall c p d, In c h -> source_of c = IElf p d -> p = 1).
  { intros c p d Hc. unfold h, ex_h in Hc. cbn [app] in Hc.
    repeat (destruct Hc as [<-|Hc]; [cbn [source_of]; congruence|]). destruct Hc. }
  assert (HB : forall c p, In c h -> source_of c = IBreakpad p -> p = 3).
  { intros c p Hc. unfold h, ex_h in Hc. cbn [app] in Hc.
    repeat (destruct Hc as [<-|Hc]; [cbn [source_of]; congruence|]). destruct Hc. }
  assert (HQ : forall w P q, world_in h w -> parsed w 1 1 = Ok P -> debug_file w P q -> q = 2 /\ w = ex_a /\ P = 1011).
  { intros w P q Hw HP Hq. destruct (HW w Hw) as [->| ->]; vm_compute in HP; injection HP as <-; destruct Hq as [q s H|q H];
      vm_compute in H; try discriminate. injection H as <-. auto. }
  assert (HU : forall p r, elf_in h p r -> p = r /\ (p = 1 \/ p = 2)).
  { intros p r [p0 d c Hc Hs|p0 c w P q Hc Hs Hw HP Hq]; split; auto.
    - left. eapply HE; eauto.
    - right. rewrite (HE _ _ _ Hc Hs) in HP. eapply HQ; eauto. }
  split.
  - constructor.
    + intros w w' Hw Hw'. destruct (HW w Hw) as [->| ->], (HW w' Hw') as [->| ->]; repeat split.
    + intros w w' p r p' r' m Hw Hw' Hp Hp'. destruct (HU _ _ Hp) as [<- [->| ->]], (HU _ _ Hp') as [<- [->| ->]];
        destruct (HW w Hw) as [->| ->], (HW w' Hw') as [->| ->]; vm_compute; intros; split; congruence.
    + intros p r [<- (c & Hc & Hs)]. econstructor; eauto.
    + intros w w' p r p' r' m P Hw Hw' [<- (c & Hc & Hs)] [<- (c' & Hc' & Hs')].
      rewrite (HE _ _ _ Hc Hs), (HE _ _ _ Hc' Hs').
      destruct (HW w Hw) as [->| ->], (HW w' Hw') as [->| ->]; auto; intros H H'; vm_compute in H, H'; congruence.
    + intros w p r P q Hw [<- (c & Hc & Hs)]. assert (p = 1) by (eapply HE; eauto). subst p. intros HP Hq.
      destruct (HQ w P q Hw HP Hq) as (-> & -> & ->). split.
      * eapply (EiDebug h 1 c ex_a 1011); auto.
      * intros m H H'. vm_compute in H, H'. congruence.
  - intros w w' p r p' r' m Hw Hw' [<- (c & Hc & Hs)] [<- (c' & Hc' & Hs')].
    rewrite (HB _ _ Hc Hs), (HB _ _ Hc' Hs').
    destruct (HW w Hw) as [->| ->], (HW w' Hw') as [->| ->]; vm_compute; intros; split; congruence.
Qed.

(** ** Refuted: remembered for a file that did not change *)

(** Debug information is looked for once only. A package that shows up later
    is not used, and one that changes is not noticed. *)
Theorem C64_debug_refuted : exists (h : list (icall N N)) w src names,
  (forall c, In c h -> one_program (fun w' => w' = w \/ w' = world_of c)) /\
  (forall c, In c h -> identified (fun w' => w' = w \/ w' = world_of c) (fun p r => p = r)) /\
  ~ looked_up w src names (fst (i_lookup w src names (i_run h))).
Proof.
  exists [ILookup (ex_world (ex_files None) ex_dwp) (IElf 1 true) [[7]]], ex_a, (IElf 1 true), [[7]].
  split; [|split].
  - intros c [<-|[]] w w' [->| ->] [->| ->]; repeat split.
  - intros c [<-|[]] w w' p r p' r' m Hw Hw' <- <- H H'. cbn [world_of] in *.
    assert (X : forall w p m, w = ex_a \/ w = ex_world (ex_files None) ex_dwp -> fs_stat (w_fs w) p = Good m ->
      (p = 1 /\ m = meta_of 11 /\ fs_open (w_fs w) p = Good 11) \/ (p = 2 /\ m = meta_of 12 /\ fs_open (w_fs w) p = Good 12) \/
      (p = 3 /\ m = meta_of 103 /\ fs_open (w_fs w) p = Good 103)).
    { clear. intros w p m Hw. destruct Hw as [->| ->]; cbn [w_fs ex_a ex_world fs_stat fs_open]; unfold ex_files;
        destruct (N.eqb_spec p 1) as [->|]; [left; repeat split; congruence| |left; repeat split; congruence| ];
        destruct (N.eqb_spec p 2) as [->|]; try discriminate; try (right; left; repeat split; congruence);
        destruct (N.eqb_spec p 3) as [->|]; try discriminate; right; right; repeat split; congruence. }
    destruct (X w p m Hw H) as [(-> & -> & ->)|[(-> & -> & ->)|(-> & -> & ->)]],
      (X w' p' _ Hw' H') as [(-> & E & ->)|[(-> & E & ->)|(-> & E & ->)]]; vm_compute in E; split; congruence.
  - intros [(ls & Ha & Hx)|(b & n & a & ls & Hn & Ha & Hf)].
    + vm_compute in Hx. injection Hx as <-. inversion Ha as [|? ? ? ? Hr]. vm_compute in Hr. discriminate.
    + assert (Hx : exists l, fst (i_lookup ex_a (IElf 1 true) [[7]]
        (i_run [ILookup (ex_world (ex_files None) ex_dwp) (IElf 1 true) [[7]]])) = Ok l) by (eexists; vm_compute; reflexivity).
      destruct Hx as [l Hx]. rewrite Hx in Hf. destruct Hf as [(k & _ & Hf)|[[_ Hf]|[_ Hf]]]; discriminate.
Qed.
(** The same file under another name is reported under the first one. *)
Theorem C64_name_refuted : exists (h : list (icall N N)) w src names,
  (forall c, In c h -> world_of c = w) /\
  (forall p p' m, fs_stat (w_fs w) p = Good m -> fs_stat (w_fs w) p' = Good m -> fs_open (w_fs w) p = fs_open (w_fs w) p') /\
  (exists p, src = IElf p false) /\
  ~ looked_up w src names (fst (i_lookup w src names (i_run h))).
Proof.
  set (w := ex_world (fun p => if p <? 3 then Some (11, 11) else None) (fun _ => None)).
  exists [ILookup w (IElf 1 false) [[7]]], w, (IElf 2 false), [[7]].
  split; [|split; [|split; [eauto|]]].
  - intros c [<-|[]]. reflexivity.
  - intros p p' m. cbn [w w_fs ex_world fs_stat fs_open]. destruct (p <? 3), (p' <? 3); congruence.
  - intros [(ls & Ha & Hx)|(b & n & a & ls & Hn & Ha & Hf)].
    + vm_compute in Hx. injection Hx as <-. inversion Ha as [|? ? ? ? Hr]. vm_compute in Hr. discriminate.
    + assert (Hx : exists l, fst (i_lookup w (IElf 2 false) [[7]] (i_run [ILookup w (IElf 1 false) [[7]]])) = Ok l)
        by (eexists; vm_compute; reflexivity).
      destruct Hx as [l Hx]. rewrite Hx in Hf. destruct Hf as [(k & _ & Hf)|[[_ Hf]|[_ Hf]]]; discriminate.
Qed.
Print Assumptions C64_debug_refuted.
Print Assumptions C64_name_refuted.
