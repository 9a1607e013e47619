(** * Symbolizers after any lookups: what they remember, and that this makes no
      difference *)

From Verif Require Import Base Util Amap Maps FileCache FileCacheProofs CacheViews Sym Normalize Symbolizer
  SymbolizerSpec SymbolizerElf SymbolizerApk SymbolizerState SymbolizerProcess HistorySpec HistoryProofs SymHistorySpec.
Local Open Scope N_scope.

Lemma add64_modes : forall m m' a b e e', add64 m a b = Ok e -> add64 m' a b = Ok e' -> e = e'.
Proof.
  intros m m' a b e e' H H'. unfold add64, uadd, wrap in *. destruct (a + b <? two64); [congruence|].
  destruct m, m'; congruence.
Qed.
Lemma hit_modes : forall m m' off off' members mb mb' b,
  hit m off members = Ok (Some (mb, b)) -> hit m' off' members = Ok (Some (mb', b)) -> mb = mb'.
Proof.
  intros m m' off off'. induction members as [|[x|k] l IH]; intros mb mb' b H H'; simpl in *; try discriminate.
  ib H e E. ib H' e' E'. rewrite (add64_modes m' m _ _ _ _ E' E) in *. clear e' E'.
  destruct ((mb_offset x <=? off) && (off <? e)) eqn:C; destruct ((mb_offset x <=? off') && (off' <? e)) eqn:C'.
  - congruence.
  - injection H as <- <-. apply hit_covers in H'. cbn [fst snd] in H'. rewrite andb_false_iff, N.leb_gt, N.ltb_ge in C'. lia.
  - injection H' as <- <-. apply hit_covers in H. cbn [fst snd] in H. rewrite andb_false_iff, N.leb_gt, N.ltb_ge in C. lia.
  - eauto.
Qed.

Section Evict.
  Context {File T : Type}.
  Lemma unpinned_evict : forall p (c : file_cache File T) b c', Inv c -> unpinned c -> fc_evict p c = Ok (b, c') ->
    Inv c' /\ unpinned c' /\ forall m f v, slot m c' = Some (f, v) -> slot m c = Some (f, v).
  Proof.
    intros p c b c' HI [A H] E. destruct (fc_evict_spec p c HI) as (b' & c1 & E' & I & A' & Ep & Eq & S1 & S2 & _).
    rewrite E in E'. injection E' as <- <-. split; auto. split.
    - split; [congruence|]. intros q pin m Hq. unfold cur in Hq. destruct (N.eq_dec q p) as [->|Hne].
      + now rewrite Ep in Hq.
      + rewrite Eq in Hq by auto. apply (H q pin m). exact Hq.
    - intros m f v Hs.
      assert (X : (exists q, q <> p /\ has m (pget q (fc_cache c)) = true) \/
                  ~ (exists q, q <> p /\ has m (pget q (fc_cache c)) = true)).
      { destruct (existsb (fun q => negb (q =? p) && has m (pget q (fc_cache c))) (akeys (fc_cache c))) eqn:X.
        - left. apply existsb_exists in X. destruct X as (q & _ & X). apply andb_true_iff in X. destruct X as [X Y].
          exists q. split; auto. intros ->. now rewrite N.eqb_refl in X.
        - right. intros (q & Hq & Hh). assert (Y : existsb (fun q => negb (q =? p) && has m (pget q (fc_cache c))) (akeys (fc_cache c)) = true).
          { apply existsb_exists. exists q. split.
            - destruct (pget q (fc_cache c)) as [pe|] eqn:Eg; [|discriminate].
              apply aget_in in Eg; [|apply N.eqb_spec]. apply (in_map fst) in Eg. exact Eg.
            - rewrite Hh, andb_true_r. apply negb_true_iff, N.eqb_neq. auto. }
          congruence. }
      destruct X as [X|X]; [now rewrite <- (S1 m X)|]. rewrite (S2 m X) in Hs. discriminate.
  Qed.
End Evict.

Section History.
  Context {File Parser : Type}.
  Notation world := (world File Parser).
  Notation state := (state File Parser).
  Notation hstate := (hstate File Parser).
  Variable h : list (@op File Parser).
  Hypothesis HH : undisturbed h.
  Notation W := (worlds h).
  Let HL := ud_elf h HH.

  Definition good_member (w : world) (p r : path) (d : bool) (members : list (outcome member)) (map : list ((N * N) * resolver)) : Prop :=
    forall b x, aget range_eqb b map = Some x -> exists m off mb, hit m off members = Ok (Some (mb, b)) /\
      member_resolver w p r d mb = Good x.
  Record good_apk (c : file_cache File apk_data) : Prop := GoodApk {
    ga_inv : Inv c;
    ga_unpinned : unpinned c;
    ga_slots : forall m f v, slot m c = Some (f, v) -> exists w p r d, W w /\ reads_apk h p r d /\
      fs_stat (w_fs w) p = Good m /\ fs_open (w_fs w) p = Good f /\
      match v with Some (members, map) => w_archive w f = Good members /\ good_member w p r d members map | None => True end
  }.
  Record good (s : state) : Prop := GoodState {
    g_elf : good_elf W (fun p r => reads_elf h p r true) (any_elf h) (s_elf s);
    g_apk : good_apk (s_apk s);
    g_breakpad : good_files W (reads_breakpad h) w_breakpad (s_breakpad s);
    g_gsym : good_files W (reads_gsym h) w_gsym (s_gsym s);
    g_perf : good_files W (reads_perf h) w_perf_map (s_perf s);
    g_vmas : s_vmas s = [];
    g_process : forall name x, In (name, x) (s_process s) -> exists w p o e f, sees h w p o e /\ me_path e = Some name /\
      w_dispatch w = Some f /\ f (me_start e) (me_end e) name = Good x;
    g_vdso : forall x, s_vdso s = Some x -> exists w p o e, sees h w p o e /\ me_path e = Some (PComponent str_vdso) /\
      create_vdso_parser w p (me_start e) (me_end e) = Ok x
  }.
  Lemma good_new : good (s_new true).
  Proof.
    constructor; simpl; auto; try discriminate; try apply good_files_new; try apply good_elf_new; try tauto.
    constructor; [apply Inv_new|apply unpinned_new|]. intros m f v H. discriminate.
  Qed.

  (** ** Functions that have the same result in all such states *)
  Definition constant {A} (f : state -> res A * state) : Prop :=
    exists v, forall s, good s -> fst (f s) = v /\ good (snd (f s)).
  Lemma constant_ret : forall A (v : res A), constant (fun s => (v, s)).
  Proof. intros A v. exists v. auto. Qed.
  Lemma constant_then : forall A B (f : state -> res A * state) (g : A -> state -> res B * state),
    constant f -> (forall a, constant (g a)) -> constant (fun s => then_ (f s) g).
  Proof.
    intros A B f g [v Hf] Hg. destruct v as [a|k| |].
    - destruct (Hg a) as [v' Hg']. exists v'. intros s Hs. destruct (Hf s Hs) as [E G]. destruct (f s) as [r s']. cbn [fst snd] in *.
      subst r. cbn [then_]. auto.
    - exists (Err k). intros s Hs. destruct (Hf s Hs) as [E G]. destruct (f s) as [r s']. cbn [fst snd] in *. subst r. auto.
    - exists Panic. intros s Hs. destruct (Hf s Hs) as [E G]. destruct (f s) as [r s']. cbn [fst snd] in *. subst r. auto.
    - exists NoFuel. intros s Hs. destruct (Hf s Hs) as [E G]. destruct (f s) as [r s']. cbn [fst snd] in *. subst r. auto.
  Qed.

  Lemma constant_elf : forall w p r d, W w -> reads_elf h p r d -> constant (on_elf (elf_resolver w p r d)).
  Proof.
    intros w p r d Hw Hr. unfold on_elf, elf_resolver. destruct d.
    - eexists. intros s Hs. destruct (elf_debug w p r (s_elf s)) as [x c] eqn:E.
      destruct (elf_debug_alone W _ _ HL w p r (s_elf s) x c Hw Hr (g_elf s Hs) E) as [-> G]. cbn [fst snd].
      split; [reflexivity|]. constructor; simpl; try apply Hs; auto.
    - eexists. intros s Hs. destruct (elf_none w p r (s_elf s)) as [x c] eqn:E.
      destruct (elf_none_alone W _ _ HL w p r (s_elf s) x c Hw (AeFile h p r _ Hr) (g_elf s Hs) E) as (-> & G & _). cbn [fst snd].
      split; [reflexivity|]. constructor; simpl; try apply Hs; auto.
  Qed.

  (** Members of archives *)
  Definition apk_alone (m : mode) (w : world) (p r : path) (d : bool) (off : N) : res (option (resolver * N)) :=
    let* f := opened w p in
    let* members := of_outcome (w_archive w f) in
    find_view m w p r d off members [].
  Lemma find_good : forall m (w : world) p r d off members map, good_member w p r d members map ->
    find_view m w p r d off members map = find_view m w p r d off members [] /\
    good_member w p r d members (map_after m w p r d off members map).
  Proof.
    intros m w p r d off members map HG. unfold find_view, map_after.
    destruct (hit m off members) as [[[mb b]|]|k| |] eqn:Eh; cbn [bind]; auto.
    unfold resolver_for. simpl aget. destruct (aget range_eqb b map) as [x|] eqn:Eg.
    - split; auto. destruct (HG b x Eg) as (m' & off' & mb' & Eh' & Em).
      rewrite (hit_modes m m' off off' members mb mb' b Eh Eh'), Em. reflexivity.
    - destruct (member_resolver w p r d mb) as [x|k] eqn:Em; split; auto.
      intros b' x' Hg. destruct (range_eqb_spec b' b) as [->|Hne].
      + rewrite (aget_aset_eq _ range_eqb_spec) in Hg. injection Hg as <-. eauto.
      + rewrite (aget_aset_neq _ range_eqb_spec) in Hg by auto. auto.
  Qed.
  Lemma member_same : forall (w w' : world) p r d p' mb,
    w_apk_default w = w_apk_default w' ->
    (forall mb, says (w_apk_dispatch w) (fun f => f p mb) = says (w_apk_dispatch w') (fun f => f p' mb)) ->
    member_resolver w p r d mb = member_resolver w' p' r d mb.
  Proof.
    intros w w' p r d p' mb E H. unfold member_resolver. rewrite E. specialize (H mb). unfold says in H.
    destruct (w_apk_dispatch w) as [g|], (w_apk_dispatch w') as [g'|]; try discriminate; auto.
    injection H as ->. reflexivity.
  Qed.
  Lemma apk_resolver_alone : forall m w p r off d c x c', W w -> reads_apk h p r d -> good_apk c ->
    apk_resolver m w p r off d c = (x, c') -> x = apk_alone m w p r d off /\ good_apk c'.
  Proof.
    intros m w p r off d c x c' Hw Hr HG E. pose proof HG as [HI HN HS].
    assert (N' : unpinned c').
    { pose proof E as E'. unfold apk_resolver in E'. destruct (fc_entry (w_fs w) p c) as [r1 c1] eqn:Ef.
      pose proof (unpinned_entry _ _ _ _ _ HI HN Ef) as N1. pose proof (fc_entry_view (w_fs w) p c HI) as V. rewrite Ef in V.
      destruct (efile (w_fs w) p c) as [[[m0 f0] v0]|k0].
      2:{ destruct V as [-> ->]. cbn [then_] in E'. injection E' as _ <-. auto. }
      destruct V as (-> & I1 & _ & S1 & _). cbn [then_] in E'.
      match type of E' with context [fc_fill m0 ?i c1] => set (init := i) in * end.
      pose proof (fc_fill_view (w_fs w) m0 init c1 f0 v0 I1 S1) as F. destruct (fc_fill m0 init c1) as [r2 c2].
      destruct F as (_ & _ & _ & _ & C2 & A2 & _).
      assert (N2 : unpinned c2) by (eapply unpinned_cur; eauto).
      destruct r2 as [[ar mp]|k| |]; cbn [then_] in E'; try (injection E' as _ <-; exact N2).
      destruct (apk_find m w p r d off ar mp) as [r3 mp']. injection E' as _ <-.
      eapply unpinned_cur; [exact N2|apply slot_set_auto|intros q; apply slot_set_cur]. }
    pose proof (apk_resolver_ok m w p r off d c HI) as V. rewrite E in V. destruct V as (-> & I' & _ & _ & V).
    unfold apk_view, apk_alone, opened, efile in *. rewrite (unpinned_meta (w_fs w) p c HN) in *.
    destruct (fs_stat (w_fs w) p) as [mt|k] eqn:Es; cbn [of_outcome bind].
    2:{ subst c'. auto. }
    destruct (slot mt c) as [[f v]|] eqn:Sl.
    - destruct V as (O' & S'). destruct (HS mt f v Sl) as (w0 & p0 & r0 & d0 & Hw0 & Hr0 & Es0 & Eo0 & Ev).
      destruct (ud_apk h HH w0 w p0 r0 d0 p r d mt Hw0 Hw Hr0 Hr Es0 Es) as (-> & -> & Eo & Edf & Edi).
      rewrite <- Eo, Eo0. cbn [of_outcome bind].
      destruct (la_program _ _ _ HL w0 w Hw0 Hw) as (_ & _ & _ & _ & _ & _ & _ & Ea).
      assert (K : match v with Some (members, map) => w_archive w f = Good members /\ good_member w p r d members map | None => True end).
      { destruct v as [[members map]|]; auto. destruct Ev as [Ev1 Ev2]. split; [now rewrite <- Ea|].
        intros b x Hg. destruct (Ev2 b x Hg) as (m' & off' & mb & H1 & H2). exists m', off', mb. split; auto.
        rewrite <- H2. symmetry. apply member_same; auto. }
      assert (M : match load w f v with
                  | Good (members, map) => w_archive w f = Good members /\ good_member w p r d members map
                  | Bad k => w_archive w f = Bad k
                  end).
      { unfold load. destruct v as [[members map]|]; auto. destruct (w_archive w f) as [a|k]; auto. split; auto. intros b x H. discriminate. }
      destruct (load w f v) as [[members map]|k].
      + destruct M as [M1 M2]. rewrite M1. cbn [of_outcome bind]. destruct (find_good m w p r d off members map M2) as [F1 F2].
        split; auto. constructor; auto. intros m' f' v' Hs. destruct (meta_eqb_spec m' mt) as [->|Hne].
        * rewrite S' in Hs. injection Hs as <- <-. exists w, p, r, d. split; auto. split; auto. split; auto. split; [congruence|auto].
        * rewrite O' in Hs by auto. eauto.
      + rewrite M. split; auto. constructor; auto. intros m' f' v' Hs. destruct (meta_eqb_spec m' mt) as [->|Hne].
        * rewrite S' in Hs. injection Hs as <- <-. exists w, p, r, d. split; auto. split; auto. split; auto. split; [congruence|auto].
        * rewrite O' in Hs by auto. eauto.
    - destruct (fs_open (w_fs w) p) as [f|k] eqn:Eo; cbn [of_outcome bind].
      2:{ subst c'. auto. }
      destruct V as (O' & S'). unfold load in *. destruct (w_archive w f) as [members|k] eqn:Ea; cbn [of_outcome bind].
      + destruct (find_good m w p r d off members []) as [F1 F2]; [intros b x H; discriminate|].
        split; auto. constructor; auto. intros m' f' v' Hs. destruct (meta_eqb_spec m' mt) as [->|Hne].
        * rewrite S' in Hs. injection Hs as <- <-. exists w, p, r, d. auto 8.
        * rewrite O' in Hs by auto. eauto.
      + split; auto. constructor; auto. intros m' f' v' Hs. destruct (meta_eqb_spec m' mt) as [->|Hne].
        * rewrite S' in Hs. injection Hs as <- <-. exists w, p, r, d. auto 8.
        * rewrite O' in Hs by auto. eauto.
  Qed.
  Lemma constant_apk : forall m w p r off d, W w -> reads_apk h p r d -> constant (on_apk (apk_resolver m w p r off d)).
  Proof.
    intros m w p r off d Hw Hr. unfold on_apk. eexists. intros s Hs. destruct (apk_resolver m w p r off d (s_apk s)) as [x c] eqn:E.
    destruct (apk_resolver_alone m w p r off d (s_apk s) x c Hw Hr (g_apk s Hs) E) as [-> G]. cbn [fst snd].
    split; [reflexivity|]. constructor; simpl; try apply Hs; auto.
  Qed.

  (** Formats of single files *)
  Let Hprog := la_program _ _ _ HL.
  Lemma constant_breakpad : forall w p, W w -> reads_breakpad h p p -> constant (on_breakpad (file_resolver w (w_breakpad w) p)).
  Proof.
    intros w p Hw Hr. unfold on_breakpad. eexists. intros s Hs. destruct (file_resolver w (w_breakpad w) p (s_breakpad s)) as [x c] eqn:E.
    destruct (file_resolver_alone W _ w_breakpad (fun w w' H H' => proj1 (proj2 (proj2 (proj2 (proj2 (Hprog w w' H H'))))))
      (ud_breakpad h HH) w p (s_breakpad s) x c Hw Hr (g_breakpad s Hs) E) as [-> G]. cbn [fst snd].
    split; [reflexivity|]. constructor; simpl; try apply Hs; auto.
  Qed.
  Lemma constant_gsym : forall w p, W w -> reads_gsym h p p -> constant (on_gsym (file_resolver w (w_gsym w) p)).
  Proof.
    intros w p Hw Hr. unfold on_gsym. eexists. intros s Hs. destruct (file_resolver w (w_gsym w) p (s_gsym s)) as [x c] eqn:E.
    destruct (file_resolver_alone W _ w_gsym (fun w w' H H' => proj1 (proj2 (proj2 (proj2 (proj2 (proj2 (Hprog w w' H H')))))))
      (ud_gsym h HH) w p (s_gsym s) x c Hw Hr (g_gsym s Hs) E) as [-> G]. cbn [fst snd].
    split; [reflexivity|]. constructor; simpl; try apply Hs; auto.
  Qed.
  Lemma constant_perf : forall cf w p o, asked h cf w (SProcess p o) -> constant (on_perf (perf_map_resolver cf w p)).
  Proof.
    intros cf w p o Ha. assert (Hw : W w) by (exists cf, (SProcess p o); auto).
    assert (Hr : reads_perf h (perf_path cf p) (perf_path cf p)).
    { split; auto. exists cf, w, p, o. auto. }
    set (q := perf_path cf p) in *.
    exists (match opened w q with
            | Err ENotFound => Ok None
            | _ => let* r := file_alone w (w_perf_map w) q in Ok (Some r)
            end).
    intros s Hs. unfold on_perf. pose proof (g_perf s Hs) as Gp. rewrite perf_map_as_file by apply Gp. fold q.
    destruct (file_resolver w (w_perf_map w) q (s_perf s)) as [x c] eqn:E.
    destruct (file_resolver_alone W _ w_perf_map (fun w w' H H' => proj1 (proj2 (proj2 (proj2 (proj2 (proj2 (proj2 (Hprog w w' H H'))))))))
      (ud_perf h HH) w q (s_perf s) x c Hw Hr Gp E) as [-> G].
    assert (Ge : good (set_perf (s_perf s) s)) by (constructor; simpl; apply Hs).
    assert (Gc : good (set_perf c s)) by (constructor; simpl; try apply Hs; auto).
    assert (Eo : match efile (w_fs w) q (s_perf s) with Good (_, f, _) => opened w q = Ok f | Bad k => opened w q = Err k end).
    { unfold efile, opened. rewrite (unpinned_meta _ _ _ (gf_unpinned _ _ _ _ Gp)).
      destruct (fs_stat (w_fs w) q) as [mt|k] eqn:Es; cbn [of_outcome bind]; auto.
      destruct (slot mt (s_perf s)) as [[f v]|] eqn:Sl.
      - destruct (gf_slots _ _ _ _ Gp mt f v Sl) as (w0 & p0 & r0 & Hw0 & Hp0 & Es0 & Eo0 & _).
        destruct (ud_perf h HH w0 w p0 r0 q q mt Hw0 Hw Hp0 Hr Es0 Es) as [_ Eo]. now rewrite <- Eo, Eo0.
      - now destruct (fs_open (w_fs w) q). }
    destruct (efile (w_fs w) q (s_perf s)) as [[[mt f] v]|k]; rewrite Eo.
    - destruct (file_alone w (w_perf_map w) q); cbn [then_ bind fst snd]; auto.
    - destruct k; cbn [fst snd]; auto; destruct (file_alone w (w_perf_map w) q); cbn [then_ bind fst snd]; auto.
  Qed.
  Lemma own_vdso_parser : forall w p o e image, own_vdso w image -> sees h w p o e -> me_path e = Some (PComponent str_vdso) ->
    create_vdso_parser w p (me_start e) (me_end e) = Ok image.
  Proof.
    intros w p o e image (es & Em & (e0 & H0 & V0) & Hi) (cf & items & _ & Em' & He) Hv. destruct p as [|n]; simpl.
    - rewrite Em in Em'. injection Em' as <-. apply in_map_iff in He. destruct He as (e' & [= ->] & He). now rewrite Hi.
    - unfold find_vdso. rewrite Em. cbn [of_outcome bind]. clear Em.
      assert (X : exists e1, In e1 es /\ me_path e1 = Some (PComponent str_vdso) /\
        find_vdso_maps (map Ok es) = Ok (Some (me_start e1, me_end e1))).
      { clear Hi. revert H0. induction es as [|e1 es IH]; [intros []|]. intros H0. cbn [map find_vdso_maps bind].
        assert (R : (exists e1, In e1 es /\ me_path e1 = Some (PComponent str_vdso) /\
            find_vdso_maps (map Ok es) = Ok (Some (me_start e1, me_end e1))) \/ e1 = e0).
        { destruct H0 as [->|H0]; auto. }
        destruct (me_path e1) as [[mf sy|c]|] eqn:P1.
        - destruct R as [(e2 & I2 & V2 & F2)| ->]; [|congruence]. exists e2. simpl. auto.
        - destruct (beq c str_vdso) eqn:B.
          + apply beq_eq in B. subst c. exists e1. simpl. auto.
          + destruct R as [(e2 & I2 & V2 & F2)| ->]; [exists e2; simpl; auto|].
            rewrite V0 in P1. injection P1 as <-. rewrite (proj2 (beq_eq _ _) eq_refl) in B. discriminate.
        - destruct R as [(e2 & I2 & V2 & F2)| ->]; [|congruence]. exists e2. simpl. auto. }
      destruct X as (e1 & I1 & V1 & ->). cbn [bind]. now rewrite Hi.
  Qed.
  Lemma constant_vdso : forall w p o e, sees h w p o e -> me_path e = Some (PComponent str_vdso) ->
    constant (vdso_parser w p (me_start e) (me_end e)).
  Proof.
    intros w p o e Hs Hp. exists (create_vdso_parser w p (me_start e) (me_end e)). intros s G.
    unfold vdso_parser, get_or_try_init. destruct (s_vdso s) as [x|] eqn:Es; cbn [fst snd].
    - destruct (g_vdso s G x Es) as (w0 & p0 & o0 & e0 & Hs0 & Hp0 & E0).
      destruct (ud_vdso h HH) as [image Hi].
      rewrite (own_vdso_parser w p o e image) by eauto. rewrite (own_vdso_parser w0 p0 o0 e0 image) in E0 by eauto.
      injection E0 as <-. split; auto.
      constructor; simpl; try apply G. intros y [= <-]. exists w0, p0, o0, e0. split; auto. split; auto. eapply own_vdso_parser; eauto.
    - destruct (create_vdso_parser w p (me_start e) (me_end e)) as [x|k| |] eqn:E; cbn [fst snd]; (split; [reflexivity|]);
        constructor; simpl; try apply G; try discriminate. intros y [= <-]. exists w, p, o, e. auto.
  Qed.
  Lemma aset_in : forall (n : path_name) (v : option resolver) n' v' l, In (n', v') (aset path_name_eqb n v l) ->
    (n', v') = (n, v) \/ In (n', v') l.
  Proof.
    intros n v n' v'. induction l as [|[n1 v1] l IH]; simpl; [intros [H|[]]; auto|].
    destruct (path_name_eqb_spec n n1) as [->|Hne]; simpl; intros [H|H]; auto.
    destruct (IH H); auto.
  Qed.
  Lemma constant_dispatch : forall w p o e name, sees h w p o e -> me_path e = Some name ->
    constant (dispatch_resolver w (me_start e) (me_end e) name).
  Proof.
    intros w p o e name Hs Hp. unfold dispatch_resolver. destruct (w_dispatch w) as [f|] eqn:Ed; [|apply constant_ret].
    exists (of_outcome (f (me_start e) (me_end e) name)). intros s G.
    destruct (aget path_name_eqb name (s_process s)) as [x|] eqn:Eg; cbn [fst snd].
    - split; auto. apply aget_in in Eg; [|apply path_name_eqb_spec].
      destruct (g_process s G name x Eg) as (w0 & p0 & o0 & e0 & f0 & Hs0 & Hp0 & Ed0 & E0).
      rewrite <- (ud_dispatch h HH w0 w p0 p o0 o e0 e name f0 f) by auto. now rewrite E0.
    - destruct (f (me_start e) (me_end e) name) as [x|k] eqn:E; cbn [fst snd]; split; auto.
      constructor; simpl; try apply G. intros n y Hin. apply aset_in in Hin. destruct Hin as [Hin|Hin].
      + injection Hin as -> ->. exists w, p, o, e, f. auto.
      + now apply (g_process s G).
  Qed.

  (** ** Processes *)
  Definition adds (f : hstate -> res unit * hstate) : Prop :=
    exists v : res symbolized, forall hs, good (hs_state hs) -> good (hs_state (snd (f hs))) /\
      match v with
      | Ok x => fst (f hs) = Ok tt /\ hs_syms (snd (f hs)) = hs_syms hs ++ [x]
      | Err k => fst (f hs) = Err k
      | Panic => fst (f hs) = Panic
      | NoFuel => fst (f hs) = NoFuel
      end.
  Lemma adds_push_sym : forall m cf a r, adds (push_sym m cf a r).
  Proof.
    intros m cf a r. exists (with_resolver m cf a r). intros hs G. unfold push_sym.
    destruct (with_resolver m cf a r); cbn [then_ fst snd push hs_state hs_syms]; auto.
  Qed.
  Lemma adds_unknown : forall r, adds (push_unknown r).
  Proof. intros r. exists (Ok (Unknown r)). intros hs G. auto. Qed.
  Lemma adds_fails : forall (v : res unit), (forall x, v <> Ok x) -> adds (fun hs => (v, hs)).
  Proof.
    intros [[]|k| |] H; [destruct (H tt eq_refl)|exists (Err k)|exists Panic|exists NoFuel]; intros hs G; auto.
  Qed.
  Lemma adds_pure : forall A (v : res A) (g : A -> hstate -> res unit * hstate),
    (forall a, adds (g a)) -> adds (fun hs => then_ (v, hs) g).
  Proof.
    intros A v g H. destruct v as [a|k| |]; cbn [then_]; [apply H| | |]; apply adds_fails; discriminate.
  Qed.
  Lemma adds_translated : forall m cf off r, adds (push_translated m cf off r).
  Proof.
    intros m cf off r. unfold push_translated. apply adds_pure. intros [a|]; [apply adds_push_sym|apply adds_unknown].
  Qed.
  Lemma adds_state : forall A (f : state -> res A * state) (g : A -> hstate -> res unit * hstate),
    constant f -> (forall a, adds (g a)) -> adds (fun hs => then_ (on_state f hs) g).
  Proof.
    intros A f g [v Hf] Hg.
    assert (X : forall hs, good (hs_state hs) -> exists s', good s' /\ on_state f hs = (v, HState (hs_syms hs) s')).
    { intros hs G. destruct (Hf (hs_state hs) G) as [E G']. unfold on_state. destruct (f (hs_state hs)) as [r s'].
      cbn [fst snd] in *. subst r. eauto. }
    destruct v as [a|k| |].
    - destruct (Hg a) as [v' Hg']. exists v'. intros hs G. destruct (X hs G) as (s' & G' & ->). cbn [then_].
      apply (Hg' (HState (hs_syms hs) s')). exact G'.
    - exists (Err k). intros hs G. destruct (X hs G) as (s' & G' & ->). auto.
    - exists Panic. intros hs G. destruct (X hs G) as (s' & G' & ->). auto.
    - exists NoFuel. intros hs G. destruct (X hs G) as (s' & G' & ->). auto.
  Qed.
  Lemma adds_default : forall m cf w p o a off e, asked h cf w (SProcess p o) -> sees h w p o e ->
    adds (handle_default m cf w p o a off e).
  Proof.
    intros m cf w p o a off e Ha Hs. assert (Hw : W w) by (exists cf, (SProcess p o); auto).
    unfold handle_default. destruct (me_path e) as [[mf sym|comp]|] eqn:Ep.
    - fold (is_archive sym). destruct (is_archive sym) eqn:Ea.
      + unfold handle_apk_addr. apply adds_state.
        * apply constant_apk; auto. eapply RaEntry; eauto. exists mf, sym. auto.
        * intros [[r addr]|]; [apply adds_push_sym|apply adds_unknown].
      + unfold handle_elf_addr. apply adds_state.
        * apply constant_elf; auto. eapply ReEntry; eauto. exists mf, sym. auto.
        * intros x. apply adds_translated.
    - destruct (po_vdso o); simpl; [|apply adds_unknown].
      destruct (beq comp str_vdso) eqn:Ec; [|apply adds_unknown]. apply beq_eq in Ec. subst comp.
      unfold handle_vdso_addr. apply adds_state; [eapply constant_vdso; eauto|]. intros x. apply adds_translated.
    - destruct (po_perf_map o); [|apply adds_unknown]. unfold handle_perf_map_addr. apply adds_state.
      + eapply constant_perf; eauto.
      + intros [r|]; [apply adds_push_sym|apply adds_unknown].
  Qed.
  Lemma adds_entry : forall m cf w p o a e, asked h cf w (SProcess p o) -> sees h w p o e ->
    adds (handle_entry m cf w p o a e).
  Proof.
    intros m cf w p o a e Ha Hs. unfold handle_entry. apply adds_pure. intros off.
    destruct (me_path e) as [name|] eqn:Ep; [|now apply adds_default].
    apply adds_state; [eapply constant_dispatch; eauto|]. intros [r|]; [apply adds_translated|now apply adds_default].
  Qed.

  Lemma find_entry_from : forall items fuel a e st b e' st', In (Ok e) items -> incl st items ->
    find_entry iter_next fuel a e st = Ok (b, e', st') -> In (Ok e') items /\ incl st' items.
  Proof.
    intros items. induction fuel as [|fuel IH]; intros a e st b e' st' He Hi E; cbn [find_entry] in E.
    - destruct (me_end e <=? a); [discriminate|]. injection E as <- <- <-. auto.
    - destruct (me_end e <=? a); [|injection E as <- <- <-; auto].
      destruct st as [|r st]; cbn [iter_next] in E; [injection E as <- <- <-; auto|].
      ib E e1 E1. subst r. eapply IH; [| |exact E]; [apply Hi; now left|]. intros y Hy. apply Hi. now right.
  Qed.
  Definition alike (x y : res unit * hstate) : Prop :=
    good (hs_state (snd x)) /\ good (hs_state (snd y)) /\ fst x = fst y /\ (fst x = Ok tt -> hs_syms (snd x) = hs_syms (snd y)).
  Lemma pass_loop_alike : forall m cf w p o items, asked h cf w (SProcess p o) -> w_maps w p = Good items ->
    forall addrs fuel prev e st h1 h2, In (Ok e) items -> incl st items ->
    good (hs_state h1) -> good (hs_state h2) -> hs_syms h1 = hs_syms h2 ->
    alike (pass_loop (fun _ r h => push (Unknown r) h) (handle_entry m cf w p o) fuel addrs prev e st h1)
          (pass_loop (fun _ r h => push (Unknown r) h) (handle_entry m cf w p o) fuel addrs prev e st h2).
  Proof.
    intros m cf w p o items Ha Hm. induction addrs as [|a addrs IH]; intros fuel prev e st h1 h2 He Hi G1 G2 Es; cbn [pass_loop].
    { split; [|split; [|split]]; auto. }
    destruct (a <? prev); [split; [|split; [|split]]; auto; discriminate|].
    destruct (find_entry iter_next fuel a e st) as [[[found e'] st']|k| |] eqn:Ef; cbn [then_];
      try (split; [|split; [|split]]; auto; discriminate).
    destruct (find_entry_from items fuel a e st found e' st' He Hi Ef) as [He' Hi'].
    destruct (negb found || (a <? me_start e')).
    { apply IH; auto. simpl. now rewrite Es. }
    assert (Hsee : sees h w p o e') by (exists cf, items; auto).
    destruct (adds_entry m cf w p o a e' Ha Hsee) as [v Hv].
    destruct (Hv h1 G1) as [G1' E1]. destruct (Hv h2 G2) as [G2' E2].
    destruct (handle_entry m cf w p o a e' h1) as [r1 h1']. destruct (handle_entry m cf w p o a e' h2) as [r2 h2'].
    cbn [fst snd] in *. destruct v as [x|k| |].
    - destruct E1 as [-> E1]. destruct E2 as [-> E2]. cbn [then_]. apply IH; auto. congruence.
    - subst. cbn [then_]. split; [|split; [|split]]; auto; discriminate.
    - subst. cbn [then_]. split; [|split; [|split]]; auto; discriminate.
    - subst. cbn [then_]. split; [|split; [|split]]; auto; discriminate.
  Qed.
  Lemma user_addrs_same : forall m cf w p o addrs s1 s2, asked h cf w (SProcess p o) -> good s1 -> good s2 ->
    fst (user_addrs m cf w p o addrs s1) = fst (user_addrs m cf w p o addrs s2) /\
    good (snd (user_addrs m cf w p o addrs s1)) /\ good (snd (user_addrs m cf w p o addrs s2)).
  Proof.
    intros m cf w p o addrs s1 s2 Ha G1 G2. unfold user_addrs. rewrite (g_vmas s1 G1), (g_vmas s2 G2). cbn [aget].
    set (vec := isort pair_leb (enumerate addrs)).
    destruct (w_maps w p) as [items|k] eqn:Em; cbn [of_outcome then_ fst snd hs_state]; auto.
    assert (A : alike (pass (fun _ r h => push (Unknown r) h) (handle_entry m cf w p o) (map fst vec) items (HState [] s1))
                      (pass (fun _ r h => push (Unknown r) h) (handle_entry m cf w p o) (map fst vec) items (HState [] s2))).
    { unfold pass. destruct items as [|r items]; [split; [|split; [|split]]; auto; discriminate|].
      destruct r as [e|k| |]; cbn [then_]; try (split; [|split; [|split]]; auto; discriminate).
      eapply pass_loop_alike; eauto; [now left|]. intros y Hy. now right. }
    destruct (pass _ _ _ _ (HState [] s1)) as [r1 h1]. destruct (pass _ _ _ _ (HState [] s2)) as [r2 h2].
    destruct A as (A1 & A2 & A3 & A4). cbn [fst snd] in *. split; auto.
    subst r2. destruct r1 as [[]|k| |]; cbn [bind]; auto. now rewrite A4.
  Qed.
  Lemma constant_user : forall m cf w p o addrs, asked h cf w (SProcess p o) -> constant (user_addrs m cf w p o addrs).
  Proof.
    intros m cf w p o addrs Ha. exists (fst (user_addrs m cf w p o addrs (s_new true))). intros s G.
    destruct (user_addrs_same m cf w p o addrs s (s_new true) Ha G good_new) as (E & G' & _). auto.
  Qed.

  (** ** Sources *)
  Lemma constant_each : forall (f : N -> state -> res symbolized * state) fold addrs, (forall a, constant (f a)) ->
    constant (each f fold addrs).
  Proof.
    intros f fold addrs Hf. induction addrs as [|a addrs IH]; [apply (constant_ret _ (Ok []))|]. cbn [each].
    assert (Hfa : constant (fun s => let '(r, s) := f a s in (match r with Err k => fold k | r => r end, s))).
    { destruct (Hf a) as [v Hv]. exists (match v with Err k => fold k | r => r end). intros s G. destruct (Hv s G) as [E G'].
      destruct (f a s) as [r s']. cbn [fst snd] in *. subst r. auto. }
    assert (X : constant (fun s => then_ (let '(r, s) := f a s in (match r with Err k => fold k | r => r end, s))
      (fun x s => then_ (each f fold addrs s) (fun l s => (Ok (x :: l), s))))).
    { apply constant_then; auto. intros x. apply constant_then; auto. intros l. apply constant_ret. }
    destruct X as [v Hv]. exists v. intros s G. specialize (Hv s G). destruct (f a s). exact Hv.
  Qed.
  Lemma constant_impl : forall m cf w src k addrs fold, asked h cf w src ->
    constant (symbolize_impl m cf w src k addrs fold).
  Proof.
    intros m cf w src k addrs fold Ha. assert (Hw : W w) by (exists cf, src; auto). unfold symbolize_impl.
    destruct src as [p d|p|p d|n|p o|l|p].
    - destruct k; try apply constant_ret. apply constant_each. intros a. apply constant_then.
      + apply constant_apk; auto. eapply RaApk; eauto.
      + intros [[r addr]|]; apply constant_ret.
    - destruct k; try apply constant_ret. apply constant_then.
      + apply constant_breakpad; auto. split; eauto.
      + intros r. apply constant_each. intros a. apply constant_ret.
    - apply constant_then.
      + apply constant_elf; auto. eapply ReElf; eauto.
      + intros x. destruct k; try apply constant_ret; apply constant_each; intros a; apply constant_ret.
    - destruct k; try apply constant_ret. destruct (w_kernel w n) as [r|e]; cbn [of_outcome then_].
      + apply constant_each. intros a. apply constant_ret.
      + apply constant_ret.
    - destruct k; try apply constant_ret. now apply constant_user.
    - destruct k; try apply constant_ret. destruct (w_gsym_data w l) as [r|e]; cbn [of_outcome then_].
      + apply constant_each. intros a. apply constant_ret.
      + apply constant_ret.
    - destruct k; try apply constant_ret. apply constant_then.
      + apply constant_gsym; auto. split; eauto.
      + intros r. apply constant_each. intros a. apply constant_ret.
  Qed.
  Lemma constant_symbolize : forall m cf w src k addrs, asked h cf w src -> constant (symbolize m cf w src k addrs).
  Proof. intros. now apply constant_impl. Qed.
  Lemma constant_single : forall m cf w src k addr, asked h cf w src -> constant (symbolize_single m cf w src k addr).
  Proof.
    intros. unfold symbolize_single. apply constant_then; [now apply constant_impl|]. intros l. apply constant_ret.
  Qed.

  (** ** Histories *)
  Lemma good_evict : forall cf t s s', good s -> evict cf t s = Ok s' -> good s'.
  Proof.
    intros cf [p|p] s s' G E; cbn [evict] in E.
    - ib E bc Eb. destruct bc as [b c]. injection E as <-. pose proof (g_elf s G) as [I N S].
      destruct (unpinned_evict p (s_elf s) b c I N Eb) as (I' & N' & S').
      constructor; simpl; try apply G.
      + constructor; auto.
      + intros name x Hin. apply filter_In in Hin. now apply (g_process s G).
    - ib E bc Eb. destruct bc as [b c]. injection E as <-. cbn [s_perf set_vmas] in Eb. pose proof (g_perf s G) as [I N S].
      destruct (unpinned_evict _ (s_perf s) b c I N Eb) as (I' & N' & S').
      constructor; simpl; try apply G.
      + constructor; auto.
      + rewrite (g_vmas s G). reflexivity.
  Qed.
  Lemma good_after : forall o s, In o h -> unforced o -> good s -> good (after o s).
  Proof.
    intros o s Ho Hu G. destruct o as [m cf w src k addrs|m cf w src k addr|w t|cf t|w p x]; cbn [unforced] in Hu; try tauto; cbn [after].
    - destruct (constant_symbolize m cf w src k addrs) as [v Hv]; [left; eauto|]. apply Hv, G.
    - destruct (constant_single m cf w src k addr) as [v Hv]; [right; eauto|]. apply Hv, G.
    - destruct (evict cf t s) as [s'|e| |] eqn:E; auto. eapply good_evict; eauto.
  Qed.
  Lemma good_run : forall h' s, incl h' h -> Forall unforced h' -> good s -> good (run h' s).
  Proof.
    unfold run. induction h' as [|o h' IH]; intros s Hi Hu G; cbn [fold_left]; auto.
    inversion Hu as [|? ? Hu1 Hu2]; subst. apply IH; auto.
    - intros x Hx. apply Hi. now right.
    - apply good_after; auto. apply Hi. now left.
  Qed.
End History.
