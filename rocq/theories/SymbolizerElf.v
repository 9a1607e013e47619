(** * Lookups of ELF resolvers: results as a function of the state, and what
      they keep *)

From Verif Require Import Base Util Amap FileCache FileCacheProofs CacheViews Sym Symbolizer.
Local Open Scope N_scope.

Section SlotSet.
  Context {File T : Type}.
  Implicit Types (c : file_cache File T).

  Lemma slot_get_some : forall m c f v, slot m c = Some (f, v) -> slot_get m c = Ok (f, v).
  Proof.
    intros m c f v H. unfold slot in H. unfold slot_get. destruct (eget m (fc_entries c)) as [e|]; [|discriminate].
    simpl in *. congruence.
  Qed.
  Lemma slot_set_view : forall w m c f v x, Inv c -> slot m c = Some (f, v) ->
    let c' := slot_set m x c in
    Inv c' /\ slot m c' = Some (f, Some x) /\ (forall m', m' <> m -> slot m' c' = slot m' c) /\
    same_meta w c c' /\ (forall q, cur q c' = cur q c) /\ fc_auto_reload c' = fc_auto_reload c.
  Proof.
    intros w m c f v x HI Hs c'. unfold c', slot_set. unfold slot in Hs.
    destruct (eget m (fc_entries c)) as [e|] eqn:E; [|discriminate]. simpl in Hs. injection Hs as <- <-.
    set (c1 := FileCache _ _ _).
    assert (HInv : Inv c1).
    { constructor; simpl.
      - apply HI.
      - apply aset_nodup; [apply meta_eqb_spec|apply HI].
      - apply HI.
      - intros m1. destruct (meta_eqb_spec m1 m) as [->|Hne].
        + rewrite eget_eset_eq. simpl. eapply Inv_refs_some; eauto.
        + rewrite eget_eset_neq by auto. apply HI. }
    split; auto. split; [|split; [|split; [|split]]].
    - unfold slot; simpl. now rewrite eget_eset_eq.
    - intros m' Hm. unfold slot; simpl. now rewrite eget_eset_neq.
    - intros q. reflexivity.
    - intros q. reflexivity.
    - reflexivity.
  Qed.
End SlotSet.

Section Elf.
  Context {File Parser : Type}.
  Notation cache := (file_cache File (elf_data Parser)).
  Implicit Types (c : cache) (w : @world File Parser).

  Definition none_view w (p r : path) c : res (elf_res Parser) :=
    match efile (w_fs w) p c with
    | Bad k => Err k
    | Good (m, f, v) =>
        match v with
        | Some d =>
            match ed_elf d with
            | Some x => Ok x
            | None =>
                match ed_dwarf d with
                | Some y => Ok (ElfRes (er_parser y) false (w_elf_plain w (er_parser y)))
                | None => Panic
                end
            end
        | None =>
            match w_elf_parse w f r with
            | Good P => Ok (ElfRes P false (w_elf_plain w P))
            | Bad k => Err k
            end
        end
    end.

  (** The value of the slot afterwards *)
  Definition none_value (v : option (elf_data Parser)) (r : res (elf_res Parser)) : option (elf_data Parser) :=
    match r with
    | Ok x => Some (ElfData (Some x) (match v with Some d => ed_dwarf d | None => None end))
    | _ => v
    end.

  Lemma elf_none_ok : forall w p r c, Inv c ->
    let '(res, c') := elf_none w p r c in
    res = none_view w p r c /\ Inv c' /\ same_meta (w_fs w) c c' /\ fc_auto_reload c' = fc_auto_reload c /\
    (forall q, q <> p -> cur q c' = cur q c) /\
    match efile (w_fs w) p c with
    | Good (m, f, v) => slot m c' = Some (f, none_value v res) /\ (forall m', m' <> m -> slot m' c' = slot m' c) /\
        exists pin, cur p c' = Some (pin, m)
    | Bad _ => c' = c
    end.
  Proof.
    intros w p r c HI. unfold elf_none, none_view. pose proof (fc_entry_view (w_fs w) p c HI) as V.
    destruct (fc_entry (w_fs w) p c) as [res c1]. destruct (efile (w_fs w) p c) as [[[m f] v]|k].
    2:{ destruct V as [-> ->]. simpl. split; [|split; [|split]]; auto. intros q. reflexivity. }
    destruct V as (-> & I1 & _ & S1 & O1 & M1 & C1 & A1 & P1). cbn [then_].
    rewrite (slot_get_some _ _ _ _ S1). cbn [then_].
    destruct v as [d|].
    - destruct (ed_elf d) as [x|] eqn:Ee.
      + destruct d as [de dd]. simpl in *. subst de. cbn [none_value]. auto 10.
      + destruct (ed_dwarf d) as [y|] eqn:Ed.
        * pose proof (slot_set_view (w_fs w) m c1 f _
                        (ElfData (Some (ElfRes (er_parser y) false (w_elf_plain w (er_parser y)))) (Some y)) I1 S1)
            as (I2 & S2 & O2 & M2 & C2 & A2).
          cbn [none_value]. rewrite Ed.
          split; auto. split; auto. split; [intros q; rewrite M2; apply M1|]. split; [congruence|].
          split; [intros q Hq; rewrite C2; auto|]. split; auto. split.
          -- intros m' Hm'. rewrite O2 by auto. auto.
          -- destruct P1 as [pin P1]. exists pin. now rewrite C2.
        * cbn [none_value]. auto 10.
    - destruct (w_elf_parse w f r) as [P|k]; cbn [none_value]; [|auto 10].
      pose proof (slot_set_view (w_fs w) m c1 f _ (ElfData (Some (ElfRes P false (w_elf_plain w P))) None) I1 S1)
        as (I2 & S2 & O2 & M2 & C2 & A2).
      split; auto. split; auto. split; [intros q; rewrite M2; apply M1|]. split; [congruence|].
      split; [intros q Hq; rewrite C2; auto|]. split; auto. split.
      -- intros m' Hm'. rewrite O2 by auto. auto.
      -- destruct P1 as [pin P1]. exists pin. now rewrite C2.
  Qed.

  (** ** Sets of paths to look up and report, unambiguous regarding the files
      they refer to *)
  Definition unambiguous (U : path -> path -> Prop) w c : Prop :=
    forall p r p' r' m, U p r -> U p' r' -> emeta (w_fs w) p c = Good m -> emeta (w_fs w) p' c = Good m ->
    r = r' /\ fs_open (w_fs w) p = fs_open (w_fs w) p'.

  Lemma unambiguous_same : forall U w c c', same_meta (w_fs w) c c' -> unambiguous U w c -> unambiguous U w c'.
  Proof. intros U w c c' M H p r p' r' m. rewrite (M p), (M p'). apply H. Qed.

  Lemma none_keeps_none : forall U w p r q r' c, Inv c -> unambiguous U w c -> U p r -> U q r' ->
    none_view w q r' (snd (elf_none w p r c)) = none_view w q r' c.
  Proof.
    intros U w p r q r' c HI HU Hp Hq. pose proof (elf_none_ok w p r c HI) as V.
    destruct (elf_none w p r c) as [res c']. destruct V as (Er & I' & M & A & _ & V). simpl snd.
    destruct (efile (w_fs w) p c) as [[[m f] v]|k] eqn:Ef; [|congruence].
    destruct V as (S & O & _).
    assert (Em : emeta (w_fs w) p c = Good m).
    { eapply efile_meta; eauto. }
    destruct (emeta (w_fs w) q c) as [mq|kq] eqn:Eq.
    2:{ unfold none_view. now rewrite (efile_bad _ _ _ _ kq M Eq). }
    destruct (meta_eqb_spec mq m) as [->|Hne].
    2:{ unfold none_view. now rewrite (efile_other _ _ _ _ mq m M Eq Hne O). }
    destruct (HU p r q r' m Hp Hq Em Eq) as [<- Ho].
    assert (Eq' : efile (w_fs w) q c = Good (m, f, v)).
    { unfold efile in *. rewrite Eq. rewrite Em in Ef. rewrite <- Ho. exact Ef. }
    assert (Eq2 : efile (w_fs w) q c' = Good (m, f, none_value v res)).
    { unfold efile. now rewrite (M q), Eq, S. }
    unfold none_view. rewrite Eq', Eq2. rewrite Er. unfold none_view. rewrite Ef.
    destruct v as [d|].
    - destruct (ed_elf d) as [x|] eqn:E1; simpl; auto.
      destruct (ed_dwarf d) as [y|] eqn:E2; simpl; auto; now rewrite ?E1, ?E2.
    - destruct (w_elf_parse w f r) as [P|k] eqn:E1; simpl; auto; now rewrite ?E1.
  Qed.

  (** ** With debug information *)
  Definition link_view w (P : Parser) c : res (option Parser) :=
    let* l := w_link w P in
    match l with
    | None => Ok None
    | Some (q, sum) =>
        let* x := none_view w q q c in
        if w_crc w (er_parser x) =? sum then Ok (Some (er_parser x)) else Err EInvalidData
    end.
  Definition dwp_view w (P : Parser) c : res (option Parser) :=
    match w_dwp w P with
    | None => Ok None
    | Some q =>
        match none_view w q q c with
        | Ok x => Ok (Some (er_parser x))
        | Err ENotFound => Ok None
        | Err k => Err k
        | Panic => Panic
        | NoFuel => NoFuel
        end
    end.
  Definition from_view w (P : Parser) c : res (elf_res Parser) :=
    let* l := link_view w P c in
    let* d := dwp_view w P c in
    let* r := of_outcome (w_dwarf w P l d) in
    Ok (ElfRes P true r).
  Definition debug_view w (p r : path) c : res (elf_res Parser) :=
    match efile (w_fs w) p c with
    | Bad k => Err k
    | Good (m, f, v) =>
        match v with
        | Some d =>
            match ed_dwarf d with
            | Some x => Ok x
            | None => match ed_elf d with Some y => from_view w (er_parser y) c | None => Panic end
            end
        | None =>
            match w_elf_parse w f r with
            | Good P => from_view w P c
            | Bad k => Err k
            end
        end
    end.
  (** Paths looked up for a file's debug information *)
  Definition nested w (P : Parser) (q : path) : Prop :=
    (exists sum, w_link w P = Ok (Some (q, sum))) \/ w_dwp w P = Some q.

  Lemma link_view_same : forall w P c c',
    (forall q, nested w P q -> none_view w q q c' = none_view w q q c) -> link_view w P c' = link_view w P c.
  Proof.
    intros w P c c' H. unfold link_view. destruct (w_link w P) as [[[q sum]|]|k| |] eqn:E; simpl; auto.
    rewrite H; auto. left. eauto.
  Qed.
  Lemma dwp_view_same : forall w P c c',
    (forall q, nested w P q -> none_view w q q c' = none_view w q q c) -> dwp_view w P c' = dwp_view w P c.
  Proof.
    intros w P c c' H. unfold dwp_view. destruct (w_dwp w P) as [q|] eqn:E; simpl; auto.
    rewrite H; auto. right. auto.
  Qed.
  Lemma from_view_same : forall w P c c',
    (forall q, nested w P q -> none_view w q q c' = none_view w q q c) -> from_view w P c' = from_view w P c.
  Proof. intros w P c c' H. unfold from_view. now rewrite (link_view_same w P c c' H), (dwp_view_same w P c c' H). Qed.

  (** [c'] results from lookups of nested paths: slots other than theirs are
      the same. *)
  Definition keeps (U : path -> path -> Prop) w (P : Parser) c c' : Prop :=
    Inv c' /\ same_meta (w_fs w) c c' /\ fc_auto_reload c' = fc_auto_reload c /\
    (forall q r, U q r -> none_view w q r c' = none_view w q r c) /\
    (forall m, (forall q, nested w P q -> emeta (w_fs w) q c <> Good m) -> slot m c' = slot m c) /\
    (forall q, ~ nested w P q -> cur q c' = cur q c).
  Lemma keeps_refl : forall U w P c, Inv c -> keeps U w P c c.
  Proof. intros U w P c HI. split; auto. split; [intros q; auto|]. auto. Qed.
  Lemma keeps_trans : forall U w P c c1 c2, keeps U w P c c1 -> keeps U w P c1 c2 -> keeps U w P c c2.
  Proof.
    intros U w P c c1 c2 (I1 & M1 & A1 & N1 & S1 & C1) (I2 & M2 & A2 & N2 & S2 & C2).
    split; auto. split; [intros q; rewrite M2; apply M1|]. split; [congruence|]. split; [|split].
    - intros q r H. rewrite N2; auto.
    - intros m H. rewrite S2; auto. intros q Hq. rewrite (M1 q). auto.
    - intros q H. rewrite C2; auto.
  Qed.
  Lemma elf_none_keeps : forall (U : path -> path -> Prop) w P q c, Inv c -> unambiguous U w c -> nested w P q -> U q q ->
    keeps U w P c (snd (elf_none w q q c)).
  Proof.
    intros U w P q c HI HU Hn Hq. pose proof (elf_none_ok w q q c HI) as V.
    pose proof (fun p r H => none_keeps_none U w q q p r c HI HU Hq H) as K.
    destruct (elf_none w q q c) as [res c']. simpl snd in *. destruct V as (_ & I' & M & A & C & V).
    split; auto. split; auto. split; auto. split; auto. split.
    - intros m Hm. destruct (efile (w_fs w) q c) as [[[m0 f] v]|k] eqn:Ef; [|congruence].
      destruct V as (_ & O & _). apply O. intros ->. apply (Hm q Hn).
      eapply efile_meta; eauto.
    - intros p Hp. apply C. congruence.
  Qed.

  Lemma from_parser_ok : forall (U : path -> path -> Prop) w P c, Inv c -> unambiguous U w c ->
    (forall q, nested w P q -> U q q) ->
    let '(res, c') := from_parser w P c in res = from_view w P c /\ keeps U w P c c'.
  Proof.
    intros U w P c HI HU HN. unfold from_parser, from_view.
    assert (L : fst (deref_link w P c) = link_view w P c /\ keeps U w P c (snd (deref_link w P c))).
    { unfold deref_link, link_view. destruct (w_link w P) as [[[q sum]|]|k| |] eqn:El; cbn [then_ bind fst snd];
        try (split; [reflexivity|now apply keeps_refl]).
      assert (Hn : nested w P q) by (left; eauto).
      pose proof (elf_none_keeps U w P q c HI HU Hn (HN q Hn)) as K.
      pose proof (elf_none_ok w q q c HI) as V. destruct (elf_none w q q c) as [res c1]. simpl snd in K.
      destruct V as (<- & _). destruct res as [x|k| |]; cbn [then_ bind]; auto.
      destruct (w_crc w (er_parser x) =? sum); auto. }
    destruct (deref_link w P c) as [lr c1]. cbn [fst snd] in L. destruct L as [<- K1].
    destruct lr as [l|k| |]; cbn [then_ bind]; auto.
    destruct K1 as (I1 & M1 & A1 & N1 & S1 & C1).
    assert (K1 : keeps U w P c c1) by (unfold keeps; auto 10).
    assert (HU1 : unambiguous U w c1) by (eapply unambiguous_same; eauto).
    assert (D : fst (find_dwp w P c1) = dwp_view w P c /\ keeps U w P c (snd (find_dwp w P c1))).
    { rewrite <- (dwp_view_same w P c c1) by (intros q Hq; apply N1; auto).
      unfold find_dwp, dwp_view. destruct (w_dwp w P) as [q|] eqn:Ed; cbn [fst snd]; auto.
      assert (Hn : nested w P q) by (right; auto).
      pose proof (elf_none_keeps U w P q c1 I1 HU1 Hn (HN q Hn)) as K.
      pose proof (elf_none_ok w q q c1 I1) as V. destruct (elf_none w q q c1) as [res c2]. simpl snd in K.
      destruct V as (<- & _). assert (K2 : keeps U w P c c2) by (eapply keeps_trans; eauto).
      destruct res as [x|[]| |]; auto. }
    destruct (find_dwp w P c1) as [dr c2]. cbn [fst snd] in D. destruct D as [<- K2].
    destruct dr as [d|k| |]; cbn [then_ bind]; auto.
    destruct (w_dwarf w P l d); cbn [of_outcome then_ bind]; auto.
  Qed.

  Definition debug_value (v : option (elf_data Parser)) (r : res (elf_res Parser)) : option (elf_data Parser) :=
    match r with
    | Ok x => Some (ElfData (match v with Some d => ed_elf d | None => None end) (Some x))
    | _ => v
    end.

  (** [D]: files to look up with debug information; [U]: those, and the files
      with debug information *)
  Record debug_ok (D U : path -> path -> Prop) w c : Prop := DebugOk {
    do_inv : Inv c;
    do_unamb : unambiguous U w c;
    do_sub : forall p r, D p r -> U p r;
    do_nested : forall p r x q, D p r -> none_view w p r c = Ok x -> nested w (er_parser x) q ->
      U q q /\ forall p' r' m, D p' r' -> emeta (w_fs w) p' c = Good m -> emeta (w_fs w) q c <> Good m
  }.
  Lemma debug_ok_same : forall D U w c c', debug_ok D U w c -> Inv c' -> same_meta (w_fs w) c c' ->
    (forall p r, U p r -> none_view w p r c' = none_view w p r c) -> debug_ok D U w c'.
  Proof.
    intros D U w c c' [H1 H2 H3 H4] I' M N. constructor; auto.
    - eapply unambiguous_same; eauto.
    - intros p r x q Hp E Hn. rewrite N in E by auto. destruct (H4 p r x q Hp E Hn) as [X Y].
      split; auto. intros p' r' m. rewrite (M p'), (M q). apply Y.
  Qed.

  Lemma elf_debug_ok : forall D U w p r c, debug_ok D U w c -> D p r ->
    let '(res, c') := elf_debug w p r c in
    res = debug_view w p r c /\ Inv c' /\ same_meta (w_fs w) c c' /\ fc_auto_reload c' = fc_auto_reload c /\
    (forall q r', U q r' -> none_view w q r' c' = none_view w q r' c) /\
    (forall q r', D q r' -> debug_view w q r' c' = debug_view w q r' c).
  Proof.
    intros D U w p r c HD Hp. destruct HD as [HI HU HS HN] eqn:EHD. clear EHD.
    pose proof (fc_entry_view (w_fs w) p c HI) as V. unfold elf_debug.
    destruct (fc_entry (w_fs w) p c) as [r1 c1].
    destruct (efile (w_fs w) p c) as [[[m f] v]|k] eqn:Ef.
    2:{ destruct V as [-> ->]. cbn [then_]. unfold debug_view at 1. rewrite Ef.
        split; auto. split; auto. split; [intros q; auto|]. auto. }
    destruct V as (-> & I1 & Em & S1 & O1 & M1 & C1 & A1 & P1).
    cbn [then_]. rewrite (slot_get_some _ _ _ _ S1). cbn [then_].
    (* opening *)
    assert (F1 : forall q r', U q r' -> efile (w_fs w) q c1 = efile (w_fs w) q c).
    { intros q r' Hq. destruct (emeta (w_fs w) q c) as [mq|kq] eqn:Eq; [|eapply efile_bad; eauto].
      destruct (meta_eqb_spec mq m) as [->|Hne]; [|eapply efile_other; eauto].
      destruct (HU p r q r' m (HS _ _ Hp) Hq Em Eq) as [_ Ho].
      destruct (efile_open _ _ _ _ _ _ _ _ Ef Eq Ho M1 S1) as [-> ->]. reflexivity. }
    assert (N1 : forall q r', U q r' -> none_view w q r' c1 = none_view w q r' c).
    { intros q r' Hq. unfold none_view. now rewrite (F1 q r' Hq). }
    assert (D1 : debug_ok D U w c1) by (eapply debug_ok_same; eauto).
    (* debug views, too *)
    assert (DV1 : forall q r', D q r' -> debug_view w q r' c1 = debug_view w q r' c).
    { intros q r' Hq. unfold debug_view. rewrite (F1 q r') by auto.
      destruct (efile (w_fs w) q c) as [[[m' f'] v']|] eqn:Eq'; auto.
      assert (NV : forall x, none_view w q r' c = Ok x -> from_view w (er_parser x) c1 = from_view w (er_parser x) c).
      { intros x0 Hx. apply from_view_same. intros q' Hq'. apply N1. eapply HN; eauto. }
      unfold none_view in NV. rewrite Eq' in NV. destruct v' as [d'|].
      - destruct (ed_dwarf d'); auto. destruct (ed_elf d') as [y|]; auto.
      - destruct (w_elf_parse w f' r') as [P|]; auto. apply (NV (ElfRes P false (w_elf_plain w P))). reflexivity. }
    (* the general step: from a parser, given in [none_view], to the value *)
    assert (G : forall P c2 res, (exists x, none_view w p r c = Ok x /\ er_parser x = P) ->
      from_parser w P c1 = (res, c2) ->
      res = from_view w P c /\ keeps U w P c1 c2 /\ slot m c2 = Some (f, v) /\
      (forall q r' mq, D q r' -> emeta (w_fs w) q c = Good mq -> slot mq c2 = slot mq c1)).
    { intros P c2 res (x & Hx & HP) E.
      assert (HNP : forall q, nested w P q -> U q q) by (intros q Hq; eapply HN; eauto; now rewrite HP).
      pose proof (from_parser_ok U w P c1 I1 (do_unamb _ _ _ _ D1) HNP) as K. rewrite E in K.
      destruct K as [K1 K2].
      assert (Hother : forall q r' mq, D q r' -> emeta (w_fs w) q c = Good mq -> slot mq c2 = slot mq c1).
      { intros q r' mq Hq Eq. apply K2. intros q' Hq'. rewrite (M1 q').
        subst P. destruct (HN p r x q' Hp Hx Hq') as [_ X]. eapply X; eauto. }
      split; [|split; [auto|split; [|auto]]].
      - rewrite K1. apply from_view_same. intros q Hq. apply N1. auto.
      - rewrite (Hother p r m); auto. }
    (* debug views after from_parser *)
    assert (DV : forall c2, Inv c2 -> same_meta (w_fs w) c c2 ->
      (forall q r', U q r' -> none_view w q r' c2 = none_view w q r' c) ->
      forall q r' mq, D q r' -> emeta (w_fs w) q c = Good mq -> slot mq c2 = slot mq c1 ->
      debug_view w q r' c2 = debug_view w q r' c).
    { intros c2 I2 M2 N2 q r' mq Hq Eq Hs.
      assert (E : efile (w_fs w) q c2 = efile (w_fs w) q c).
      { rewrite <- (F1 q r') by auto. unfold efile. now rewrite (M2 q), (M1 q), Eq, Hs. }
      unfold debug_view. rewrite E. destruct (efile (w_fs w) q c) as [[[m' f'] v']|] eqn:Eq'; auto.
      assert (NV : forall x, none_view w q r' c = Ok x -> from_view w (er_parser x) c2 = from_view w (er_parser x) c).
      { intros x Hx. apply from_view_same. intros q' Hq'. apply N2. eapply HN; eauto. }
      unfold none_view in NV. rewrite Eq' in NV. destruct v' as [d|].
      - destruct (ed_dwarf d); auto. destruct (ed_elf d) as [y|]; auto.
      - destruct (w_elf_parse w f' r') as [P|]; auto. apply (NV (ElfRes P false (w_elf_plain w P))). reflexivity. }
    (* failing *)
    assert (Fail : forall P c2, (exists x, none_view w p r c = Ok x /\ er_parser x = P) -> keeps U w P c1 c2 ->
      (forall q r' mq, D q r' -> emeta (w_fs w) q c = Good mq -> slot mq c2 = slot mq c1) ->
      Inv c2 /\ same_meta (w_fs w) c c2 /\ fc_auto_reload c2 = fc_auto_reload c /\
      (forall q r', U q r' -> none_view w q r' c2 = none_view w q r' c) /\
      (forall q r', D q r' -> debug_view w q r' c2 = debug_view w q r' c)).
    { intros P c2 Hx (I2 & M2 & A2 & N2 & _ & _) Hs.
      assert (M : same_meta (w_fs w) c c2) by (intros q; rewrite M2; apply M1).
      assert (N : forall q r', U q r' -> none_view w q r' c2 = none_view w q r' c) by (intros; rewrite N2; auto).
      split; auto. split; auto. split; [congruence|]. split; auto.
      intros q r' Hq. destruct (emeta (w_fs w) q c) as [mq|kq] eqn:Eq; [eapply DV; eauto|].
      unfold debug_view. rewrite (efile_bad _ _ _ _ kq M Eq). unfold efile. now rewrite Eq. }
    (* setting the value *)
    assert (Set_ : forall P c2 x, (exists x, none_view w p r c = Ok x /\ er_parser x = P) -> keeps U w P c1 c2 ->
      (forall q r' mq, D q r' -> emeta (w_fs w) q c = Good mq -> slot mq c2 = slot mq c1) ->
      debug_view w p r c = Ok x -> er_parser x = P ->
      match v with Some d => ed_dwarf d = None | None => True end ->
      let c3 := slot_set m (ElfData (match v with Some d => ed_elf d | None => None end) (Some x)) c2 in
      slot m c3 = Some (f, Some (ElfData (match v with Some d => ed_elf d | None => None end) (Some x))) /\
      Inv c3 /\ same_meta (w_fs w) c c3 /\ fc_auto_reload c3 = fc_auto_reload c /\
      (forall q r', U q r' -> none_view w q r' c3 = none_view w q r' c) /\
      (forall q r', D q r' -> debug_view w q r' c3 = debug_view w q r' c)).
    { intros P c2 x Hx K Hs Hdv HP Hv c3.
      destruct (Fail P c2 Hx K Hs) as (I2 & M2 & A2 & N2 & V2).
      assert (S2 : slot m c2 = Some (f, v)) by (rewrite (Hs p r m); auto).
      pose proof (slot_set_view (w_fs w) m c2 f v
        (ElfData (match v with Some d => ed_elf d | None => None end) (Some x)) I2 S2) as (I3 & S3 & O3 & M3 & C3 & A3).
      fold c3 in I3, S3, O3, M3, C3, A3.
      assert (M : same_meta (w_fs w) c c3) by (intros q; rewrite M3; apply M2).
      assert (E2 : forall q r', U q r' -> emeta (w_fs w) q c = Good m ->
        r' = r /\ efile (w_fs w) q c = Good (m, f, v) /\
        efile (w_fs w) q c3 = Good (m, f, Some (ElfData (match v with Some d => ed_elf d | None => None end) (Some x)))).
      { intros q r' Hq Eq. destruct (HU p r q r' m (HS _ _ Hp) Hq Em Eq) as [<- Ho]. split; auto.
        split; [apply (efile_open _ _ _ _ _ _ _ _ Ef Eq Ho M1 S1)|].
        unfold efile. now rewrite (M q), Eq, S3. }
      assert (N : forall q r', U q r' -> none_view w q r' c3 = none_view w q r' c).
      { intros q r' Hq. destruct (emeta (w_fs w) q c) as [mq|kq] eqn:Eq.
        2:{ unfold none_view. now rewrite (efile_bad _ _ _ _ kq M Eq). }
        destruct (meta_eqb_spec mq m) as [->|Hne].
        - destruct (E2 q r' Hq Eq) as (-> & F & F3). destruct Hx as (x0 & Hx & HPx).
          unfold none_view in Hx. unfold none_view. rewrite F, F3. rewrite Ef in Hx. cbn [ed_elf ed_dwarf].
          destruct v as [d|].
          + destruct (ed_elf d) as [y|]; auto. rewrite Hv in Hx. discriminate.
          + destruct (w_elf_parse w f r) as [P'|]; [|discriminate]. injection Hx as <-. simpl in HPx. congruence.
        - rewrite <- N2 by auto. unfold none_view.
          assert (Eq2 : emeta (w_fs w) q c2 = Good mq) by (rewrite (M2 q); auto).
          now rewrite (efile_other _ _ _ _ mq m M3 Eq2 Hne O3). }
      split; auto. split; auto. split; auto. split; [congruence|]. split; auto.
      intros q r' Hq. destruct (emeta (w_fs w) q c) as [mq|kq] eqn:Eq.
      2:{ unfold debug_view. rewrite (efile_bad _ _ _ _ kq M Eq). unfold efile. now rewrite Eq. }
      destruct (meta_eqb_spec mq m) as [->|Hne].
      - destruct (E2 q r' (HS _ _ Hq) Eq) as (-> & F & F3).
        assert (Ed : debug_view w q r c = debug_view w p r c) by (unfold debug_view; now rewrite F, Ef).
        rewrite Ed, Hdv. unfold debug_view. now rewrite F3.
      - eapply DV; eauto. rewrite O3 by auto. eapply Hs; eauto. }
    destruct v as [d|].
    - destruct (ed_dwarf d) as [x|] eqn:Ed.
      + cbn [then_]. rewrite (slot_get_some _ _ _ _ S1). cbn [then_ unwrap]. rewrite Ed. cbn [unwrap].
        split; [unfold debug_view; now rewrite Ef, Ed|]. auto 10.
      + destruct (ed_elf d) as [y|] eqn:Ee.
        * assert (Hx : exists x, none_view w p r c = Ok x /\ er_parser x = er_parser y).
          { exists y. split; auto. unfold none_view. now rewrite Ef, Ee. }
          assert (Hdv : debug_view w p r c = from_view w (er_parser y) c).
          { unfold debug_view. now rewrite Ef, Ed, Ee. }
          destruct (from_parser w (er_parser y) c1) as [res c2] eqn:Efp.
          destruct (G _ _ _ Hx Efp) as (Hr & K & S2 & Hs). rewrite Hdv. rewrite <- Hr in *.
          destruct res as [x|k| |]; cbn [then_]; try (split; [reflexivity|]; now apply (Fail _ _ Hx K Hs)).
          rewrite (slot_get_some _ _ _ _ S2). cbn [then_]. rewrite Ed. cbn [then_].
          assert (HPx : er_parser x = er_parser y).
          { unfold from_view in Hr. symmetry in Hr. ib Hr l El. ib Hr dd Edd. ib Hr rr Er. injection Hr as <-. reflexivity. }
          destruct (Set_ _ c2 x Hx K Hs Hdv HPx eq_refl) as (S3 & R).
          rewrite Ee. rewrite (slot_get_some _ _ _ _ S3). cbn [then_ unwrap ed_dwarf].
          split; auto.
        * cbn [then_]. assert (Hdv : debug_view w p r c = Panic) by (unfold debug_view; now rewrite Ef, Ed, Ee).
          auto 10.
    - destruct (w_elf_parse w f r) as [P|k] eqn:Epa.
      + assert (Hx : exists x, none_view w p r c = Ok x /\ er_parser x = P).
        { exists (ElfRes P false (w_elf_plain w P)). split; auto. unfold none_view. now rewrite Ef, Epa. }
        assert (Hdv : debug_view w p r c = from_view w P c).
        { unfold debug_view. now rewrite Ef, Epa. }
        destruct (from_parser w P c1) as [res c2] eqn:Efp.
        destruct (G _ _ _ Hx Efp) as (Hr & K & S2 & Hs). rewrite Hdv. rewrite <- Hr in *.
        destruct res as [x|k| |]; cbn [then_]; try (split; [reflexivity|]; now apply (Fail _ _ Hx K Hs)).
        rewrite (slot_get_some _ _ _ _ S2). cbn [then_].
        assert (HPx : er_parser x = P).
        { unfold from_view in Hr. symmetry in Hr. ib Hr l El. ib Hr dd Edd. ib Hr rr Er. injection Hr as <-. reflexivity. }
        destruct (Set_ _ c2 x Hx K Hs Hdv HPx I) as (_ & R). split; auto.
      + cbn [then_]. split; [unfold debug_view; now rewrite Ef, Epa|]. auto 10.
  Qed.
End Elf.
