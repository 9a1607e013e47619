(** * Caches of files after any lookups: what they contain, and that this makes
      no difference *)

From Verif Require Import Base Util Amap FileCache FileCacheProofs CacheViews Sym Symbolizer SymbolizerElf HistorySpec.
Local Open Scope N_scope.

(** ** Looking up a path in a cache that nothing is pinned in *)
Section Unpinned.
  Context {File T : Type}.
  Implicit Types (c : file_cache File T) (w : fs File).

  Definition unpinned c : Prop := fc_auto_reload c = true /\ forall p pin m, cur p c = Some (pin, m) -> pin = Unpinned.
  Lemma unpinned_new : unpinned (fc_new true).
  Proof. split; auto. intros p pin m H. discriminate. Qed.
  Lemma unpinned_meta : forall w p c, unpinned c -> emeta w p c = fs_stat w p.
  Proof.
    intros w p c [A H]. unfold emeta. destruct (cur p c) as [[pin m]|] eqn:E; auto.
    rewrite A, (H _ _ _ E). reflexivity.
  Qed.
  Lemma unpinned_cur : forall c c', unpinned c -> fc_auto_reload c' = fc_auto_reload c -> (forall q, cur q c' = cur q c) ->
    unpinned c'.
  Proof. intros c c' [A H] A' C. split; [congruence|]. intros p pin m. rewrite C. apply H. Qed.
  Lemma unpinned_entry : forall w p c r c', Inv c -> unpinned c -> fc_entry w p c = (r, c') -> unpinned c'.
  Proof.
    intros w p c r c' HI [A H] E. pose proof (fc_entry_spec w p c HI) as S. rewrite E in S.
    destruct r as [meta|k| |]; try tauto.
    - destruct S as (_ & A' & (pe' & P1 & P2) & Q & _). split; [congruence|].
      intros q pin m Hq. destruct (N.eq_dec q p) as [->|Hne].
      + unfold cur in Hq. rewrite P1 in Hq. destruct (pget p (fc_cache c)) as [pe|] eqn:Ep.
        * destruct (pe_current pe) as [[pin' m']|] eqn:Ec.
          -- assert (pin' = Unpinned) by (apply (H p pin' m'); unfold cur; now rewrite Ep). subst pin'.
             rewrite A in P2. cbn [negb orb is_pinned] in P2. destruct P2 as [P2 _]. rewrite P2 in Hq. congruence.
          -- rewrite A in P2. cbn [negb orb] in P2. destruct P2 as [P2 _]. rewrite P2 in Hq. congruence.
        * destruct P2 as [P2 _]. rewrite P2 in Hq. congruence.
      + apply (H q pin m). unfold cur in *. now rewrite <- Q.
    - destruct S as [-> _]. split; auto.
  Qed.
End Unpinned.

Section Histories.
  Context {File Parser : Type}.
  Notation world := (world File Parser).
  Notation elf_cache := (file_cache File (elf_data Parser)).
  Variable W : world -> Prop.

  (** ** Formats of single files *)
  Section File.
    Variable U : path -> path -> Prop.
    Variable init : world -> File -> path -> outcome resolver.
    Hypothesis Hinit : forall w w', W w -> W w' -> init w = init w'.
    Hypothesis HU : identified W U.

    Record good_files (c : file_cache File resolver) : Prop := GoodFiles {
      gf_inv : Inv c;
      gf_unpinned : unpinned c;
      gf_slots : forall m f v, slot m c = Some (f, v) -> exists w p r, W w /\ U p r /\
        fs_stat (w_fs w) p = Good m /\ fs_open (w_fs w) p = Good f /\
        match v with Some x => init w f r = Good x | None => True end
    }.
    Lemma good_files_new : good_files (fc_new true).
    Proof. constructor; [apply Inv_new|apply unpinned_new|]. intros m f v H. discriminate. Qed.
    Lemma file_resolver_alone : forall w p c r c', W w -> U p p -> good_files c ->
      file_resolver w (init w) p c = (r, c') -> r = file_alone w (init w) p /\ good_files c'.
    Proof.
      intros w p c r c' Hw Hp [HI HN HS] E. unfold file_resolver in E.
      pose proof (fc_entry_view (w_fs w) p c HI) as V. unfold efile in V. rewrite (unpinned_meta (w_fs w) p c HN) in V.
      destruct (fc_entry (w_fs w) p c) as [r1 c1] eqn:Ef.
      pose proof (unpinned_entry _ _ _ _ _ HI HN Ef) as N1.
      unfold file_alone, opened.
      destruct (fs_stat (w_fs w) p) as [m|k] eqn:Es; cbn [of_outcome bind].
      2:{ destruct V as [-> ->]. cbn [then_] in E. injection E as <- <-. split; [reflexivity|constructor; auto]. }
      destruct (slot m c) as [[f v]|] eqn:Sl.
      - destruct V as (-> & I1 & _ & S1 & O1 & M1 & C1 & A1 & _). cbn [then_] in E.
        destruct (HS m f v Sl) as (w0 & p0 & r0 & Hw0 & Hp0 & Est & Eo & Ev).
        destruct (HU w0 w p0 r0 p p m Hw0 Hw Hp0 Hp Est Es) as [-> Eo']. rewrite <- Eo', Eo. cbn [of_outcome bind].
        pose proof (fc_fill_view (w_fs w) m (fun f => init w f p) c1 f v I1 S1) as F. rewrite E in F.
        destruct F as (I2 & S2 & O2 & M2 & C2 & A2 & ->).
        rewrite (Hinit w0 w Hw0 Hw) in Ev.
        split; [destruct v as [x|]; [now rewrite Ev|reflexivity]|]. constructor; auto.
        + eapply unpinned_cur; eauto.
        + intros m' f' v' Hs. destruct (meta_eqb_spec m' m) as [->|Hne].
          * rewrite S2 in Hs. injection Hs as <- <-. exists w, p, p. split; auto. split; auto. split; auto. split; [congruence|].
            destruct v as [x|]; auto. destruct (init w f p) eqn:Ei; auto.
          * rewrite O2, O1 in Hs by auto. eauto.
      - destruct (fs_open (w_fs w) p) as [f|k] eqn:Eo; cbn [of_outcome bind].
        2:{ destruct V as [-> ->]. cbn [then_] in E. injection E as <- <-. split; [reflexivity|constructor; auto]. }
        destruct V as (-> & I1 & _ & S1 & O1 & M1 & C1 & A1 & _). cbn [then_] in E.
        pose proof (fc_fill_view (w_fs w) m (fun f => init w f p) c1 f None I1 S1) as F. rewrite E in F.
        destruct F as (I2 & S2 & O2 & M2 & C2 & A2 & ->).
        split; [reflexivity|]. constructor; auto.
        + eapply unpinned_cur; eauto.
        + intros m' f' v' Hs. destruct (meta_eqb_spec m' m) as [->|Hne].
          * rewrite S2 in Hs. injection Hs as <- <-. exists w, p, p. split; auto. split; auto. split; auto. split; auto.
            destruct (init w f p) eqn:Ei; auto.
          * rewrite O2, O1 in Hs by auto. eauto.
    Qed.
  End File.

  (** ** ELF files *)
  Section Elf.
    Variables D U : path -> path -> Prop.
    Hypothesis HL : lasting W D U.

    Definition good_data (w : world) (p r : path) (f : File) (d : elf_data Parser) : Prop :=
      exists P, w_elf_parse w f r = Good P /\
        (ed_elf d <> None \/ ed_dwarf d <> None) /\
        (forall x, ed_elf d = Some x -> x = ElfRes P false (w_elf_plain w P)) /\
        (forall x, ed_dwarf d = Some x -> D p r /\ exists y, with_debug w P = Ok y /\ x = ElfRes P true y).
    Record good_elf (c : elf_cache) : Prop := GoodElf {
      ge_inv : Inv c;
      ge_unpinned : unpinned c;
      ge_slots : forall m f v, slot m c = Some (f, v) -> exists w p r, W w /\ U p r /\
        fs_stat (w_fs w) p = Good m /\ fs_open (w_fs w) p = Good f /\
        match v with Some d => good_data w p r f d | None => True end
    }.
    Lemma good_elf_new : good_elf (fc_new true).
    Proof. constructor; [apply Inv_new|apply unpinned_new|]. intros m f v H. discriminate. Qed.

    (** What is known of a slot, in the world at hand *)
    Lemma good_slot : forall w p r m f v c, good_elf c -> W w -> U p r -> fs_stat (w_fs w) p = Good m ->
      slot m c = Some (f, v) ->
      fs_open (w_fs w) p = Good f /\
      match v with
      | Some d => exists P, w_elf_parse w f r = Good P /\ (ed_elf d <> None \/ ed_dwarf d <> None) /\
          (forall x, ed_elf d = Some x -> x = ElfRes P false (w_elf_plain w P)) /\
          (forall x, ed_dwarf d = Some x -> exists w0 p0, W w0 /\ D p0 r /\ fs_stat (w_fs w0) p0 = Good m /\
             parsed w0 p0 r = Ok P /\ exists y, with_debug w0 P = Ok y /\ x = ElfRes P true y)
      | None => True
      end.
    Proof.
      intros w p r m f v c [_ _ HS] Hw Hp Es Sl. destruct (HS m f v Sl) as (w0 & p0 & r0 & Hw0 & Hp0 & Es0 & Eo0 & Ev).
      destruct (la_identified _ _ _ HL w0 w p0 r0 p r m Hw0 Hw Hp0 Hp Es0 Es) as [-> Eo].
      split; [congruence|]. destruct v as [d|]; auto.
      destruct Ev as (P & EP & H1 & H2 & H3). destruct (la_program _ _ _ HL w0 w Hw0 Hw) as (E1 & E2 & _).
      exists P. split; [now rewrite <- E1|]. split; auto. split; [now rewrite <- E2|].
      intros x Hx. destruct (H3 x Hx) as (Hd & y & Hy & ->).
      exists w0, p0. split; auto. split; auto. split; auto. split.
      - unfold parsed, opened. rewrite Es0, Eo0. cbn [of_outcome bind]. now rewrite EP.
      - eauto.
    Qed.

    Lemma elf_none_alone : forall w p r c x c', W w -> U p r -> good_elf c -> elf_none w p r c = (x, c') ->
      x = (let* P := parsed w p r in Ok (ElfRes P false (w_elf_plain w P))) /\ good_elf c' /\
      (forall m, fs_stat (w_fs w) p <> Good m -> slot m c' = slot m c).
    Proof.
      intros w p r c x c' Hw Hp HG E. pose proof (ge_inv _ HG) as HI. pose proof (ge_unpinned _ HG) as HN.
      pose proof (elf_none_ok w p r c HI) as V. rewrite E in V. destruct V as (-> & I' & M' & A' & C' & V).
      pose proof (unpinned_meta (w_fs w) p c HN) as Em. set (view := none_view w p r c) in *.
      assert (Hview : view = none_view w p r c) by reflexivity. unfold none_view in Hview. unfold efile in *. rewrite Em in *.
      clearbody view.
      (* pins *)
      assert (N' : unpinned c').
      { split; [rewrite A'; apply HN|]. intros q pin m Hq. destruct (N.eq_dec q p) as [->|Hne].
        - clear V. unfold elf_none in E. destruct (fc_entry (w_fs w) p c) as [r1 c1] eqn:Ef.
          pose proof (unpinned_entry _ _ _ _ _ HI HN Ef) as [_ N1].
          apply (N1 p pin m). rewrite <- Hq. symmetry.
          pose proof (fc_entry_view (w_fs w) p c HI) as V. rewrite Ef in V.
          destruct (efile (w_fs w) p c) as [[[m0 f0] v0]|k0].
          2:{ destruct V as [-> ->]. cbn [then_] in E. injection E as _ <-. reflexivity. }
          destruct V as (-> & I1 & _ & S1 & _). cbn [then_] in E. rewrite (slot_get_some _ _ _ _ S1) in E. cbn [then_] in E.
          assert (K : forall d, cur p (slot_set m0 d c1) = cur p c1).
          { intros d. apply (slot_set_view (w_fs w) m0 c1 f0 v0 d I1 S1). }
          destruct v0 as [d|].
          + destruct (ed_elf d); [injection E as _ <-; reflexivity|].
            destruct (ed_dwarf d); injection E as _ <-; auto.
          + destruct (w_elf_parse w f0 r); injection E as _ <-; auto.
        - rewrite C' in Hq by auto. eapply (proj2 HN); eauto. }
      unfold parsed, opened.
      destruct (fs_stat (w_fs w) p) as [m|k] eqn:Es; cbn [of_outcome bind].
      2:{ subst c' view. split; [reflexivity|]. split; auto. }
      destruct (slot m c) as [[f v]|] eqn:Sl.
      - destruct (good_slot w p r m f v c HG Hw Hp Es Sl) as [Eo Hv]. rewrite Eo. cbn [of_outcome bind].
        destruct V as (S' & O' & _).
        assert (Ex : match v with
                     | Some d =>
                         match ed_elf d with
                         | Some x => Ok x
                         | None =>
                             match ed_dwarf d with
                             | Some y => Ok (ElfRes (er_parser y) false (w_elf_plain w (er_parser y)))
                             | None => Panic
                             end
                         end
                     | None => match w_elf_parse w f r with
                               | Good P => Ok (ElfRes P false (w_elf_plain w P))
                               | Bad k => Err k
                               end
                     end = (let* P := of_outcome (w_elf_parse w f r) in Ok (ElfRes P false (w_elf_plain w P)))).
        { destruct v as [d|].
          - destruct Hv as (P & EP & H1 & H2 & H3). rewrite EP. cbn [of_outcome bind].
            destruct (ed_elf d) as [x|] eqn:Ee; [now rewrite (H2 x eq_refl)|].
            destruct (ed_dwarf d) as [y|] eqn:Ed; [|tauto].
            destruct (H3 y eq_refl) as (w0 & p0 & _ & _ & _ & _ & y0 & _ & ->). reflexivity.
          - now destruct (w_elf_parse w f r). }
        rewrite Ex in Hview. subst view. split; [reflexivity|]. split; [|intros m' Hm; apply O'; congruence].
        constructor; auto. intros m' f' v' Hs. destruct (meta_eqb_spec m' m) as [->|Hne].
        2:{ rewrite O' in Hs by auto. now apply (ge_slots _ HG). }
        rewrite S' in Hs. injection Hs as <- <-.
        destruct (ge_slots _ HG m f v Sl) as (w0 & p0 & r0 & Hw0 & Hp0 & Es0 & Eo0 & Ev).
        destruct (la_identified _ _ _ HL w0 w p0 r0 p r m Hw0 Hw Hp0 Hp Es0 Es) as [-> _].
        destruct (la_program _ _ _ HL w0 w Hw0 Hw) as (E1 & E2 & _).
        exists w0, p0, r. split; auto. split; auto. split; auto. split; auto.
        destruct (w_elf_parse w f r) as [P|k] eqn:EP; cbn [of_outcome bind none_value]; auto.
        exists P. split; [now rewrite E1|]. split; [left; discriminate|]. cbn [ed_elf ed_dwarf]. split; [intros x [= <-]; now rewrite E2|].
        destruct v as [d|]; [|discriminate]. destruct Ev as (P' & EP' & _ & _ & H3).
        rewrite E1, EP in EP'. injection EP' as <-. auto.
      - destruct (fs_open (w_fs w) p) as [f|k] eqn:Eo; cbn [of_outcome bind].
        2:{ subst c' view. split; [reflexivity|]. split; auto. }
        destruct V as (S' & O' & _).
        assert (Ex : match w_elf_parse w f r with
                     | Good P => Ok (ElfRes P false (w_elf_plain w P))
                     | Bad k => Err k
                     end = (let* P := of_outcome (w_elf_parse w f r) in Ok (ElfRes P false (w_elf_plain w P))))
          by now destruct (w_elf_parse w f r).
        rewrite Ex in Hview. subst view. split; [reflexivity|]. split; [|intros m' Hm; apply O'; congruence].
        constructor; auto. intros m' f' v' Hs. destruct (meta_eqb_spec m' m) as [->|Hne].
        2:{ rewrite O' in Hs by auto. now apply (ge_slots _ HG). }
        rewrite S' in Hs. injection Hs as <- <-.
        exists w, p, r. split; auto. split; auto. split; auto. split; auto.
        destruct (w_elf_parse w f r) as [P|k] eqn:EP; cbn [of_outcome bind none_value]; auto.
        exists P. split; auto. split; [left; discriminate|]. cbn [ed_elf ed_dwarf]. split; [congruence|discriminate].
    Qed.

    (** *** Debug information *)
    Lemma deref_link_alone : forall w P c x c', W w -> (forall q, debug_file w P q -> U q q) -> good_elf c ->
      deref_link w P c = (x, c') -> x = linked w P /\ good_elf c' /\
      (forall m, (forall q, debug_file w P q -> fs_stat (w_fs w) q <> Good m) -> slot m c' = slot m c).
    Proof.
      intros w P c x c' Hw HQ HG E. unfold deref_link in E. unfold linked.
      destruct (w_link w P) as [[[q sum]|]|k| |] eqn:El; cbn [then_ bind] in *;
        try (injection E as <- <-; split; [reflexivity|]; split; auto; fail).
      assert (Hq : debug_file w P q) by (econstructor; eauto).
      destruct (elf_none w q q c) as [r1 c1] eqn:En.
      destruct (elf_none_alone w q q c r1 c1 Hw (HQ q Hq) HG En) as (-> & G1 & O1).
      destruct (parsed w q q) as [DD|k| |]; cbn [then_ bind er_parser] in *;
        try (injection E as <- <-; split; [reflexivity|]; split; auto; fail).
      destruct (w_crc w DD =? sum); injection E as <- <-; split; auto.
    Qed.
    Lemma find_dwp_alone : forall w P c x c', W w -> (forall q, debug_file w P q -> U q q) -> good_elf c ->
      find_dwp w P c = (x, c') -> x = packaged w P /\ good_elf c' /\
      (forall m, (forall q, debug_file w P q -> fs_stat (w_fs w) q <> Good m) -> slot m c' = slot m c).
    Proof.
      intros w P c x c' Hw HQ HG E. unfold find_dwp in E. unfold packaged.
      destruct (w_dwp w P) as [q|] eqn:El; [|injection E as <- <-; auto].
      assert (Hq : debug_file w P q) by (now apply DfPackage).
      destruct (elf_none w q q c) as [r1 c1] eqn:En.
      destruct (elf_none_alone w q q c r1 c1 Hw (HQ q Hq) HG En) as (-> & G1 & O1).
      destruct (parsed w q q) as [DD|[]| |]; cbn [bind er_parser] in *; injection E as <- <-; auto.
    Qed.
    Lemma from_parser_alone : forall w P c x c', W w -> (forall q, debug_file w P q -> U q q) -> good_elf c ->
      from_parser w P c = (x, c') -> x = (let* y := with_debug w P in Ok (ElfRes P true y)) /\ good_elf c' /\
      (forall m, (forall q, debug_file w P q -> fs_stat (w_fs w) q <> Good m) -> slot m c' = slot m c).
    Proof.
      intros w P c x c' Hw HQ HG E. unfold from_parser in E. unfold with_debug.
      destruct (deref_link w P c) as [r1 c1] eqn:E1.
      destruct (deref_link_alone w P c r1 c1 Hw HQ HG E1) as (-> & G1 & O1).
      destruct (linked w P) as [l|k| |]; cbn [then_ bind] in *;
        try (injection E as <- <-; split; [reflexivity|]; split; auto; fail).
      destruct (find_dwp w P c1) as [r2 c2] eqn:E2.
      destruct (find_dwp_alone w P c1 r2 c2 Hw HQ G1 E2) as (-> & G2 & O2).
      destruct (packaged w P) as [d|k| |]; cbn [then_ bind] in *;
        try (injection E as <- <-; split; [reflexivity|]; split; auto; intros m Hm; rewrite O2; auto; fail).
      destruct (w_dwarf w P l d) as [y|k]; cbn [of_outcome then_ bind] in *; injection E as <- <-;
        (split; [reflexivity|]; split; auto; intros m Hm; rewrite O2; auto).
    Qed.

    Lemma slot_set_good : forall w p r m f v d c, good_elf c -> W w -> U p r -> fs_stat (w_fs w) p = Good m ->
      slot m c = Some (f, v) -> good_data w p r f d -> good_elf (slot_set m d c).
    Proof.
      intros w p r m f v d c HG Hw Hp Es Sl Hd.
      pose proof (slot_set_view (w_fs w) m c f v d (ge_inv _ HG) Sl) as (I' & S' & O' & M' & C' & A').
      constructor; auto.
      - eapply unpinned_cur; eauto. apply HG.
      - intros m' f' v' Hs. destruct (meta_eqb_spec m' m) as [->|Hne].
        2:{ rewrite O' in Hs by auto. now apply (ge_slots _ HG). }
        rewrite S' in Hs. injection Hs as <- <-.
        destruct (good_slot w p r m f v c HG Hw Hp Es Sl) as [Eo _].
        exists w, p, r. auto.
    Qed.

    Lemma elf_debug_alone : forall w p r c x c', W w -> D p r -> good_elf c -> elf_debug w p r c = (x, c') ->
      x = (let* P := parsed w p r in let* y := with_debug w P in Ok (ElfRes P true y)) /\ good_elf c'.
    Proof.
      intros w p r c x c' Hw Hd HG E. pose proof (la_sub _ _ _ HL p r Hd) as Hp. unfold elf_debug in E.
      pose proof (fc_entry_view (w_fs w) p c (ge_inv _ HG)) as V. unfold efile in V.
      rewrite (unpinned_meta (w_fs w) p c (ge_unpinned _ HG)) in V.
      destruct (fc_entry (w_fs w) p c) as [r1 c1] eqn:Ef.
      pose proof (unpinned_entry _ _ _ _ _ (ge_inv _ HG) (ge_unpinned _ HG) Ef) as N1.
      unfold parsed, opened.
      destruct (fs_stat (w_fs w) p) as [m|k] eqn:Es; cbn [of_outcome bind].
      2:{ destruct V as [-> ->]. cbn [then_] in E. injection E as <- <-. auto. }
      (* the slot once it is there *)
      assert (HV : (exists k, slot m c = None /\ fs_open (w_fs w) p = Bad k /\ r1 = Err k /\ c1 = c) \/
        exists f v, r1 = Ok m /\ fs_open (w_fs w) p = Good f /\ slot m c1 = Some (f, v) /\ good_elf c1).
      { destruct (slot m c) as [[f v]|] eqn:Sl.
        - right. exists f, v. destruct V as (-> & I1 & _ & S1 & O1 & _).
          destruct (good_slot w p r m f v c HG Hw Hp Es Sl) as [Eo _]. split; auto. split; auto. split; auto.
          constructor; auto. intros m' f' v' Hs. destruct (meta_eqb_spec m' m) as [->|Hne].
          + rewrite S1 in Hs. injection Hs as <- <-. now apply (ge_slots _ HG).
          + rewrite O1 in Hs by auto. now apply (ge_slots _ HG).
        - destruct (fs_open (w_fs w) p) as [f|k] eqn:Eo.
          + right. exists f, None. destruct V as (-> & I1 & _ & S1 & O1 & _). split; auto. split; auto. split; auto.
            constructor; auto. intros m' f' v' Hs. destruct (meta_eqb_spec m' m) as [->|Hne].
            * rewrite S1 in Hs. injection Hs as <- <-. exists w, p, r. auto.
            * rewrite O1 in Hs by auto. now apply (ge_slots _ HG).
          + left. exists k. destruct V as [-> ->]. auto. }
      destruct HV as [(k & _ & Eo & -> & ->)|(f & v & -> & Eo & S1 & G1)].
      { cbn [then_] in E. injection E as <- <-. rewrite Eo. auto. }
      rewrite Eo. cbn [of_outcome bind then_] in *. rewrite (slot_get_some _ _ _ _ S1) in E. cbn [then_] in E.
      destruct (good_slot w p r m f v c1 G1 Hw Hp Es S1) as [_ Hv].
      assert (Pa : forall P, w_elf_parse w f r = Good P -> parsed w p r = Ok P).
      { intros P EP. unfold parsed, opened. rewrite Es, Eo. cbn [of_outcome bind]. now rewrite EP. }
      assert (HO : forall P c2 x2, w_elf_parse w f r = Good P -> from_parser w P c1 = (x2, c2) ->
        x2 = (let* y := with_debug w P in Ok (ElfRes P true y)) /\ good_elf c2 /\ slot m c2 = Some (f, v)).
      { intros P c2 x2 EP E2. 
        destruct (from_parser_alone w P c1 x2 c2 Hw) as (H1 & H2 & H3); auto.
        - intros q Hq. eapply (la_other _ _ _ HL w p r P q); eauto.
        - split; auto. split; auto. rewrite H3; auto.
          intros q Hq. eapply (la_other _ _ _ HL w p r P q); eauto. }
      destruct v as [d|].
      - destruct Hv as (P & EP & H1 & H2 & H3). rewrite EP. cbn [of_outcome bind].
        destruct (ed_dwarf d) as [x1|] eqn:Ed.
        + cbn [then_] in E. rewrite (slot_get_some _ _ _ _ S1) in E. cbn [then_] in E. rewrite Ed in E. cbn [unwrap] in E.
          injection E as <- <-. split; auto.
          destruct (H3 x1 eq_refl) as (w0 & p0 & Hw0 & Hd0 & Es0 & Ep0 & y & Hy & ->).
          rewrite <- (la_debug _ _ _ HL w0 w p0 r p r m P Hw0 Hw Hd0 Hd Es0 Es Ep0), Hy. reflexivity.
        + destruct (ed_elf d) as [y|] eqn:Ee; [|tauto]. rewrite (H2 y eq_refl) in E. cbn [er_parser] in E.
          destruct (from_parser w P c1) as [x2 c2] eqn:E2.
          destruct (HO P c2 x2 EP E2) as (-> & G2 & S2).
          destruct (with_debug w P) as [z|k| |] eqn:Ewd; cbn [then_ bind] in *; try (injection E as <- <-; auto; fail).
          rewrite (slot_get_some _ _ _ _ S2) in E. cbn [then_] in E. rewrite Ed in E. cbn [then_] in E.
          pose proof (slot_set_view (w_fs w) m c2 f (Some d) (ElfData (ed_elf d) (Some (ElfRes P true z)))
            (ge_inv _ G2) S2) as (_ & S3 & _).
          rewrite (slot_get_some _ _ _ _ S3) in E. cbn [then_ ed_dwarf unwrap] in E. injection E as <- <-. split; auto.
          eapply slot_set_good; eauto. exists P. split; auto. cbn [ed_elf ed_dwarf]. split; [right; discriminate|].
          split; [rewrite Ee; auto|]. intros x [= <-]. eauto.
      - destruct (w_elf_parse w f r) as [P|k] eqn:EP; cbn [of_outcome bind then_] in *.
        2:{ injection E as <- <-. auto. }
        destruct (from_parser w P c1) as [x2 c2] eqn:E2.
        destruct (HO P c2 x2 eq_refl E2) as (-> & G2 & S2).
        destruct (with_debug w P) as [z|k| |] eqn:Ewd; cbn [then_ bind] in *; try (injection E as <- <-; auto; fail).
        rewrite (slot_get_some _ _ _ _ S2) in E. cbn [then_] in E. injection E as <- <-. split; auto.
        eapply slot_set_good; eauto. exists P. split; auto. cbn [ed_elf ed_dwarf]. split; [right; discriminate|].
        split; [discriminate|]. intros x [= <-]. eauto.
    Qed.

    Lemma elf_resolver_alone : forall w p r debug c x c', W w -> U p r -> (debug = true -> D p r) -> good_elf c ->
      elf_resolver w p r debug c = (x, c') ->
      (let* x := x in Ok (er_resolver x)) = elf_alone w p r debug /\ good_elf c'.
    Proof.
      intros w p r debug c x c' Hw Hp Hd HG E. unfold elf_resolver in E. unfold elf_alone. destruct debug.
      - destruct (elf_debug_alone w p r c x c' Hw (Hd eq_refl) HG E) as [-> G]. split; auto.
        destruct (parsed w p r) as [P|k| |]; cbn [bind]; auto. now destruct (with_debug w P).
      - destruct (elf_none_alone w p r c x c' Hw Hp HG E) as (-> & G & _). split; auto.
        now destruct (parsed w p r) as [P|k| |].
    Qed.
  End Elf.
End Histories.
