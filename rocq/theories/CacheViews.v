(** * What looking up a path in a file cache gives, and keeps *)

From Verif Require Import Base Util Amap FileCache FileCacheProofs.
Local Open Scope N_scope.

Section Views.
  Context {File T : Type}.
  Implicit Types (c : file_cache File T) (w : fs File).

  (** The slot a path refers to *)
  Definition emeta w (p : path) c : outcome file_meta :=
    match cur p c with
    | Some (pin, m) => if negb (fc_auto_reload c) || is_pinned pin then Good m else fs_stat w p
    | None => fs_stat w p
    end.
  (** and the file and value in there once looked up *)
  Definition efile w (p : path) c : outcome (file_meta * File * option T) :=
    match emeta w p c with
    | Good m =>
        match slot m c with
        | Some (f, v) => Good (m, f, v)
        | None => match fs_open w p with Good f => Good (m, f, None) | Bad k => Bad k end
        end
    | Bad k => Bad k
    end.

  (** Same slots for all paths *)
  Definition same_meta w c c' := forall q, emeta w q c' = emeta w q c.

  Lemma fc_entry_view : forall w p c, Inv c ->
    let '(r, c') := fc_entry w p c in
    match efile w p c with
    | Good (m, f, v) => r = Ok m /\ Inv c' /\ emeta w p c = Good m /\ slot m c' = Some (f, v) /\
        (forall m', m' <> m -> slot m' c' = slot m' c) /\ same_meta w c c' /\
        (forall q, q <> p -> cur q c' = cur q c) /\
        fc_auto_reload c' = fc_auto_reload c /\
        (exists pin, cur p c' = Some (pin, m))
    | Bad k => r = Err k /\ c' = c
    end.
  Proof.
    intros w p c HI. pose proof (fc_entry_spec w p c HI) as S.
    destruct (fc_entry w p c) as [[meta|k| |] c'] eqn:Ef; try tauto.
    - destruct S as (I' & A & (pe' & P1 & P2) & Q & _ & Hs & (f & v & S1 & S2)).
      assert (Hcur : forall q, q <> p -> cur q c' = cur q c).
      { intros q Hq. unfold cur. now rewrite Q. }
      assert (Hm : emeta w p c = Good meta /\ emeta w p c' = Good meta /\ exists pin, cur p c' = Some (pin, meta)).
      { unfold emeta, cur. rewrite A. destruct (pget p (fc_cache c)) as [pe|] eqn:Ep.
        - destruct (inv_pe c HI _ _ Ep) as [Hc _].
          destruct (pe_current pe) as [[pin cm]|] eqn:Ec; [|congruence].
          destruct (negb (fc_auto_reload c) || is_pinned pin) eqn:Ea.
          + destruct P2 as [-> [pin' E]]. injection E as -> ->.
            rewrite Ep, Ec, Ea. eauto.
          + destruct P2 as [E1 E2]. rewrite P1, E1, E2. destruct (negb _ || is_pinned Unpinned); eauto.
        - destruct P2 as [E1 E2]. rewrite P1, E1, E2. destruct (negb _ || _); eauto. }
      destruct Hm as (M1 & M2 & M3).
      unfold efile. rewrite M1.
      assert (E : match slot meta c with
                  | Some (f, v) => Good (meta, f, v)
                  | None => match fs_open w p with Good f => Good (meta, f, None) | Bad k => Bad k end
                  end = Good (meta, f, v)).
      { destruct (slot meta c) as [[f0 v0]|]; [congruence|]. destruct S2 as [-> ->]. reflexivity. }
      assert (Hsm : same_meta w c c').
      { intros q. destruct (N.eq_dec q p) as [->|Hq]; [congruence|].
        unfold emeta. rewrite A, Hcur by auto. reflexivity. }
      rewrite E. auto 10.
    - destruct S as [-> S].
      assert (Hst : emeta w p c = fs_stat w p).
      { unfold emeta. destruct (cur p c) as [[pin m]|] eqn:Ec; auto.
        destruct (negb (fc_auto_reload c) || is_pinned pin) eqn:Ea; auto. exfalso. unfold cur in Ec.
        destruct (pget p (fc_cache c)) as [pe|] eqn:Ep; [|discriminate].
        destruct (Inv_has_entry c p m HI) as [e He].
        { rewrite Ep. simpl. rewrite contains_metas, Ec, meta_eqb_refl. apply orb_true_r. }
        unfold fc_entry in Ef. rewrite Ep, Ec, Ea, He in Ef. discriminate. }
      unfold efile. rewrite Hst. destruct S as [->|(m & -> & -> & ->)]; auto.
  Qed.

  Lemma efile_other : forall w p c c' m m', same_meta w c c' -> emeta w p c = Good m -> m <> m' ->
    (forall x, x <> m' -> slot x c' = slot x c) -> efile w p c' = efile w p c.
  Proof. intros w p c c' m m' M E Hne O. unfold efile. rewrite (M p), E, O; auto. Qed.
  Lemma efile_bad : forall w p c c' k, same_meta w c c' -> emeta w p c = Bad k -> efile w p c' = efile w p c.
  Proof. intros w p c c' k M E. unfold efile. now rewrite (M p), E. Qed.
  Lemma efile_meta : forall w p c m f v, efile w p c = Good (m, f, v) -> emeta w p c = Good m.
  Proof.
    intros w p c m f v E. unfold efile in E. destruct (emeta w p c) as [m1|]; [|discriminate].
    destruct (slot m1 c) as [[? ?]|]; [congruence|]. destruct (fs_open w p); congruence.
  Qed.

  (** Opening an entry changes nothing. *)
  Lemma efile_open : forall w p q c c1 m f v, efile w p c = Good (m, f, v) -> emeta w q c = Good m ->
    fs_open w p = fs_open w q -> same_meta w c c1 -> slot m c1 = Some (f, v) ->
    efile w q c = Good (m, f, v) /\ efile w q c1 = Good (m, f, v).
  Proof.
    intros w p q c c1 m f v Ef Eq Ho M S. pose proof (efile_meta _ _ _ _ _ _ Ef) as Em.
    split; unfold efile in *.
    - rewrite Eq. rewrite Em in Ef. rewrite <- Ho. exact Ef.
    - now rewrite (M q), Eq, S.
  Qed.

  (** Filling a slot *)
  Lemma fc_fill_view : forall w m init c f v, Inv c -> slot m c = Some (f, v) ->
    let '(r, c') := fc_fill m init c in
    let v' := match v with
              | Some x => Some x
              | None => match init f with Good x => Some x | Bad _ => None end
              end in
    Inv c' /\ slot m c' = Some (f, v') /\ (forall m', m' <> m -> slot m' c' = slot m' c) /\
    same_meta w c c' /\ (forall q, cur q c' = cur q c) /\ fc_auto_reload c' = fc_auto_reload c /\
    r = match v with Some x => Ok x | None => of_outcome (init f) end.
  Proof.
    intros w m init c f v HI Hs. unfold slot in Hs.
    destruct (eget m (fc_entries c)) as [e|] eqn:E; [|discriminate]. simpl in Hs. injection Hs as <- <-.
    pose proof (fc_fill_spec m init c e HI E) as S. destruct (fc_fill m init c) as [r c'].
    destruct S as (I' & A & C & O & S).
    assert (Hc : forall q, cur q c' = cur q c) by (intros q; unfold cur; now rewrite C).
    assert (Hm : same_meta w c c') by (intros q; unfold emeta; now rewrite Hc, A).
    destruct (e_value e) as [x|]; destruct S as [-> ->]; auto 12.
  Qed.
End Views.
