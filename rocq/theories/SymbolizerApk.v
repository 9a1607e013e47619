(** * Lookups of members of archives, and of resolvers of files: results as a
      function of the state, and what they keep *)

From Verif Require Import Base Util Amap FileCache FileCacheProofs CacheViews Sym Symbolizer SymbolizerElf.
Local Open Scope N_scope.

Lemma range_eqb_spec : forall a b, reflect (a = b) (range_eqb a b).
Proof.
  intros [a1 a2] [b1 b2]. unfold range_eqb. simpl.
  destruct (N.eqb_spec a1 b1); destruct (N.eqb_spec a2 b2); simpl; constructor; congruence.
Qed.

Section Apk.
  Context {File Parser : Type}.
  Notation cache := (file_cache File apk_data).
  Implicit Types (c : cache) (w : @world File Parser).

  (** The member to use for an offset, with its bounds *)
  Fixpoint hit (m : mode) (off : N) (members : list (outcome member)) : res (option (member * (N * N))) :=
    match members with
    | [] => Ok None
    | Bad k :: _ => Err k
    | Good mb :: members =>
        let* end_ := add64 m (mb_offset mb) (mb_len mb) in
        if (mb_offset mb <=? off) && (off <? end_) then Ok (Some (mb, (mb_offset mb, end_))) else hit m off members
    end.
  Lemma hit_covers : forall m off members mb b, hit m off members = Ok (Some (mb, b)) ->
    fst b <= off < snd b /\ add64 m (mb_offset mb) (mb_len mb) = Ok (snd b) /\ fst b = mb_offset mb.
  Proof.
    intros m off. induction members as [|[x|k] l IH]; intros mb b H; simpl in H; try discriminate.
    ib H e E. destruct ((mb_offset x <=? off) && (off <? e)) eqn:Ec; auto.
    injection H as <- <-. simpl. rewrite andb_true_iff, N.leb_le, N.ltb_lt in Ec. auto.
  Qed.
  Lemma hit_unique : forall m off off' members mb mb' b,
    hit m off members = Ok (Some (mb, b)) -> hit m off' members = Ok (Some (mb', b)) -> mb = mb'.
  Proof.
    intros m off off'. induction members as [|[x|k] l IH]; intros mb mb' b H H'; simpl in *; try discriminate.
    pose proof H as H1. pose proof H' as H1'.
    destruct (add64 m (mb_offset x) (mb_len x)) as [e|k| |] eqn:E; simpl in *; try discriminate.
    destruct ((mb_offset x <=? off) && (off <? e)) eqn:Ec; destruct ((mb_offset x <=? off') && (off' <? e)) eqn:Ec'.
    - congruence.
    - injection H as <- <-. apply hit_covers in H'. simpl in H'. lia.
    - injection H' as <- <-. apply hit_covers in H. simpl in H. lia.
    - eauto.
  Qed.

  (** The resolver for a member *)
  Definition resolver_for w p r debug (mb : member) (b : N * N) (map : list ((N * N) * resolver)) : outcome resolver :=
    match aget range_eqb b map with Some x => Good x | None => member_resolver w p r debug mb end.
  Definition find_view (m : mode) w p r debug off members map : res (option (resolver * N)) :=
    let* h := hit m off members in
    match h with
    | None => Ok None
    | Some (mb, b) =>
        let* x := of_outcome (resolver_for w p r debug mb b map) in
        let* elf_off := sub64 m off (mb_offset mb) in
        let* addr := r_virt x elf_off in
        match addr with Some addr => Ok (Some (x, addr)) | None => Ok None end
    end.
  Definition map_after (m : mode) w p r debug off members (map : list ((N * N) * resolver)) :=
    match hit m off members with
    | Ok (Some (mb, b)) =>
        match aget range_eqb b map, member_resolver w p r debug mb with
        | None, Good x => aset range_eqb b x map
        | _, _ => map
        end
    | _ => map
    end.
  Lemma apk_find_ok : forall m w p r debug off members map,
    apk_find m w p r debug off members map =
    (find_view m w p r debug off members map, map_after m w p r debug off members map).
  Proof.
    intros m w p r debug off. induction members as [|[x|k] l IH]; intros map; simpl; auto.
    unfold find_view, map_after. simpl.
    destruct (add64 m (mb_offset x) (mb_len x)) as [e|k| |] eqn:E; simpl; auto.
    destruct ((mb_offset x <=? off) && (off <? e)) eqn:Ec; [|apply IH]. simpl.
    unfold resolver_for. destruct (aget range_eqb (mb_offset x, e) map) as [y|] eqn:Eg; simpl.
    - destruct (sub64 m off (mb_offset x)) as [eo|k| |]; simpl; auto.
      destruct (r_virt y eo) as [[a|]|k| |]; simpl; auto.
    - destruct (member_resolver w p r debug x) as [y|k]; simpl; auto.
      destruct (sub64 m off (mb_offset x)) as [eo|k| |]; simpl; auto.
      destruct (r_virt y eo) as [[a|]|k| |]; simpl; auto.
  Qed.
  Lemma find_view_after : forall m w p r debug off off' members map,
    find_view m w p r debug off' members (map_after m w p r debug off members map) =
    find_view m w p r debug off' members map.
  Proof.
    intros m w p r debug off off' members map. unfold find_view.
    destruct (hit m off' members) as [[[mb' b']|]|k| |] eqn:H'; simpl; auto.
    assert (E : resolver_for w p r debug mb' b' (map_after m w p r debug off members map) =
                resolver_for w p r debug mb' b' map); [|now rewrite E].
    unfold map_after, resolver_for. destruct (hit m off members) as [[[mb b]|]|k| |] eqn:H; auto.
    destruct (aget range_eqb b map) as [y|] eqn:Eg; auto.
    destruct (member_resolver w p r debug mb) as [x|k] eqn:Em; auto.
    destruct (range_eqb_spec b' b) as [->|Hne].
    - rewrite aget_aset_eq by apply range_eqb_spec. rewrite Eg.
      now rewrite (hit_unique m off off' members mb mb' b H H') in Em.
    - rewrite aget_aset_neq; auto. apply range_eqb_spec.
  Qed.

  Definition load w f (v : option apk_data) : outcome apk_data :=
    match v with
    | Some d => Good d
    | None => match w_archive w f with Good a => Good (a, []) | Bad k => Bad k end
    end.
  Definition apk_view (m : mode) w p r debug off c : res (option (resolver * N)) :=
    match efile (w_fs w) p c with
    | Bad k => Err k
    | Good (_, f, v) =>
        match load w f v with
        | Bad k => Err k
        | Good (members, map) => find_view m w p r debug off members map
        end
    end.
  Lemma apk_resolver_ok : forall m w p r off debug c, Inv c ->
    let '(res, c') := apk_resolver m w p r off debug c in
    res = apk_view m w p r debug off c /\ Inv c' /\ same_meta (w_fs w) c c' /\ fc_auto_reload c' = fc_auto_reload c /\
    match efile (w_fs w) p c with
    | Good (mt, f, v) => (forall m', m' <> mt -> slot m' c' = slot m' c) /\
        slot mt c' = Some (f, match load w f v with
                              | Good (members, map) => Some (members, map_after m w p r debug off members map)
                              | Bad _ => v
                              end)
    | Bad _ => c' = c
    end.
  Proof.
    intros m w p r off debug c HI. unfold apk_resolver, apk_view.
    pose proof (fc_entry_view (w_fs w) p c HI) as V.
    destruct (fc_entry (w_fs w) p c) as [res c1]. destruct (efile (w_fs w) p c) as [[[mt f] v]|k].
    2:{ destruct V as [-> ->]. simpl. split; [auto|]. split; [auto|]. split; [intros q; auto|]. auto. }
    destruct V as (-> & I1 & Em & S1 & O1 & M1 & C1 & A1 & P1). cbn [then_].
    set (init := fun f => match w_archive w f with Good a => Good (a, []) | Bad k => Bad k end).
    pose proof (fc_fill_view (w_fs w) mt init c1 f v I1 S1) as V. destruct (fc_fill mt init c1) as [res c2].
    destruct V as (I2 & S2 & O2 & M2 & C2 & A2 & ->).
    assert (El : match v with Some x => Ok x | None => of_outcome (init f) end = of_outcome (load w f v)).
    { unfold load, init. destruct v; auto. }
    assert (Ev : match v with Some x => Some x | None => match init f with Good x => Some x | Bad _ => None end end =
                 match load w f v with Good d => Some d | Bad _ => v end).
    { unfold load, init. destruct v; auto; destruct (w_archive w f); auto. }
    match goal with |- context [then_ (?x, c2) _] => replace x with (of_outcome (load w f v)) by exact (eq_sym El) end.
    pose proof (eq_trans S2 (f_equal (fun x => Some (f, x)) Ev)) as S2'. clear S2. rename S2' into S2.
    destruct (load w f v) as [[members map]|k]; cbn [of_outcome then_].
    - rewrite apk_find_ok.
      pose proof (slot_set_view (w_fs w) mt c2 f _ (members, map_after m w p r debug off members map) I2 S2)
        as (I3 & S3 & O3 & M3 & C3 & A3).
      split; [reflexivity|]. split; [exact I3|]. split; [|split; [|split; [|exact S3]]].
      + intros q. etransitivity; [apply M3|]. etransitivity; [apply M2|apply M1].
      + etransitivity; [exact A3|]. etransitivity; [exact A2|exact A1].
      + intros m' Hm'. etransitivity; [now apply O3|]. etransitivity; [now apply O2|now apply O1].
    - split; [reflexivity|]. split; [exact I2|]. split; [|split; [|split; [|exact S2]]].
      + intros q. etransitivity; [apply M2|apply M1].
      + etransitivity; [exact A2|exact A1].
      + intros m' Hm'. etransitivity; [now apply O2|now apply O1].
  Qed.

  (** Paths unambiguous regarding the archives they refer to *)
  Definition apk_unambiguous (U : path -> path -> Prop) w c : Prop :=
    forall p r p' r' m, U p r -> U p' r' -> emeta (w_fs w) p c = Good m -> emeta (w_fs w) p' c = Good m ->
    r = r' /\ fs_open (w_fs w) p = fs_open (w_fs w) p' /\
    forall d mb, w_apk_dispatch w = Some d -> d p mb = d p' mb.
  Lemma apk_unambiguous_same : forall U w c c', same_meta (w_fs w) c c' -> apk_unambiguous U w c -> apk_unambiguous U w c'.
  Proof. intros U w c c' M H p r p' r' m. rewrite (M p), (M p'). apply H. Qed.

  Lemma find_view_path : forall m w p p' r debug off members map,
    (forall d mb, w_apk_dispatch w = Some d -> d p mb = d p' mb) ->
    find_view m w p' r debug off members map = find_view m w p r debug off members map.
  Proof.
    intros m w p p' r debug off members map H. unfold find_view, resolver_for, member_resolver.
    destruct (w_apk_dispatch w) as [d|]; auto.
    destruct (hit m off members) as [[[mb b]|]|k| |]; simpl; auto. now rewrite (H d mb eq_refl).
  Qed.
  Lemma apk_keeps : forall U m w p r off q r' off' debug c, Inv c -> apk_unambiguous U w c -> U p r -> U q r' ->
    apk_view m w q r' debug off' (snd (apk_resolver m w p r off debug c)) = apk_view m w q r' debug off' c.
  Proof.
    intros U m w p r off q r' off' debug c HI HU Hp Hq. pose proof (apk_resolver_ok m w p r off debug c HI) as V.
    destruct (apk_resolver m w p r off debug c) as [res c']. destruct V as (_ & I' & M & A & V). simpl snd.
    destruct (efile (w_fs w) p c) as [[[mt f] v]|k] eqn:Ef; [|congruence].
    destruct V as (O & S). pose proof (efile_meta _ _ _ _ _ _ Ef) as Em.
    destruct (emeta (w_fs w) q c) as [mq|kq] eqn:Eq.
    2:{ unfold apk_view. now rewrite (efile_bad _ _ _ _ kq M Eq). }
    destruct (meta_eqb_spec mq mt) as [->|Hne].
    2:{ unfold apk_view. now rewrite (efile_other _ _ _ _ mq mt M Eq Hne O). }
    destruct (HU p r q r' mt Hp Hq Em Eq) as (<- & Ho & Hd).
    assert (Eq' : efile (w_fs w) q c = Good (mt, f, v)).
    { unfold efile in *. rewrite Eq. rewrite Em in Ef. rewrite <- Ho. exact Ef. }
    unfold apk_view. rewrite Eq'. unfold efile. rewrite (M q), Eq, S.
    destruct (load w f v) as [[members map]|k] eqn:El.
    - cbn [load]. rewrite !(find_view_path m w p q) by auto. apply find_view_after.
    - now rewrite El.
  Qed.
End Apk.

(** ** One resolver per file *)
Section FileResolver.
  Context {File Parser : Type}.
  Implicit Types (c : file_cache File resolver) (w : @world File Parser).

  Definition file_view w (init : File -> path -> outcome resolver) p c : res resolver :=
    match efile (w_fs w) p c with
    | Bad k => Err k
    | Good (_, f, v) => match v with Some x => Ok x | None => of_outcome (init f p) end
    end.
  Lemma file_resolver_ok : forall w init p c, Inv c ->
    let '(r, c') := file_resolver w init p c in
    r = file_view w init p c /\ Inv c' /\ fc_auto_reload c' = fc_auto_reload c /\ same_meta (w_fs w) c c' /\
    file_view w init p c' = file_view w init p c /\ efile (w_fs w) p c' =
      match efile (w_fs w) p c with
      | Good (m, f, v) => Good (m, f, match v with Some x => Some x | None => match init f p with Good x => Some x | Bad _ => None end end)
      | Bad k => Bad k
      end.
  Proof.
    intros w init p c HI. unfold file_resolver.
    pose proof (fc_entry_view (w_fs w) p c HI) as V.
    destruct (fc_entry (w_fs w) p c) as [res c1]. unfold file_view at 1 3. destruct (efile (w_fs w) p c) as [[[mt f] v]|k] eqn:Ef.
    2:{ destruct V as [-> ->]. simpl. split; auto. split; auto. split; auto. split; [intros q; auto|]. unfold file_view. now rewrite Ef. }
    destruct V as (-> & I1 & Em & S1 & O1 & M1 & C1 & A1 & P1). cbn [then_].
    pose proof (fc_fill_view (w_fs w) mt (fun f => init f p) c1 f v I1 S1) as V.
    destruct (fc_fill mt (fun f => init f p) c1) as [res c2].
    destruct V as (I2 & S2 & O2 & M2 & C2 & A2 & ->).
    assert (M : same_meta (w_fs w) c c2) by (intros q; rewrite M2; apply M1).
    assert (E : efile (w_fs w) p c2 =
      Good (mt, f, match v with Some x => Some x | None => match init f p with Good x => Some x | Bad _ => None end end)).
    { unfold efile. now rewrite (M p), Em, S2. }
    split; auto. split; auto. split; [congruence|]. split; auto. split; auto.
    unfold file_view. rewrite E. destruct v; auto; destruct (init f p) eqn:Ei; simpl; rewrite ?Ei; auto.
  Qed.
End FileResolver.
