(** * Properties of user address normalization

    Claims C10-C15 of /verif/properties.jsonl. *)

From Verif Require Import Base Util UtilProofs PropUtil Amap Maps MapsProofs PropMaps
  Normalize NormalizeProofs Sym.
Local Open Scope N_scope.

(** ** Specification *)

(** A mapping contains an address. *)
Definition contains_addr (v : maps_entry) (a : N) : Prop := me_start v <= a < me_end v.
(** The kernel's memory maps: ascending, disjoint, and with offsets that do
    not overflow; distinct mappings of files have distinct map_files paths. *)
Definition wf_space (es : list maps_entry) : Prop :=
  disjoint es /\
  Forall (fun v => me_offset v + (me_end v - me_start v) <= two64) es /\
  (forall v w f p q, In v es -> In w es ->
     me_path v = Some (PPath f p) -> me_path w = Some (PPath f q) -> v = w).
Definition readable (v : maps_entry) : Prop := N.testbit (me_perm v) 2 = true.
Definition executable (v : maps_entry) : Prop := N.testbit (me_perm v) 0 = true.

(** Archives are told by their extension: a dot that does not start the file
    name, followed by "apk" or "zip". *)
Definition is_archive (p : list N) : Prop :=
  exists q c ext, p = q ++ [c; 46] ++ ext /\ c <> 47 /\ In ext [[97; 112; 107]; [122; 105; 112]].
(** "<apk>!/<member>" *)
Definition member_path (apk member : list N) : list N :=
  apk ++ [33; 47] ++ (if hd 0 member =? 47 then tl member else member).
Definition in_member (off : N) (mb : zmember) : Prop :=
  zm_data_offset mb <= off < zm_data_offset mb + zm_data_len mb.
(** [mb] is the first member with [off] in its data, and there is no error
    before it. *)
Definition first_member (ms : list (outcome zmember)) (off : N) (mb : zmember) : Prop :=
  exists pre post, ms = map Good pre ++ Good mb :: post /\ in_member off mb /\
    Forall (fun mb' => ~ in_member off mb') pre.
Definition no_member (ms : list (outcome zmember)) (off : N) : Prop :=
  exists l, ms = map Good l /\ Forall (fun mb => ~ in_member off mb) l.

Section Spec.
  Context {Sym : Type}.
  Variable env : nenv Sym.
  Variable o : nopts.
  (** The mappings taken into account. *)
  Variable es : list maps_entry.

  Definition chosen (f p : list N) : list N := if no_map_files o then f else p.
  Definition file_build_id (p : list N) : option (list N) :=
    if no_build_ids o then match nv_build_id env p with Good b => b | Bad _ => None end else None.
  Definition mapping_build_id (v : maps_entry) (p : list N) : option (list N) :=
    match me_build_id v with Some b => Some b | None => file_build_id p end.
  Definition member_build_id (mb : zmember) (b : option (list N)) : Prop :=
    if no_build_ids o then zm_build_id mb = Good b else b = None.

  (** [b] is the build ID of something reported under the path [p]. *)
  Inductive identity (p : list N) (b : option (list N)) : Prop :=
  | id_file : forall v f q, In v es -> me_path v = Some (PPath f q) -> ~ is_archive q ->
      p = chosen f q -> b = mapping_build_id v p -> identity p b
  | id_member : forall v f q ms mb, In v es -> me_path v = Some (PPath f q) -> is_archive q ->
      no_apk_to_elf o = true -> nv_archive env (chosen f q) = Good ms -> In (Good mb) ms ->
      p = member_path (chosen f q) (zm_path mb) -> member_build_id mb b -> identity p b.

  (** What has to be reported for address [a]: value and meta data. *)
  Inductive attributed (a : N) : N -> umeta Sym -> Prop :=
  | at_unmapped :
      (forall v, In v es -> ~ contains_addr v a) -> attributed a a (UUnknown Unmapped)
  | at_anonymous : forall v, In v es -> contains_addr v a ->
      me_path v = None -> attributed a a (UUnknown MissingComponent)
  | at_component : forall v c, In v es -> contains_addr v a ->
      me_path v = Some (PComponent c) -> c <> [91; 118; 100; 115; 111; 93] ->
      attributed a a (UUnknown Unsupported)
  | at_vdso : forall v vd va sym, In v es -> contains_addr v a ->
      me_path v = Some (PComponent [91; 118; 100; 115; 111; 93]) ->
      nv_vdso env (me_start v) (me_end v) = Good vd ->
      vd_virt_offset vd (a - me_start v + me_offset v) = Ok (Some va) ->
      vd_symbolize vd va = Ok (inl sym) ->
      attributed a (a - me_start v + me_offset v) (USym sym)
  | at_vdso_unknown : forall v vd va r, In v es -> contains_addr v a ->
      me_path v = Some (PComponent [91; 118; 100; 115; 111; 93]) ->
      nv_vdso env (me_start v) (me_end v) = Good vd ->
      vd_virt_offset vd (a - me_start v + me_offset v) = Ok (Some va) ->
      vd_symbolize vd va = Ok (inr r) ->
      attributed a va (UUnknown r)  (* sic; see C11_vdso_refuted *)
  | at_vdso_outside : forall v vd, In v es -> contains_addr v a ->
      me_path v = Some (PComponent [91; 118; 100; 115; 111; 93]) ->
      nv_vdso env (me_start v) (me_end v) = Good vd ->
      vd_virt_offset vd (a - me_start v + me_offset v) = Ok None ->
      attributed a a (UUnknown Unmapped)
  | at_elf : forall v f p b, In v es -> contains_addr v a ->
      me_path v = Some (PPath f p) -> ~ is_archive p -> identity (chosen f p) b ->
      attributed a (a - me_start v + me_offset v) (UElf (chosen f p) b)
  | at_apk : forall v f p, In v es -> contains_addr v a ->
      me_path v = Some (PPath f p) -> is_archive p -> no_apk_to_elf o = false ->
      attributed a (a - me_start v + me_offset v) (UApk (chosen f p))
  | at_member : forall v f p ms mb b, In v es -> contains_addr v a ->
      me_path v = Some (PPath f p) -> is_archive p -> no_apk_to_elf o = true ->
      nv_archive env (chosen f p) = Good ms ->
      first_member ms (a - me_start v + me_offset v) mb ->
      identity (member_path (chosen f p) (zm_path mb)) b ->
      attributed a (a - me_start v + me_offset v - zm_data_offset mb)
        (UElf (member_path (chosen f p) (zm_path mb)) b)
  | at_no_member : forall v f p ms, In v es -> contains_addr v a ->
      me_path v = Some (PPath f p) -> is_archive p -> no_apk_to_elf o = true ->
      nv_archive env (chosen f p) = Good ms ->
      no_member ms (a - me_start v + me_offset v) ->
      attributed a a (UUnknown Unmapped).

  (** Archive members lie in the 64 bit address space. *)
  Definition wf_archives : Prop :=
    forall p ms mb, nv_archive env p = Good ms -> In (Good mb) ms ->
      zm_data_offset mb + zm_data_len mb < two64.

  (** All calls into the environment succeed. *)
  Definition benign : Prop :=
    (forall p, exists l, nv_archive env p = Good (map Good l) /\
       Forall (fun mb => exists b, zm_build_id mb = Good b) l) /\
    (forall s e, exists vd, nv_vdso env s e = Good vd /\
       (forall f, exists r, vd_virt_offset vd f = Ok r) /\ (forall a, exists r, vd_symbolize vd a = Ok r)).
  (** What has to be read for the sake of address [a] can be read: the
      archive's directory up to the member with the address and that one's
      build ID, or the vDSO. *)
  Definition served (a : N) : Prop :=
    forall v, In v es -> contains_addr v a ->
    let off := a - me_start v + me_offset v in
    (forall f p, me_path v = Some (PPath f p) -> is_archive p -> no_apk_to_elf o = true ->
       exists ms, nv_archive env (chosen f p) = Good ms /\
         (no_member ms off \/ exists mb b, first_member ms off mb /\ member_build_id mb b)) /\
    (me_path v = Some (PComponent [91; 118; 100; 115; 111; 93]) ->
       exists vd r, nv_vdso env (me_start v) (me_end v) = Good vd /\ vd_virt_offset vd off = Ok r /\
         forall va, r = Some va -> exists s, vd_symbolize vd va = Ok s).
End Spec.

(** ** The handling of one address *)

Lemma ext_archive : forall p, (beq (extension p) str_apk || beq (extension p) str_zip) = true <-> is_archive p.
Proof.
  intros p. rewrite orb_true_iff, !beq_eq.
  rewrite (extension_iff p str_apk), (extension_iff p str_zip);
    try (unfold str_apk, str_zip; simpl; intuition (try discriminate; congruence)).
  unfold is_archive. split.
  - intros [(q & c & E & Hc)|(q & c & E & Hc)]; exists q, c; eexists; (split; [exact E|]; split; auto; simpl; auto).
  - intros (q & c & ext & E & Hc & [<-|[<-|[]]]); [left|right]; eauto.
Qed.
Lemma member_path_eq : forall apk mb, create_apk_elf_path apk mb = member_path apk mb.
Proof. intros apk [|b l]; auto. Qed.

Lemma translate_members_ok : forall m bids off p ms r,
  Forall (fun x => match x with Good mb => zm_data_offset mb + zm_data_len mb < two64 | Bad _ => True end) ms ->
  translate_members m bids off p ms = Ok r ->
  match r with
  | None => no_member ms off
  | Some (x, q, b) => exists mb, first_member ms off mb /\ x = off - zm_data_offset mb /\
      q = member_path p (zm_path mb) /\ (if bids then zm_build_id mb = Good b else b = None)
  end.
Proof.
  intros m bids off p. induction ms as [|[mb|k] ms IH]; intros r Hwf E; simpl in E.
  - injection E as <-. exists []. split; auto.
  - inversion Hwf as [|? ? Hmb Hwf']; subst. unfold add64 in E. rewrite uadd_small in E by auto. simpl in E.
    destruct (N.leb_spec (zm_data_offset mb) off); destruct (N.ltb_spec off (zm_data_offset mb + zm_data_len mb));
      simpl in E.
    + ib E b Eb. unfold sub64 in E. rewrite usub_small in E by auto. injection E as <-.
      exists mb. split; [|split; auto; split].
      * exists [], ms. split; auto. split; [split; auto|constructor].
      * apply member_path_eq.
      * destruct bids; [|congruence]. destruct (zm_build_id mb); simpl in Eb; congruence.
    + specialize (IH r Hwf' E). assert (Hout : ~ in_member off mb) by (unfold in_member; lia).
      destruct r as [[[x q] b]|].
      * destruct IH as (mb' & (pre & post & -> & H1 & H2) & H3). exists mb'. split; auto.
        exists (mb :: pre), post. split; auto.
      * destruct IH as (l & -> & Hl). exists (mb :: l). split; auto.
    + specialize (IH r Hwf' E). assert (Hout : ~ in_member off mb) by (unfold in_member; lia).
      destruct r as [[[x q] b]|].
      * destruct IH as (mb' & (pre & post & -> & H1 & H2) & H3). exists mb'. split; auto.
        exists (mb :: pre), post. split; auto.
      * destruct IH as (l & -> & Hl). exists (mb :: l). split; auto.
    + specialize (IH r Hwf' E). assert (Hout : ~ in_member off mb) by (unfold in_member; lia).
      destruct r as [[[x q] b]|].
      * destruct IH as (mb' & (pre & post & -> & H1 & H2) & H3). exists mb'. split; auto.
        exists (mb :: pre), post. split; auto.
      * destruct IH as (l & -> & Hl). exists (mb :: l). split; auto.
  - discriminate.
Qed.

(** Archives reported as such. *)
Definition apk_identity o es (p : list N) : Prop :=
  exists v f q, In v es /\ me_path v = Some (PPath f q) /\ is_archive q /\ no_apk_to_elf o = false /\
    p = chosen o f q.
(** Meta data comes from the mappings. *)
Definition meta_ok {Sym} (env : nenv Sym) o es (mt : umeta Sym) : Prop :=
  match mt with
  | UElf p b => identity env o es p b
  | UApk p => apk_identity o es p
  | _ => True
  end.

Lemma chosen_archive : forall o es v w f p f' p', wf_space es -> In v es -> In w es ->
  me_path v = Some (PPath f p) -> me_path w = Some (PPath f' p') -> chosen o f p = chosen o f' p' ->
  p = p'.
Proof.
  intros o es v w f p f' p' (_ & _ & Hf) Hv Hw Ev Ew Ec. unfold chosen in Ec.
  destruct (no_map_files o); auto. subst f'.
  assert (v = w) by (eapply Hf; eauto). congruence.
Qed.

Lemma step_ok : forall Sym (env : nenv Sym) o es m, wf_space es -> wf_archives env ->
  forall a s s', ns_inv s -> Forall (meta_ok env o es) (ns_meta s) ->
  step add_unknown_addr (handle_entry_addr m env o) (lookup es) a s = Ok s' ->
  exists x mt, extends s s' x mt /\ attributed env o es a x mt /\ meta_ok env o es mt.
Proof.
  intros Sym env o es m Hes Harch a s s' Hi HQ E. unfold step in E.
  destruct (lookup es a) as [v|] eqn:El.
  2:{ injection E as <-. exists a, (UUnknown Unmapped). split; [now apply add_unknown_addr_spec|].
      split; [|simpl; auto]. apply at_unmapped. unfold contains_addr. now apply lookup_none. }
  apply lookup_some in El. destruct El as [Hin Hc].
  unfold handle_entry_addr in E. unfold sub64 in E. rewrite usub_small in E by lia. cbn [bind] in E.
  assert (Hoff : a - me_start v + me_offset v < two64).
  { destruct Hes as (_ & Ho & _). rewrite Forall_forall in Ho. specialize (Ho v Hin). simpl in Ho. lia. }
  unfold add64 in E. rewrite uadd_small in E by auto. cbn [bind] in E.
  destruct (me_path v) as [[f p|c]|] eqn:Ep.
  - destruct (beq (extension p) str_apk || beq (extension p) str_zip) eqn:Eext.
    + apply ext_archive in Eext. destruct (no_apk_to_elf o) eqn:Eapk.
      * ib E ms Ems. fold (chosen o f p) in *.
        destruct (nv_archive env (chosen o f p)) as [ms'|] eqn:Ear; simpl in Ems; [|discriminate].
        injection Ems as ->. ib E r Er.
        assert (Hwf : Forall (fun x => match x with
                       | Good mb => zm_data_offset mb + zm_data_len mb < two64 | Bad _ => True end) ms).
        { apply Forall_forall. intros [mb|] Hmb; auto. eapply Harch; eauto. }
        apply translate_members_ok in Er; auto. destruct r as [[[x q] b]|].
        -- destruct Er as (mb & Hfm & -> & -> & Hb). injection E as <-.
           destruct (add_normalized_offset_spec (a - me_start v + me_offset v - zm_data_offset mb)
                       (member_path (chosen o f p) (zm_path mb))
                       (UElf (member_path (chosen o f p) (zm_path mb)) b) s Hi eq_refl)
             as (mt & Hx & Hk & Hmt).
           assert (Hid : identity env o es (member_path (chosen o f p) (zm_path mb)) b).
           { eapply id_member; eauto. destruct Hfm as (pre & post & -> & _). apply in_or_app. right. now left. }
           assert (Hok : meta_ok env o es mt).
           { destruct Hmt as [->|Hmt]; auto. rewrite Forall_forall in HQ. auto. }
           exists (a - me_start v + me_offset v - zm_data_offset mb), mt. split; auto. split; auto.
           destruct mt as [p'|p' b'|sym|r]; simpl in Hk; try discriminate; injection Hk as ->.
           ++ simpl in Hok. destruct Hok as (w & f' & q' & _ & _ & _ & Hno & _). congruence.
           ++ eapply at_member; eauto.
        -- injection E as <-. exists a, (UUnknown Unmapped). split; [now apply add_unknown_addr_spec|].
           split; [|simpl; auto]. eapply at_no_member; eauto.
      * fold (chosen o f p) in *. injection E as <-.
        destruct (add_normalized_offset_spec (a - me_start v + me_offset v) (chosen o f p)
                    (UApk (chosen o f p)) s Hi eq_refl) as (mt & Hx & Hk & Hmt).
        assert (Hok : meta_ok env o es mt).
        { destruct Hmt as [->|Hmt]; [exists v, f, p; auto|]. rewrite Forall_forall in HQ. auto. }
        exists (a - me_start v + me_offset v), mt. split; auto. split; auto.
        destruct mt as [p'|p' b'|sym|r]; simpl in Hk; try discriminate; injection Hk as ->.
        ++ eapply at_apk; eauto.
        ++ exfalso. simpl in Hok. inversion Hok as [w f' q' Hw Ew Hna Ec|? ? ? ? ? ? ? ? Ht]; [|congruence].
           apply Hna. rewrite <- (chosen_archive o es v w f p f' q'); auto.
    + assert (Hna : ~ is_archive p) by (intros Ha; apply ext_archive in Ha; congruence).
      fold (chosen o f p) in *. injection E as <-.
      match goal with |- context [add_normalized_offset ?x ?k ?c s] =>
        destruct (add_normalized_offset_spec x k c s Hi eq_refl) as (mt & Hx & Hk & Hmt) end.
      assert (Hok : meta_ok env o es mt).
      { destruct Hmt as [->|Hmt]; [|rewrite Forall_forall in HQ; auto].
        simpl. eapply id_file; eauto. }
      exists (a - me_start v + me_offset v), mt. split; auto. split; auto.
      destruct mt as [p'|p' b'|sym|r]; simpl in Hk; try discriminate; injection Hk as ->.
      * exfalso. simpl in Hok. destruct Hok as (w & f' & q' & Hw & Ew & Ha & _ & Ec).
        apply Hna. rewrite (chosen_archive o es v w f p f' q'); auto.
      * eapply at_elf; eauto.
  - destruct (beq_spec c str_vdso) as [->|Hne].
    + unfold handle_vdso_addr in E. ib E vd Evd.
      destruct (nv_vdso env (me_start v) (me_end v)) as [vd'|] eqn:En; simpl in Evd; [|discriminate].
      injection Evd as ->. ib E va Eva. destruct va as [va|].
      * ib E r Er. destruct r as [sym|r]; injection E as <-.
        -- exists (a - me_start v + me_offset v), (USym sym). split; [now apply add_sym_spec|].
           split; [|simpl; auto]. eapply at_vdso; eauto.
        -- exists va, (UUnknown r). split; [now apply add_unknown_addr_spec|].
           split; [|simpl; auto]. eapply at_vdso_unknown; eauto.
      * injection E as <-. exists a, (UUnknown Unmapped). split; [now apply add_unknown_addr_spec|].
        split; [|simpl; auto]. eapply at_vdso_outside; eauto.
    + injection E as <-. exists a, (UUnknown Unsupported). split; [now apply add_unknown_addr_spec|].
      split; [|simpl; auto]. eapply at_component; eauto.
  - injection E as <-. exists a, (UUnknown MissingComponent). split; [now apply add_unknown_addr_spec|].
    split; [|simpl; auto]. eapply at_anonymous; eauto.
Qed.

Lemma translate_members_first : forall m (bids : bool) off p ms mb b,
  Forall (fun x : outcome zmember => match x with Good mb => zm_data_offset mb + zm_data_len mb < two64 | Bad _ => True end) ms ->
  first_member ms off mb -> (if bids then zm_build_id mb = Good b else b = None) ->
  translate_members m bids off p ms = Ok (Some (off - zm_data_offset mb, member_path p (zm_path mb), b)).
Proof.
  intros m bids off p ms mb b Hwf (pre & post & -> & Hin & Hpre) Hb. induction pre as [|mb' pre IH]; cbn [map app translate_members] in *.
  - inversion Hwf as [|? ? Hmb _]; subst. unfold add64. rewrite uadd_small by auto. cbn [bind]. destruct Hin as [H1 H2].
    rewrite (proj2 (N.leb_le _ _) H1), (proj2 (N.ltb_lt _ _) H2). cbn [andb]. unfold sub64. rewrite usub_small by auto.
    destruct bids; [rewrite Hb|rewrite Hb]; cbn [of_outcome bind]; now rewrite member_path_eq.
  - inversion Hwf as [|? ? Hmb Hwf']; subst. inversion Hpre as [|? ? Hn Hpre']; subst. unfold add64. rewrite uadd_small by auto. cbn [bind].
    destruct (N.leb_spec (zm_data_offset mb') off); destruct (N.ltb_spec off (zm_data_offset mb' + zm_data_len mb')); cbn [andb]; auto.
    exfalso. apply Hn. split; auto.
Qed.
Lemma translate_members_none : forall m bids off p ms,
  Forall (fun x : outcome zmember => match x with Good mb => zm_data_offset mb + zm_data_len mb < two64 | Bad _ => True end) ms ->
  no_member ms off -> translate_members m bids off p ms = Ok None.
Proof.
  intros m bids off p ms Hwf (l & -> & Hl). induction l as [|mb l IH]; cbn [map translate_members]; auto.
  inversion Hwf as [|? ? Hmb Hwf']; subst. inversion Hl as [|? ? Hn Hl']; subst. unfold add64. rewrite uadd_small by auto. cbn [bind].
  destruct (N.leb_spec (zm_data_offset mb) off); destruct (N.ltb_spec off (zm_data_offset mb + zm_data_len mb)); cbn [andb]; auto.
  exfalso. apply Hn. split; auto.
Qed.
Lemma step_total : forall Sym (env : nenv Sym) o es m, wf_space es -> wf_archives env ->
  forall a s, served env o es a -> exists s',
  step add_unknown_addr (handle_entry_addr m env o) (lookup es) a s = Ok s'.
Proof.
  intros Sym env o es m Hes Harch a s Hb. unfold step.
  destruct (lookup es a) as [v|] eqn:El; [|eauto].
  apply lookup_some in El. destruct El as [Hin Hc]. destruct (Hb v Hin Hc) as [Hb1 Hb2].
  unfold handle_entry_addr. unfold sub64. rewrite usub_small by lia. cbn [bind].
  assert (Hoff : a - me_start v + me_offset v < two64).
  { destruct Hes as (_ & Ho & _). rewrite Forall_forall in Ho. specialize (Ho v Hin). simpl in Ho. lia. }
  unfold add64. rewrite uadd_small by auto. cbn [bind].
  destruct (me_path v) as [[f p|c]|]; [| |eauto].
  - destruct (beq (extension p) str_apk || beq (extension p) str_zip) eqn:Ea; [|eauto].
    destruct (no_apk_to_elf o); [|eauto]. apply ext_archive in Ea.
    destruct (Hb1 f p eq_refl Ea eq_refl) as (ms & Em & Hms). unfold chosen in Em. rewrite Em. simpl.
    assert (Hwf : Forall (fun x : outcome zmember => match x with Good mb => zm_data_offset mb + zm_data_len mb < two64 | Bad _ => True end) ms).
    { apply Forall_forall. intros [mb|k] Hx; auto. eapply Harch; eauto. }
    destruct Hms as [Hno|(mb & b & Hfm & Hbid)].
    + rewrite translate_members_none by auto. simpl. eauto.
    + rewrite (translate_members_first m _ _ _ _ mb b) by auto. simpl. eauto.
  - destruct (beq c str_vdso) eqn:Ec; [|eauto]. apply beq_eq in Ec. subst c. unfold handle_vdso_addr.
    destruct (Hb2 eq_refl) as (vd & r & -> & E & Hs). simpl. rewrite E. simpl. destruct r as [va|]; [|eauto].
    destruct (Hs va eq_refl) as [[sym|r'] ->]; simpl; eauto.
Qed.
Lemma benign_served : forall Sym (env : nenv Sym) o es a, benign env -> served env o es a.
Proof.
  intros Sym env o es a [Hb1 Hb2] v Hin Hc. cbv zeta. generalize (a - me_start v + me_offset v). intros off. split.
  - intros f p _ _ _. destruct (Hb1 (chosen o f p)) as (l & El & Hl). eexists. split; [exact El|].
    assert (H : Forall (fun mb => ~ in_member off mb) l \/ exists pre mb post, l = pre ++ mb :: post /\ in_member off mb /\ Forall (fun mb => ~ in_member off mb) pre).
    { clear. induction l as [|mb l IH]; [left; constructor|].
      assert (Hd : in_member off mb \/ ~ in_member off mb) by (unfold in_member; lia). destruct Hd as [Hd|Hd].
      - right. exists [], mb, l. auto.
      - destruct IH as [IH|(pre & mb' & post & -> & H1 & H2)]; [left; auto|]. right. exists (mb :: pre), mb', post. auto. }
    destruct H as [H|(pre & mb & post & -> & H1 & H2)]; [left; exists l; auto|right].
    rewrite Forall_app in Hl. destruct Hl as [_ Hl]. inversion Hl as [|? ? [b Hb] _]; subst. unfold member_build_id. destruct (no_build_ids o).
    + exists mb, b. split; auto. exists pre, (map Good post). rewrite map_app. auto.
    + exists mb, None. split; auto. exists pre, (map Good post). rewrite map_app. auto.
  - intros _. destruct (Hb2 (me_start v) (me_end v)) as (vd & E & H1 & H2). destruct (H1 off) as [r Er]. exists vd, r. split; auto.
Qed.

(** ** Sources of mappings *)

(** The mappings of interest: readable or executable ones; the query
    interface is asked for readable ones only. *)
Definition interesting (v : maps_entry) : bool := N.testbit (me_perm v) 2 || N.testbit (me_perm v) 0.
Definition interesting_q (v : maps_entry) : bool := N.testbit (me_perm v) 2.
(** The kernel's answers: the readable mapping containing the address or else
    the next one. *)
Definition answers (q : N -> res (option maps_entry)) (es : list maps_entry) : Prop :=
  forall a,
    (q a = Ok None /\ forall v, In v es -> readable v -> me_end v <= a) \/
    (exists v, q a = Ok (Some v) /\ In v es /\ readable v /\ a < me_end v /\
       forall w, In w es -> readable w -> a < me_end w -> me_start v <= me_start w).
(** [src] is a way of reading the address space [es] that shows [vis] of it. *)
Inductive source_of (es : list maps_entry) : source -> list maps_entry -> Prop :=
| so_text : source_of es (Text (map Ok (filter interesting es))) (filter interesting es)
| so_query : forall q, answers q es -> source_of es (Query q) (filter interesting_q es).

Lemma filter_relevant_eq : forall v, filter_relevant v = interesting v.
Proof.
  intros v. unfold filter_relevant, interesting. set (p := me_perm v). clearbody p.
  change (N.lor perm_R perm_X) with 5.
  destruct (N.eqb_spec (N.land p 5) 0) as [E|E]; simpl.
  - assert (Hb : forall i, N.testbit p i && N.testbit 5 i = false).
    { intros i. now rewrite <- N.land_spec, E, N.bits_0. }
    pose proof (Hb 2) as H2. pose proof (Hb 0) as H0. simpl in H2, H0.
    rewrite andb_true_r in H2, H0. now rewrite H2, H0.
  - destruct (N.testbit p 2) eqn:E2; auto. destruct (N.testbit p 0) eqn:E0; auto.
    exfalso. apply E. apply N.bits_inj. intros i. rewrite N.land_spec, N.bits_0.
    destruct (N.eq_dec i 0) as [->|]; [now rewrite E0|]. destruct (N.eq_dec i 2) as [->|]; [now rewrite E2|].
    destruct (N.eq_dec i 1) as [->|]; [apply andb_false_r|].
    rewrite (N.bits_above_log2 5); [apply andb_false_r|]. change (N.log2 5) with 2. lia.
Qed.

Lemma answers_next : forall q es, disjoint es -> answers q es ->
  forall a, q a = Ok (next_vma (filter interesting_q es) a).
Proof.
  intros q es Hd Hq a. destruct (Hq a) as [[E H]|(v & E & Hin & Hr & Ha & Hmin)]; rewrite E; do 2 f_equal.
  - symmetry. unfold next_vma.
    destruct (find (fun v => a <? me_end v) (filter interesting_q es)) as [v|] eqn:Ef; auto.
    apply find_some in Ef. destruct Ef as [Hi Hlt]. apply filter_In in Hi. destruct Hi as [Hi Hr].
    specialize (H v Hi Hr). apply N.ltb_lt in Hlt. lia.
  - symmetry. destruct Hd as [Hs Hne]. clear Hq E. induction Hs as [|e es Hs IH Hf]; [destruct Hin|].
    inversion Hne as [|? ? He Hne']; subst. simpl.
    destruct (interesting_q e) eqn:Ee.
    + unfold next_vma. simpl. destruct (N.ltb_spec a (me_end e)) as [Hlt|Hge].
      * destruct Hin as [->|Hin]; auto. exfalso. rewrite Forall_forall in Hf. specialize (Hf v Hin).
        specialize (Hmin e (or_introl eq_refl) Ee Hlt). simpl in Hf. lia.
      * destruct Hin as [->|Hin]; [lia|]. apply IH; auto. intros. apply Hmin; auto. now right.
    + destruct Hin as [->|Hin]; [unfold readable in Hr; unfold interesting_q in Ee; congruence|].
      apply IH; auto. intros. apply Hmin; auto. now right.
Qed.

Lemma filter_filter_q : forall es, filter interesting (filter interesting_q es) = filter interesting_q es.
Proof.
  induction es as [|e es IH]; simpl; auto. destruct (interesting_q e) eqn:E; auto. simpl.
  replace (interesting e) with true by (unfold interesting; unfold interesting_q in E; now rewrite E).
  now rewrite IH.
Qed.

(** Whether the pass gets its first entry. *)
Definition starts (cache : bool) (src : source) (vis : list maps_entry) (ts : list N) : Prop :=
  match src with
  | Text _ => vis <> []
  | Query _ => if cache then vis <> [] else exists v, In v vis /\ hd 0 ts < me_end v
  end.

Lemma wf_space_filter : forall P es, wf_space es -> wf_space (filter P es).
Proof.
  intros P es (H1 & H2 & H3). split; [now apply disjoint_filter|]. split.
  - rewrite Forall_forall in *. intros x Hx. apply filter_In in Hx. apply H2. tauto.
  - intros v w f p q Hv Hw. apply filter_In in Hv, Hw. apply H3; tauto.
Qed.
Lemma filter_length_le : forall A (P : A -> bool) l, (length (filter P l) <= length l)%nat.
Proof. induction l as [|x l IH]; simpl; auto. destruct (P x); simpl; lia. Qed.

Section Run.
  Context {Sym : Type}.
  Variable env : nenv Sym.
  Variable o : nopts.
  Variable m : mode.

  Definition fold_run (vis : list maps_entry) (ts : list N) : res (nstate Sym) :=
    fold_checked add_unknown_addr (handle_entry_addr m env o) (lookup vis) (hd 0 ts) ts nstate_new.
  Lemma fold_run_sorted : forall vis ts s, fold_run vis ts = Ok s -> StronglySorted N.le ts.
  Proof. intros vis ts s E. apply fold_checked_ok in E. now apply sorted_ascending in E. Qed.
  Lemma hd_ascending : forall ts, StronglySorted N.le ts -> ascending (hd 0 ts) ts.
  Proof. intros ts Hs. apply ascending_sorted; auto. intros a l' ->. simpl. lia. Qed.

  Lemma fold_run_spec : forall vis ts s, wf_space vis -> wf_archives env -> fold_run vis ts = Ok s ->
    ns_inv s /\ Forall (meta_ok env o vis) (ns_meta s) /\
    Forall2 (fun a '(x, i) => exists mt, nth_error (ns_meta s) i = Some mt /\ attributed env o vis a x mt)
      ts (ns_outputs s).
  Proof.
    intros vis ts s Hw Ha E. unfold fold_run in E.
    rewrite fold_checked_sorted in E by (eapply hd_ascending, fold_run_sorted; eauto).
    apply (fold_addrs_spec add_unknown_addr (handle_entry_addr m env o) (lookup vis)
             (attributed env o vis) (meta_ok env o vis) (step_ok Sym env o vis m Hw Ha) ts nstate_new s []); auto.
    - apply ns_inv_new.
    - constructor.
    - constructor.
  Qed.

  Definition finish (s : nstate Sym) : uoutput Sym := UOutput (ns_outputs s) (ns_meta s).

  Lemma impl_fold : forall St (entries : N -> St -> _) fuel st vis ts, wf_space vis -> wf_archives env ->
    normalize_sorted entries add_unknown_addr (handle_entry_addr m env o) fuel ts st nstate_new = fold_run vis ts ->
    normalize_impl m env o entries fuel st ts = let* s := fold_run vis ts in Ok (finish s).
  Proof.
    intros St entries fuel st vis ts Hw Ha E. unfold normalize_impl. rewrite E.
    destruct (fold_run vis ts) as [s|k| |] eqn:Ef; simpl; auto.
    destruct (fold_run_spec vis ts s Hw Ha Ef) as (_ & _ & H). apply Forall2_length in H.
    rewrite <- H, Nat.eqb_refl. reflexivity.
  Qed.

  Lemma iter_run : forall es src vis cache fuel cached ts,
    wf_space es -> wf_archives env -> source_of es src vis -> (length es < fuel)%nat ->
    cached = None \/ cached = Some vis ->
    (starts cache src vis ts ->
       fst (normalize_iter m env o cache fuel src cached ts) = let* s := fold_run vis ts in Ok (finish s)) /\
    (~ starts cache src vis ts -> fst (normalize_iter m env o cache fuel src cached ts) = Err EUnexpectedEof).
  Proof.
    intros es src vis cache fuel cached ts Hw Ha Hsrc Hf Hc.
    assert (Hwv : wf_space vis) by (destruct Hsrc; now apply wf_space_filter).
    assert (Hd : disjoint vis) by (apply Hwv).
    assert (Hlen : (length vis <= length es)%nat) by (destruct Hsrc; apply filter_length_le).
    assert (Hiter : vis <> [] -> normalize_impl m env o iter_next fuel (map Ok vis) ts =
                      let* s := fold_run vis ts in Ok (finish s)).
    { intros Hne. apply impl_fold; auto. apply normalize_sorted_iter; auto. lia. }
    assert (Hiter0 : vis = [] -> normalize_impl m env o iter_next fuel (map Ok vis) ts = Err EUnexpectedEof).
    { intros ->. reflexivity. }
    unfold normalize_iter. destruct cache.
    - assert (Hinit : exists b c, get_or_try_init cached
                match src with Text items => collect items | Query query => query_all fuel query 0 end
              = (Ok vis, c, b)).
      { destruct Hc as [->| ->]; simpl; [|eauto].
        replace (match src with Text items => collect items | Query query => query_all fuel query 0 end)
          with (@Ok (list maps_entry) vis); eauto.
        destruct Hsrc as [|q Hq].
        - symmetry. apply collect_ok.
        - symmetry. rewrite <- filter_filter_q at 1.
          assert (Hdq : disjoint (filter interesting_q es)) by auto.
          rewrite (query_all_ok q (filter interesting_q es) Hdq (answers_next q es (proj1 Hw) Hq)
                     (filter interesting_q es) [] fuel 0); auto.
          + f_equal. apply filter_ext. apply filter_relevant_eq.
          + lia.
          + destruct Hdq as [_ Hdq]. eapply Forall_impl; [|exact Hdq]. intros v Hv. simpl in Hv. lia. }
      destruct Hinit as (b & c & ->). simpl. unfold starts.
      replace (match src with Text _ => vis <> [] | Query _ => vis <> [] end) with (vis <> []) by (destruct src; auto).
      split; auto. intros Hn. apply Hiter0. destruct vis; auto. exfalso. apply Hn. discriminate.
    - destruct Hsrc as [|q Hq]; simpl.
      + split; auto. intros Hn. apply Hiter0. destruct (filter interesting es); auto. exfalso. apply Hn. discriminate.
      + assert (Hnv : forall a, next_vma (filter interesting_q es) a <> None <->
                        exists v, In v (filter interesting_q es) /\ a < me_end v).
        { intros a. unfold next_vma. split.
          - destruct (find _ _) as [v|] eqn:Ef; [|congruence]. intros _. exists v.
            apply find_some in Ef. rewrite N.ltb_lt in Ef. auto.
          - intros (v & Hv & Hlt) Hn. apply find_none with (x := v) in Hn; auto. apply N.ltb_ge in Hn. lia. }
        pose proof (normalize_sorted_query (H := nstate Sym) add_unknown_addr (handle_entry_addr m env o) q
                      (filter interesting_q es) ts fuel nstate_new Hd
                      (answers_next q es (proj1 Hw) Hq) ltac:(lia)) as E.
        split; intros Hst.
        * apply impl_fold; auto. rewrite E. apply Hnv in Hst.
          destruct (next_vma (filter interesting_q es) (hd 0 ts)); [reflexivity|congruence].
        * unfold normalize_impl. rewrite E.
          destruct (next_vma (filter interesting_q es) (hd 0 ts)) eqn:En; auto.
          exfalso. apply Hst. apply Hnv. congruence.
  Qed.

  (** The sorted inputs the pass is run on. *)
  Definition arranged (addrs ts : list N) : Prop :=
    if no_sorted_addrs o then ts = addrs else Permutation addrs ts /\ StronglySorted N.le ts.

  Lemma opts_inv : forall es src vis cache fuel cached addrs out,
    wf_space es -> wf_archives env -> source_of es src vis -> (length es < fuel)%nat ->
    cached = None \/ cached = Some vis ->
    normalize_opts m env o cache fuel src cached addrs = Ok out ->
    exists ts s, arranged addrs ts /\ StronglySorted N.le ts /\ fold_run vis ts = Ok s /\
      uo_meta out = ns_meta s /\ Permutation (ns_outputs s) (uo_outputs out) /\
      Forall2 (fun a '(x, i) => exists mt, nth_error (uo_meta out) i = Some mt /\ attributed env o vis a x mt)
        addrs (uo_outputs out).
  Proof.
    intros es src vis cache fuel cached addrs out Hw Ha Hsrc Hf Hc E.
    assert (Hwv : wf_space vis) by (destruct Hsrc; now apply wf_space_filter).
    assert (Hrun : forall ts out',
      fst (normalize_iter m env o cache fuel src cached ts) = Ok out' ->
      exists s, fold_run vis ts = Ok s /\ out' = finish s).
    { intros ts out' E'. destruct (iter_run es src vis cache fuel cached ts Hw Ha Hsrc Hf Hc) as [R1 R2].
      destruct (fold_run vis ts) as [s|k| |] eqn:Ef.
      - exists s. split; auto.
        assert (Hd : starts cache src vis ts \/ ~ starts cache src vis ts).
        { destruct (fst (normalize_iter m env o cache fuel src cached ts)) eqn:Ei; try discriminate.
          unfold starts. destruct src as [it|q]; [destruct vis; [right; auto|left; discriminate]|].
          destruct cache; [destruct vis; [right; auto|left; discriminate]|].
          destruct (next_vma vis (hd 0 ts)) as [v|] eqn:En.
          - left. exists v. unfold next_vma in En. apply find_some in En. rewrite N.ltb_lt in En. auto.
          - right. intros (v & Hv & Hlt). unfold next_vma in En. apply find_none with (x := v) in En; auto.
            apply N.ltb_ge in En. lia. }
        destruct Hd as [Hd|Hd]; [rewrite (R1 Hd) in E'|rewrite (R2 Hd) in E']; simpl in E'; congruence.
      - exfalso. assert (Hn : ~ starts cache src vis ts) by (intros H; rewrite (R1 H) in E'; discriminate).
        rewrite (R2 Hn) in E'. discriminate.
      - exfalso. assert (Hn : ~ starts cache src vis ts) by (intros H; rewrite (R1 H) in E'; discriminate).
        rewrite (R2 Hn) in E'. discriminate.
      - exfalso. assert (Hn : ~ starts cache src vis ts) by (intros H; rewrite (R1 H) in E'; discriminate).
        rewrite (R2 Hn) in E'. discriminate. }
    unfold normalize_opts in E. unfold arranged. destruct (no_sorted_addrs o) eqn:Eo.
    - destruct (Hrun addrs out E) as (s & Es & ->). exists addrs, s.
      destruct (fold_run_spec vis addrs s Hwv Ha Es) as (Hi & HQ & HP).
      repeat split; auto. eapply fold_run_sorted; eauto.
    - pose proof E as Ew. unfold with_ordered_elems in E. ib E r Er.
      destruct (sorted_elems addrs) as [Hp Hs]. destruct (Hrun _ _ Er) as (s & Es & ->).
      destruct (fold_run_spec vis _ s Hwv Ha Es) as (Hi & HQ & HP).
      destruct (with_ordered_elems_ok _ _ addrs uo_outputs (fun r out => UOutput out (uo_meta r))
                  (fun ts => fst (normalize_iter m env o cache fuel src cached ts)) _ _ Er HP) as (out2 & E2 & HP2).
      rewrite E2 in Ew. injection Ew as <-. exists (map fst (isort pair_leb (enumerate addrs))), s.
      repeat split; auto. simpl.
      ib E arr Earr. unfold with_ordered_elems in E2. rewrite Er in E2. cbn [bind] in E2.
      rewrite Earr in E2. simpl in E2. injection E2 as <-. simpl in Earr.
      clear - Earr HP. apply reorder_perm in Earr. exact Earr.
  Qed.
End Run.

(** ** C10: addresses are attributed to the mapping containing them

    For every way of reading the memory map, every address space, list of
    addresses and set of options: each address's output, in input order, is
    the one required for the mapping containing it. *)
Theorem C10_attribution : forall Sym (env : nenv Sym) o m es src vis cache fuel cached addrs out,
  wf_space es -> wf_archives env -> source_of es src vis -> (length es < fuel)%nat ->
  cached = None \/ cached = Some vis ->
  normalize_opts m env o cache fuel src cached addrs = Ok out ->
  Forall2 (fun a '(x, i) => exists mt, nth_error (uo_meta out) i = Some mt /\ attributed env o vis a x mt)
    addrs (uo_outputs out).
Proof.
  intros Sym env o m es src vis cache fuel cached addrs out Hw Ha Hs Hf Hc E.
  destruct (opts_inv env o m es src vis cache fuel cached addrs out Hw Ha Hs Hf Hc E)
    as (ts & s & _ & _ & _ & _ & _ & H). exact H.
Qed.

(** The mapping [attributed] speaks of is the only one with the address. *)
Theorem C10_unique_mapping : forall es v w a, wf_space es -> In v es -> In w es ->
  contains_addr v a -> contains_addr w a -> v = w.
Proof.
  intros es v w a (Hd & _) Hv Hw Cv Cw.
  pose proof (lookup_unique es a v Hd Hv Cv). pose proof (lookup_unique es a w Hd Hw Cw). congruence.
Qed.

(** Build IDs: provided all that is known about a path agrees, the one
    reported is that of the mapping. *)
Definition consistent {Sym} (env : nenv Sym) o es : Prop :=
  forall p b b', identity env o es p b -> identity env o es p b' -> b = b'.
Theorem C10_own_build_id : forall Sym (env : nenv Sym) o m es src vis cache fuel cached addrs out n a x i v f p,
  wf_space es -> wf_archives env -> source_of es src vis -> (length es < fuel)%nat ->
  cached = None \/ cached = Some vis -> consistent env o vis ->
  normalize_opts m env o cache fuel src cached addrs = Ok out ->
  nth_error addrs n = Some a -> nth_error (uo_outputs out) n = Some (x, i) ->
  In v vis -> contains_addr v a -> me_path v = Some (PPath f p) -> ~ is_archive p ->
  x = a - me_start v + me_offset v /\
  nth_error (uo_meta out) i = Some (UElf (chosen o f p) (mapping_build_id env o v (chosen o f p))).
Proof.
  intros Sym env o m es src vis cache fuel cached addrs out n a x i v f p
    Hw Ha Hs Hf Hc Hcons E En Ex Hv Hcv Ep Hna.
  assert (Hwv : wf_space vis) by (destruct Hs; now apply wf_space_filter).
  pose proof (C10_attribution Sym env o m es src vis cache fuel cached addrs out Hw Ha Hs Hf Hc E) as H.
  destruct (Forall2_nth_l _ _ _ _ _ H n a En) as ([x' i'] & Ex' & mt & Hi & Hat).
  rewrite Ex in Ex'. injection Ex' as <- <-.
  assert (Hu : forall w, In w vis -> contains_addr w a -> w = v)
    by (intros w Hiw Hcw; eapply (C10_unique_mapping vis); eauto).
  inversion Hat as [Hno|w Hiw Hcw Ew|w c Hiw Hcw Ew|w vd va sym Hiw Hcw Ew|w vd va r Hiw Hcw Ew|w vd Hiw Hcw Ew
    |w f' p' b Hiw Hcw Ew Hn' Hid|w f' p' Hiw Hcw Ew Hn'|w f' p' ms mb b Hiw Hcw Ew Hn'|w f' p' ms Hiw Hcw Ew Hn'];
    subst; [exfalso; eapply Hno; eauto| | | | | | | | |];
    pose proof (Hu w Hiw Hcw); subst w; rewrite Ep in Ew; try discriminate; injection Ew as <- <-; try contradiction.
  split; auto. rewrite Hi. do 2 f_equal. eapply Hcons; eauto. eapply id_file; eauto.
Qed.

(** Without that, a mapping can be reported with another one's build ID: a
    file that was replaced while mapped, whose two incarnations the kernel
    reports under the same path, with their respective build IDs.  (Observed
    with the query interface, which gives the kernel's own build IDs.) *)
Section BuildIdExample.
  Let path : list N := [47; 97].
  Let m1 : maps_entry := MapsEntry 4096 8192 4 0 (Some (PPath [1] path)) (Some [11]).
  Let m2 : maps_entry := MapsEntry 8192 12288 4 0 (Some (PPath [2] path)) (Some [22]).
  Let q (a : N) : res (option maps_entry) :=
    Ok (if a <? 8192 then Some m1 else if a <? 12288 then Some m2 else None).
  Let env : nenv unit := NEnv (fun _ => Good None) (fun _ => Bad ENotFound) (fun _ _ => Bad ENotFound).
  Theorem C10_build_id_refuted : exists (env : nenv unit) o es q out v w p b b',
    wf_space es /\ answers q es /\ In v es /\ In w es /\ contains_addr v 4096 /\ contains_addr w 8192 /\
    chosen o (fst p) (snd p) = snd p /\
    me_build_id v = Some b /\ me_build_id w = Some b' /\ b <> b' /\
    normalize_opts Checked env o false 3 (Query q) None [4096; 8192] = Ok out /\
    uo_outputs out = [(0, 0%nat); (0, 0%nat)] /\ uo_meta out = [UElf (snd p) (Some b)].
  Proof.
    exists env, (NOpts false false true true), [m1; m2], q,
      (UOutput [(0, 0%nat); (0, 0%nat)] [UElf path (Some [11])]), m1, m2, ([1], path), [11], [22].
    repeat split; try (unfold contains_addr; simpl; lia); try reflexivity; try (simpl; tauto); try discriminate.
    - repeat constructor; simpl; lia.
    - repeat constructor; simpl; lia.
    - repeat constructor; vm_compute; discriminate.
    - intros v w f p q' Hv Hw E1 E2. simpl in Hv, Hw.
      destruct Hv as [<-|[<-|[]]]; destruct Hw as [<-|[<-|[]]]; simpl in E1, E2; congruence.
    - intros a. unfold q. destruct (N.ltb_spec a 8192); [|destruct (N.ltb_spec a 12288)].
      + right. exists m1. repeat split; auto; [simpl; tauto|].
        intros w [<-|[<-|[]]] _ _; simpl; lia.
      + right. exists m2. repeat split; auto; [simpl; tauto|].
        intros w [<-|[<-|[]]] _ Hlt; simpl in *; lia.
      + left. split; auto. intros w [<-|[<-|[]]] _; simpl; lia.
  Qed.
End BuildIdExample.

(** ** C11: addresses outside of all mappings *)
Theorem C11_unmapped : forall Sym (env : nenv Sym) o m es src vis cache fuel cached addrs out n a,
  wf_space es -> wf_archives env -> source_of es src vis -> (length es < fuel)%nat ->
  cached = None \/ cached = Some vis ->
  normalize_opts m env o cache fuel src cached addrs = Ok out ->
  nth_error addrs n = Some a -> (forall v, In v vis -> ~ contains_addr v a) ->
  exists i, nth_error (uo_outputs out) n = Some (a, i) /\
    nth_error (uo_meta out) i = Some (UUnknown Unmapped).
Proof.
  intros Sym env o m es src vis cache fuel cached addrs out n a Hw Ha Hs Hf Hc E En Hno.
  pose proof (C10_attribution Sym env o m es src vis cache fuel cached addrs out Hw Ha Hs Hf Hc E) as H.
  destruct (Forall2_nth_l _ _ _ _ _ H n a En) as ([x i] & Ex & mt & Hi & Hat).
  inversion Hat; subst; try solve [exfalso; eapply Hno; eauto]; exists i; auto.
Qed.

(** Every address reported as unknown is reported unchanged, except for those
    in the vDSO that have no symbol. *)
Theorem C11_unknown_unchanged : forall Sym (env : nenv Sym) o m es src vis cache fuel cached addrs out n a x i r,
  wf_space es -> wf_archives env -> source_of es src vis -> (length es < fuel)%nat ->
  cached = None \/ cached = Some vis ->
  normalize_opts m env o cache fuel src cached addrs = Ok out ->
  nth_error addrs n = Some a -> nth_error (uo_outputs out) n = Some (x, i) ->
  nth_error (uo_meta out) i = Some (UUnknown r) ->
  (forall v, In v vis -> contains_addr v a -> me_path v <> Some (PComponent [91; 118; 100; 115; 111; 93])) ->
  x = a.
Proof.
  intros Sym env o m es src vis cache fuel cached addrs out n a x i r Hw Ha Hs Hf Hc E En Ex Hr Hno.
  pose proof (C10_attribution Sym env o m es src vis cache fuel cached addrs out Hw Ha Hs Hf Hc E) as H.
  destruct (Forall2_nth_l _ _ _ _ _ H n a En) as ([x' i'] & Ex' & mt & Hi & Hat).
  rewrite Ex in Ex'. injection Ex' as <- <-. rewrite Hr in Hi. injection Hi as <-.
  inversion Hat; subst; auto; exfalso; eapply Hno; eauto.
Qed.

(** As long as files can be read, there is a result for any list of addresses,
    provided the pass finds a first mapping. *)
Lemma arranged_run : forall Sym (env : nenv Sym) o m es src vis cache fuel cached addrs ts,
  wf_space es -> wf_archives env -> source_of es src vis -> (length es < fuel)%nat ->
  cached = None \/ cached = Some vis -> Forall (served env o vis) addrs ->
  ts = (if no_sorted_addrs o then addrs else map fst (isort pair_leb (enumerate addrs))) ->
  StronglySorted N.le ts -> starts cache src vis ts ->
  exists out, normalize_opts m env o cache fuel src cached addrs = Ok out.
Proof.
  intros Sym env o m es src vis cache fuel cached addrs ts Hw Ha Hs Hf Hc Hb Ets Hst Hgo.
  assert (Hwv : wf_space vis) by (destruct Hs; now apply wf_space_filter).
  assert (Hb' : forall a, In a ts -> served env o vis a).
  { rewrite Forall_forall in Hb. intros a Hi. apply Hb. subst ts. destruct (no_sorted_addrs o); auto.
    eapply Permutation_in; [symmetry; apply sorted_elems|exact Hi]. }
  destruct (iter_run env o m es src vis cache fuel cached ts Hw Ha Hs Hf Hc) as [R1 _].
  destruct (fold_addrs_total add_unknown_addr (handle_entry_addr m env o) (lookup vis) ts
              (fun a s Hi => step_total Sym env o vis m Hwv Ha a s (Hb' a Hi)) nstate_new) as (s & Es).
  rewrite <- (fold_checked_sorted _ _ _ _ (hd 0 ts)) in Es by (now apply hd_ascending).
  fold (fold_run env o m vis ts) in Es. specialize (R1 Hgo). rewrite Es in R1. simpl in R1.
  unfold normalize_opts. destruct (no_sorted_addrs o) eqn:Eo.
  - subst. eauto.
  - destruct (fold_run_spec env o m vis _ s Hwv Ha Es) as (_ & _ & HP).
    destruct (with_ordered_elems_ok _ _ addrs uo_outputs (fun r out => UOutput out (uo_meta r))
                (fun ts => fst (normalize_iter m env o cache fuel src cached ts))
                (fun a '(x, i) => exists mt, nth_error (ns_meta s) i = Some mt /\ attributed env o vis a x mt)
                (finish s)) as (out2 & E2 & _).
    + subst ts. exact R1.
    + subst ts. exact HP.
    + eauto.
Qed.
Theorem C11_never_aborts : forall Sym (env : nenv Sym) o m es src vis cache fuel cached addrs,
  wf_space es -> wf_archives env -> source_of es src vis -> (length es < fuel)%nat ->
  cached = None \/ cached = Some vis -> Forall (served env o vis) addrs ->
  no_sorted_addrs o = true -> StronglySorted N.le addrs ->
  starts cache src vis addrs ->
  exists out, normalize_opts m env o cache fuel src cached addrs = Ok out.
Proof.
  intros. eapply (arranged_run Sym env o m es src vis cache fuel cached addrs addrs); eauto.
  now rewrite H5.
Qed.
(** For unsorted input.  [least] is the smallest address, or 0 if there is none. *)
Definition least (addrs : list N) (l : N) : Prop :=
  (addrs = [] /\ l = 0) \/ (In l addrs /\ Forall (fun a => l <= a) addrs).
Definition starts_at (cache : bool) (src : source) (vis : list maps_entry) (l : N) : Prop :=
  match src with
  | Query _ => if cache then vis <> [] else exists v, In v vis /\ l < me_end v
  | Text _ => vis <> []
  end.
Lemma least_sorted : forall addrs l, least addrs l ->
  hd 0 (map fst (isort pair_leb (enumerate addrs))) = l.
Proof.
  intros addrs l Hl. destruct (sorted_elems addrs) as [Hp Hs].
  set (ts := map fst _) in *. clearbody ts. destruct Hl as [[-> ->]|[Hin Hf]].
  - apply Permutation_nil in Hp. now subst.
  - destruct ts as [|t ts]; [apply Permutation_sym, Permutation_nil in Hp; subst; destruct Hin|]. simpl.
    assert (Ht : In t addrs) by (eapply Permutation_in; [symmetry; exact Hp|now left]).
    rewrite Forall_forall in Hf. specialize (Hf t Ht). simpl in Hf.
    assert (Hl : In l (t :: ts)) by (eapply Permutation_in; eauto).
    destruct Hl as [->|Hl]; auto. inversion Hs as [|? ? _ Hft]; subst. rewrite Forall_forall in Hft.
    specialize (Hft l Hl). lia.
Qed.
Theorem C11_never_aborts_unsorted : forall Sym (env : nenv Sym) o m es src vis cache fuel cached addrs l,
  wf_space es -> wf_archives env -> source_of es src vis -> (length es < fuel)%nat ->
  cached = None \/ cached = Some vis -> Forall (served env o vis) addrs ->
  no_sorted_addrs o = false -> least addrs l -> starts_at cache src vis l ->
  exists out, normalize_opts m env o cache fuel src cached addrs = Ok out.
Proof.
  intros Sym env o m es src vis cache fuel cached addrs l Hw Ha Hs Hf Hc Hb Eo Hl Hst.
  eapply (arranged_run Sym env o m es src vis cache fuel cached addrs); eauto.
  - rewrite Eo. apply sorted_elems.
  - rewrite Eo. unfold starts, starts_at in *. destruct src; auto. destruct cache; auto.
    now rewrite (least_sorted addrs l Hl).
Qed.

(** A process without relevant mappings: the batch is aborted instead. *)
Theorem C11_no_mappings_refuted : forall Sym (env : nenv Sym) o m cache fuel,
  exists src, source_of [] src [] /\
    normalize_opts m env o cache fuel src None [4096] = Err EUnexpectedEof.
Proof.
  intros Sym env o m cache fuel. exists (Text []). split; [apply (so_text [])|].
  unfold normalize_opts, with_ordered_elems. destruct (no_sorted_addrs o), cache; reflexivity.
Qed.
(** With the query interface it is aborted already if all addresses lie past
    the last mapping, although a single address in front of it would help. *)
Definition ex_mapping : maps_entry := MapsEntry 4096 8192 5 0 (Some (PPath [1] [47; 97])) None.
Definition ex_query (a : N) : res (option maps_entry) := Ok (if a <? 8192 then Some ex_mapping else None).
Definition ex_env : nenv unit :=
  NEnv (fun _ => Good None) (fun _ => Good []) (fun _ _ => Good (Vdso (fun _ => Ok None) (fun _ => Ok (inr MissingSyms)))).
Definition ex_opts : nopts := NOpts false false true true.
Lemma ex_answers : answers ex_query [ex_mapping].
Proof.
  intros a. unfold ex_query. destruct (N.ltb_spec a 8192).
  - right. exists ex_mapping. repeat split; auto; [simpl; tauto|]. intros w [<-|[]] _ _. simpl. lia.
  - left. split; auto. intros w [<-|[]] _. simpl. lia.
Qed.
Lemma ex_wf : wf_space [ex_mapping].
Proof.
  split; [|split].
  - split; repeat constructor; simpl; lia.
  - repeat constructor. vm_compute. discriminate.
  - intros v w f p q [<-|[]] [<-|[]] _ _. reflexivity.
Qed.
Theorem C11_past_all_refuted : exists (env : nenv unit) o es q,
  wf_space es /\ wf_archives env /\ benign env /\ answers q es /\
  normalize_opts Checked env o false 9 (Query q) None [8192] = Err EUnexpectedEof /\
  normalize_opts Checked env o false 9 (Query q) None [8192; 4097] =
    Ok (UOutput [(8192, 1%nat); (1, 0%nat)] [UElf [47; 97] None; UUnknown Unmapped]).
Proof.
  exists ex_env, ex_opts, [ex_mapping], ex_query. split; [apply ex_wf|].
  split; [intros p ms mb E Hin; injection E as <-; destruct Hin|].
  split; [|split; [apply ex_answers|split; vm_compute; reflexivity]].
  split.
  - intros p. exists []. split; auto.
  - intros s e. eexists. split; [reflexivity|]. split; intros; simpl; eauto.
Qed.
(** An address of the vDSO without a symbol is reported as an address in the
    vDSO's own ELF file, not as the one given. *)
Theorem C11_vdso_refuted : exists (env : nenv unit) o es src,
  wf_space es /\ wf_archives env /\ benign env /\ source_of es src es /\
  normalize_opts Checked env o false 9 src None [4100] =
    Ok (UOutput [(4, 0%nat)] [UUnknown MissingSyms]).
Proof.
  exists (NEnv (fun _ => Good None) (fun _ => Good [])
           (fun _ _ => Good (Vdso (fun off => Ok (Some off)) (fun _ => Ok (inr MissingSyms))))), ex_opts,
    [MapsEntry 4096 8192 5 0 (Some (PComponent [91; 118; 100; 115; 111; 93])) None].
  exists (Text [Ok (MapsEntry 4096 8192 5 0 (Some (PComponent [91; 118; 100; 115; 111; 93])) None)]).
  split; [|split; [|split; [|split; [|vm_compute; reflexivity]]]].
  - split; [|split].
    + split; repeat constructor; simpl; lia.
    + repeat constructor. vm_compute. discriminate.
    + intros v w f p q [<-|[]] [<-|[]] _ _. reflexivity.
  - intros p ms mb E Hin; injection E as <-; destruct Hin.
  - split.
    + intros p. exists []. split; auto.
    + intros s e. eexists. split; [reflexivity|]. split; intros; simpl; eauto.
  - match goal with |- source_of ?l _ _ => exact (so_text l) end.
Qed.

(** ** C12: meta data *)

(** What a meta entry is about: a path, or a reason. *)
Definition subject {Sym} (mt : umeta Sym) : option (list N + reason) :=
  match mt with
  | UApk p | UElf p _ => Some (inl p)
  | UUnknown r => Some (inr r)
  | USym _ => None
  end.
Theorem C12_meta : forall Sym (env : nenv Sym) o m es src vis cache fuel cached addrs out,
  wf_space es -> wf_archives env -> source_of es src vis -> (length es < fuel)%nat ->
  cached = None \/ cached = Some vis ->
  normalize_opts m env o cache fuel src cached addrs = Ok out ->
  (* one output per address *)
  length (uo_outputs out) = length addrs /\
  (* indices are in range *)
  (forall n x i, nth_error (uo_outputs out) n = Some (x, i) -> (i < length (uo_meta out))%nat) /\
  (* no two entries for the same path or reason *)
  (forall i j mt mt', nth_error (uo_meta out) i = Some mt -> nth_error (uo_meta out) j = Some mt' ->
     subject mt = subject mt' -> subject mt <> None -> i = j) /\
  (* no unused entries *)
  (forall i, (i < length (uo_meta out))%nat -> exists n x, nth_error (uo_outputs out) n = Some (x, i)).
Proof.
  intros Sym env o m es src vis cache fuel cached addrs out Hw Ha Hs Hf Hc E.
  assert (Hwv : wf_space vis) by (destruct Hs; now apply wf_space_filter).
  destruct (opts_inv env o m es src vis cache fuel cached addrs out Hw Ha Hs Hf Hc E)
    as (ts & s & _ & _ & Es & Em & Hp & HF).
  destruct (fold_run_spec env o m vis ts s Hwv Ha Es) as ([I1 I2 I3 I4] & _ & _).
  split; [symmetry; eapply Forall2_length; eauto|]. rewrite Em. split; [|split].
  - intros n x i En. apply nth_error_In in En. apply (Permutation_in _ (Permutation_sym Hp)) in En.
    rewrite Forall_forall in I3. apply (I3 _ En).
  - intros i j mt mt' Hi Hj Esub Hne.
    destruct mt as [p|p b|sym|r]; destruct mt' as [p'|p' b'|sym'|r']; simpl in *; try discriminate; try congruence.
    + injection Esub as <-. assert (aget beq p (ns_meta_lookup s) = Some i) by (apply I1; eauto).
      assert (aget beq p (ns_meta_lookup s) = Some j) by (apply I1; eauto). congruence.
    + injection Esub as <-. assert (aget beq p (ns_meta_lookup s) = Some i) by (apply I1; eauto).
      assert (aget beq p (ns_meta_lookup s) = Some j) by (apply I1; eauto). congruence.
    + injection Esub as <-. assert (aget beq p (ns_meta_lookup s) = Some i) by (apply I1; eauto).
      assert (aget beq p (ns_meta_lookup s) = Some j) by (apply I1; eauto). congruence.
    + injection Esub as <-. assert (aget beq p (ns_meta_lookup s) = Some i) by (apply I1; eauto).
      assert (aget beq p (ns_meta_lookup s) = Some j) by (apply I1; eauto). congruence.
    + injection Esub as <-. apply I2 in Hi, Hj. congruence.
  - intros i Hi. apply I4 in Hi. apply (Permutation_in _ (Permutation_map snd Hp)) in Hi.
    apply in_map_iff in Hi. destruct Hi as ([x i'] & Ei & Hi). simpl in Ei. subst i'.
    apply In_nth_error in Hi. destruct Hi as [n Hn]. eauto.
Qed.

(** Addresses in mappings of the same file hence have the same meta data. *)
Theorem C12_shared : forall Sym (env : nenv Sym) o m es src vis cache fuel cached addrs out
    n n' a a' x x' i i' v v' f f' p p',
  wf_space es -> wf_archives env -> source_of es src vis -> (length es < fuel)%nat ->
  cached = None \/ cached = Some vis ->
  normalize_opts m env o cache fuel src cached addrs = Ok out ->
  nth_error addrs n = Some a -> nth_error (uo_outputs out) n = Some (x, i) ->
  nth_error addrs n' = Some a' -> nth_error (uo_outputs out) n' = Some (x', i') ->
  In v vis -> contains_addr v a -> me_path v = Some (PPath f p) ->
  In v' vis -> contains_addr v' a' -> me_path v' = Some (PPath f' p') ->
  ~ is_archive p -> ~ is_archive p' ->
  i = i' <-> chosen o f p = chosen o f' p'.
Proof.
  intros Sym env o m es src vis cache fuel cached addrs out n n' a a' x x' i i' v v' f f' p p'
    Hw Ha Hs Hf Hc E En Ex En' Ex' Hv Hcv Ep Hv' Hcv' Ep' Hna Hna'.
  assert (Hwv : wf_space vis) by (destruct Hs; now apply wf_space_filter).
  pose proof (C10_attribution Sym env o m es src vis cache fuel cached addrs out Hw Ha Hs Hf Hc E) as H.
  destruct (C12_meta Sym env o m es src vis cache fuel cached addrs out Hw Ha Hs Hf Hc E) as (_ & _ & Hnd & _).
  assert (Hone : forall n a x i v f p, nth_error addrs n = Some a -> nth_error (uo_outputs out) n = Some (x, i) ->
    In v vis -> contains_addr v a -> me_path v = Some (PPath f p) -> ~ is_archive p ->
    exists b, nth_error (uo_meta out) i = Some (UElf (chosen o f p) b)).
  { clear - H Hwv. intros n a x i v f p En Ex Hv Hcv Ep Hna.
    destruct (Forall2_nth_l _ _ _ _ _ H n a En) as ([x' i'] & Ex' & mt & Hi & Hat).
    rewrite Ex in Ex'. injection Ex' as <- <-.
    assert (Hu : forall w, In w vis -> contains_addr w a -> w = v)
      by (intros w Hiw Hcw; eapply (C10_unique_mapping vis); eauto).
    inversion Hat as [Hno|w Hiw Hcw Ew|w c Hiw Hcw Ew|w vd va sym Hiw Hcw Ew|w vd va r Hiw Hcw Ew|w vd Hiw Hcw Ew
      |w f' p' b Hiw Hcw Ew Hn' Hid|w f' p' Hiw Hcw Ew Hn'|w f' p' ms mb b Hiw Hcw Ew Hn'|w f' p' ms Hiw Hcw Ew Hn'];
      subst; [exfalso; eapply Hno; eauto| | | | | | | | |];
      pose proof (Hu w Hiw Hcw); subst w; rewrite Ep in Ew; try discriminate; injection Ew as <- <-; try contradiction.
    eauto. }
  destruct (Hone n a x i v f p) as [b Hb]; auto. destruct (Hone n' a' x' i' v' f' p') as [b' Hb']; auto.
  split.
  - intros <-. congruence.
  - intros Ec. apply (Hnd i i' _ _ Hb Hb'); simpl; [congruence|discriminate].
Qed.

(** ** C13: the promise of sorted input *)
Definition with_sorted (o : nopts) (b : bool) : nopts :=
  NOpts b (no_map_files o) (no_apk_to_elf o) (no_build_ids o).

Lemma isort_id : forall A (leb : A -> A -> bool) l, StronglySorted (fun a b => leb a b = true) l -> isort leb l = l.
Proof.
  intros A leb l H. induction H as [|a l H IH Hf]; simpl; auto. rewrite IH.
  destruct l as [|b l]; auto. simpl. inversion Hf as [|? ? Hab]; subst. now rewrite Hab.
Qed.
Lemma enumerate_sorted : forall l k, StronglySorted N.le l ->
  StronglySorted (fun a b => pair_leb a b = true) (combine l (seq k (length l))).
Proof.
  intros l k H. revert k. induction H as [|a l H IH Hf]; intros k; simpl; constructor; auto.
  apply Forall_forall. intros [b j] Hb. pose proof (in_combine_l _ _ _ _ Hb) as Hl.
  apply in_combine_r in Hb. apply in_seq in Hb. rewrite Forall_forall in Hf. specialize (Hf b Hl).
  unfold pair_leb. simpl. destruct (N.compare_spec a b); auto; [apply Nat.leb_le; lia|lia].
Qed.
Lemma reorder_for_id : forall A n fuel i (arr : list A) N, (i + n <= N)%nat ->
  reorder_for fuel n i arr (seq 0 N) = Ok arr.
Proof.
  intros A. induction n as [|n IH]; intros fuel i arr N H; simpl; auto.
  assert (E : nth_error (seq 0 N) i = Some i).
  { rewrite (nth_error_nth' _ 0%nat) by (rewrite seq_length; lia). rewrite seq_nth by lia. reflexivity. }
  destruct fuel; simpl; rewrite E, Nat.eqb_refl; simpl; apply IH; lia.
Qed.
Lemma with_ordered_sorted : forall U R l (extract : R -> list U) put (handle : list N -> res R),
  StronglySorted N.le l ->
  (forall r, handle l = Ok r -> length (extract r) = length l) -> (forall r, put r (extract r) = r) ->
  with_ordered_elems l extract put handle = handle l.
Proof.
  intros U R l extract put handle Hs Hlen Hput. unfold with_ordered_elems, enumerate.
  rewrite isort_id by (now apply enumerate_sorted).
  assert (E1 : map fst (combine l (seq 0 (length l))) = l).
  { clear. generalize 0%nat. induction l as [|a l IH]; intros k; simpl; auto. now rewrite IH. }
  assert (E2 : map snd (combine l (seq 0 (length l))) = seq 0 (length l)).
  { clear. generalize 0%nat. induction l as [|a l IH]; intros k; simpl; auto. now rewrite IH. }
  rewrite E1, E2. destruct (handle l) as [r|k| |] eqn:E; simpl; auto.
  unfold reorder. rewrite seq_length, (Hlen r eq_refl), reorder_for_id by lia. simpl. now rewrite Hput.
Qed.

Theorem C13_sorted_same : forall Sym (env : nenv Sym) o m es src vis cache fuel cached addrs,
  wf_space es -> wf_archives env -> source_of es src vis -> (length es < fuel)%nat ->
  cached = None \/ cached = Some vis -> StronglySorted N.le addrs ->
  normalize_opts m env (with_sorted o true) cache fuel src cached addrs =
  normalize_opts m env (with_sorted o false) cache fuel src cached addrs.
Proof.
  intros Sym env o m es src vis cache fuel cached addrs Hw Ha Hs Hf Hc Hst.
  unfold normalize_opts. cbn [no_sorted_addrs with_sorted].
  change (fun ts => fst (normalize_iter m env (with_sorted o false) cache fuel src cached ts))
    with (fun ts => fst (normalize_iter m env (with_sorted o true) cache fuel src cached ts)).
  rewrite with_ordered_sorted; auto.
  - intros r E.
    assert (E' : normalize_opts m env (with_sorted o true) cache fuel src cached addrs = Ok r) by exact E.
    now destruct (C12_meta Sym env _ m es src vis cache fuel cached addrs r Hw Ha Hs Hf Hc E').
  - intros [a b]. reflexivity.
Qed.
Theorem C13_unsorted_no_result : forall Sym (env : nenv Sym) o m es src vis cache fuel cached addrs out,
  wf_space es -> wf_archives env -> source_of es src vis -> (length es < fuel)%nat ->
  cached = None \/ cached = Some vis ->
  no_sorted_addrs o = true -> normalize_opts m env o cache fuel src cached addrs = Ok out ->
  StronglySorted N.le addrs.
Proof.
  intros Sym env o m es src vis cache fuel cached addrs out Hw Ha Hs Hf Hc Eo E.
  destruct (opts_inv env o m es src vis cache fuel cached addrs out Hw Ha Hs Hf Hc E)
    as (ts & s & Har & Hst & _). unfold arranged in Har. rewrite Eo in Har. now subst.
Qed.
Theorem C13_unsorted_error : forall Sym (env : nenv Sym) o m es src vis cache fuel cached addrs,
  wf_space es -> wf_archives env -> source_of es src vis -> (length es < fuel)%nat ->
  cached = None \/ cached = Some vis -> benign env ->
  no_sorted_addrs o = true -> ~ StronglySorted N.le addrs -> starts cache src vis addrs ->
  normalize_opts m env o cache fuel src cached addrs = Err EInvalidInput.
Proof.
  intros Sym env o m es src vis cache fuel cached addrs Hw Ha Hs Hf Hc Hb Eo Hn Hst.
  assert (Hwv : wf_space vis) by (destruct Hs; now apply wf_space_filter).
  unfold normalize_opts. rewrite Eo.
  destruct (iter_run env o m es src vis cache fuel cached addrs Hw Ha Hs Hf Hc) as [R1 _].
  rewrite (R1 Hst). unfold fold_run. rewrite fold_checked_unsorted; auto.
  - intros a h. apply step_total; auto. now apply benign_served.
  - intros Has. apply Hn. now apply sorted_ascending in Has.
Qed.
(** Otherwise the error may be that of a file or of the missing mappings. *)
Example C13_example :
  normalize_opts Checked ex_env (with_sorted ex_opts true) false 9 (Query ex_query) None [4097; 4096]
  = Err EInvalidInput /\
  normalize_opts Checked ex_env (with_sorted ex_opts true) true 9 (Query ex_query) None [4096; 4097; 9000]
  = Ok (UOutput [(0, 0%nat); (1, 0%nat); (9000, 1%nat)] [UElf [47; 97] None; UUnknown Unmapped]).
Proof. split; vm_compute; reflexivity. Qed.

(** ** C14: all ways of reading the memory map agree *)

(** The same mapping as seen in the two interfaces, for the purposes of
    normalization: only the kernel's build ID may differ, as long as it is the
    one in the file. *)
Definition same_mapping {Sym} (env : nenv Sym) (o : nopts) (v w : maps_entry) : Prop :=
  me_start v = me_start w /\ me_end v = me_end w /\ me_perm v = me_perm w /\
  me_offset v = me_offset w /\ me_path v = me_path w /\
  (forall f p, me_path v = Some (PPath f p) -> ~ is_archive p ->
     mapping_build_id env o v (chosen o f p) = mapping_build_id env o w (chosen o f p)).
(** The ways of reading: text or query, with or without caching, with or
    without a cache that is filled already. *)
Inductive reading (es_t es_q : list maps_entry) : bool -> source -> option (list maps_entry) -> Prop :=
| rd_text : forall cache cached, cached = None \/ cached = Some (filter interesting es_t) ->
    reading es_t es_q cache (Text (map Ok (filter interesting es_t))) cached
| rd_query : forall cache q cached, answers q es_q ->
    cached = None \/ cached = Some (filter interesting_q es_q) ->
    reading es_t es_q cache (Query q) cached.

Lemma lookup_same : forall (R : maps_entry -> maps_entry -> Prop) es es' a,
  (forall v w, R v w -> me_start v = me_start w /\ me_end v = me_end w) -> Forall2 R es es' ->
  match lookup es a, lookup es' a with
  | Some v, Some w => R v w
  | None, None => True
  | _, _ => False
  end.
Proof.
  intros R es es' a HR H. unfold lookup. induction H as [|v w es es' Hvw H IH]; simpl; auto.
  destruct (HR v w Hvw) as [E1 E2].
  assert (Ec : coversb a v = coversb a w) by (unfold coversb; now rewrite E1, E2).
  rewrite Ec. destruct (coversb a w); auto.
Qed.
Lemma filter_same : forall A (R : A -> A -> Prop) (P Q : A -> bool) l l',
  Forall2 R l l' -> (forall a b, In a l -> R a b -> P a = Q b) -> Forall2 R (filter P l) (filter Q l').
Proof.
  intros A R P Q l l' H HPQ. induction H as [|a b l l' Hab H IH]; simpl; auto.
  rewrite <- (HPQ a b) by (simpl; auto). destruct (P a); [constructor|]; auto; apply IH; intros; apply HPQ; simpl; auto.
Qed.
Lemma handle_same : forall Sym (env : nenv Sym) o m v w a s, same_mapping env o v w ->
  handle_entry_addr m env o a v s = handle_entry_addr m env o a w s.
Proof.
  intros Sym env o m v w a s (E1 & E2 & _ & E4 & E5 & E6). unfold handle_entry_addr.
  rewrite <- E1, <- E2, <- E4, <- E5. destruct (sub64 m a (me_start v)) as [d|k| |]; simpl; auto.
  destruct (add64 m d (me_offset v)) as [off|k| |]; simpl; auto.
  destruct (me_path v) as [[f p|c]|] eqn:Ep; auto.
  destruct (beq (extension p) str_apk || beq (extension p) str_zip) eqn:Ee; auto.
  assert (Hna : ~ is_archive p) by (intros Ha; apply ext_archive in Ha; congruence).
  specialize (E6 f p eq_refl Hna). unfold mapping_build_id, file_build_id, chosen in E6.
  unfold read_build_id_opt. now rewrite E6.
Qed.
Lemma fold_same : forall Sym (env : nenv Sym) o m vis vis' ts prev s,
  Forall2 (same_mapping env o) vis vis' ->
  fold_checked add_unknown_addr (handle_entry_addr m env o) (lookup vis) prev ts s =
  fold_checked add_unknown_addr (handle_entry_addr m env o) (lookup vis') prev ts s.
Proof.
  intros Sym env o m vis vis' ts. induction ts as [|a ts IH]; intros prev s H; simpl; auto.
  destruct (a <? prev); auto.
  assert (E : step add_unknown_addr (handle_entry_addr m env o) (lookup vis) a s =
              step add_unknown_addr (handle_entry_addr m env o) (lookup vis') a s).
  { unfold step. pose proof (lookup_same (same_mapping env o) vis vis' a) as L.
    destruct (lookup vis a) as [v|]; destruct (lookup vis' a) as [w|].
    - apply handle_same. apply L; auto. now intros x y (H1 & H2 & _).
    - destruct L; auto. now intros x y (H1 & H2 & _).
    - destruct L; auto. now intros x y (H1 & H2 & _).
    - auto. }
  rewrite E. destruct (step _ _ (lookup vis') a s); simpl; auto.
Qed.

(** What is missing from full agreement is stated as hypotheses: mappings that
    are executable are also readable, the kernel knows the build IDs that are in
    the files, and some mapping ends above the smallest address. *)
Theorem C14_sources_agree_partial :
  forall Sym (env : nenv Sym) o m es_t es_q addrs l fuel c1 s1 k1 c2 s2 k2,
  wf_space es_t -> wf_space es_q -> wf_archives env ->
  Forall2 (same_mapping env o) es_t es_q ->
  (forall v, In v es_t -> executable v -> readable v) ->
  (no_sorted_addrs o = false /\ least addrs l \/ no_sorted_addrs o = true /\ hd 0 addrs = l) ->
  (exists v, In v es_t /\ readable v /\ l < me_end v) ->
  (length es_t < fuel)%nat ->
  reading es_t es_q c1 s1 k1 -> reading es_t es_q c2 s2 k2 ->
  normalize_opts m env o c1 fuel s1 k1 addrs = normalize_opts m env o c2 fuel s2 k2 addrs.
Proof.
  intros Sym env o m es_t es_q addrs l fuel c1 s1 k1 c2 s2 k2 Hwt Hwq Ha Hsame Hx Hl Hv Hf Hr1 Hr2.
  assert (Hvis : Forall2 (same_mapping env o) (filter interesting es_t) (filter interesting_q es_q)).
  { apply filter_same; auto. intros v w Hin (_ & _ & E & _). unfold interesting, interesting_q. rewrite <- E.
    destruct (N.testbit (me_perm v) 2) eqn:E2; auto. destruct (N.testbit (me_perm v) 0) eqn:E0; auto.
    specialize (Hx v Hin E0). unfold readable in Hx. congruence. }
  assert (Hgo : forall c s k, reading es_t es_q c s k -> forall ts, hd 0 ts = l ->
    fst (normalize_iter m env o c fuel s k ts) =
    let* st := fold_run env o m (filter interesting es_t) ts in Ok (finish st)).
  { intros c s k Hr ts Hts. destruct Hv as (v & Hin & Hrd & Hlt).
    assert (Hin' : In v (filter interesting es_t)).
    { apply filter_In. split; auto. unfold interesting. unfold readable in Hrd. now rewrite Hrd. }
    destruct Hr as [cache cached Hc|cache q cached Hq Hc].
    - apply (iter_run env o m es_t _ (filter interesting es_t) cache fuel cached ts Hwt Ha (so_text es_t) Hf Hc).
      simpl. intros E. rewrite E in Hin'. destruct Hin'.
    - assert (Hf' : (length es_q < fuel)%nat) by (rewrite <- (Forall2_length _ _ _ _ _ Hsame); auto).
      destruct (iter_run env o m es_q _ (filter interesting_q es_q) cache fuel cached ts Hwq Ha
                  (so_query es_q q Hq) Hf' Hc) as [R _].
      rewrite R.
      + unfold fold_run. now rewrite (fold_same Sym env o m _ _ ts (hd 0 ts) nstate_new Hvis).
      + simpl. apply In_nth_error in Hin'. destruct Hin' as [n Hn].
        destruct (Forall2_nth_l _ _ _ _ _ Hvis n v Hn) as (w & Hnw & (_ & E2 & _)).
        apply nth_error_In in Hnw.
        destruct cache; [intros E; rewrite E in Hnw; destruct Hnw|]. exists w. split; auto. rewrite <- E2. congruence. }
  unfold normalize_opts. destruct Hl as [[-> Hl]|[-> Hl]].
  - unfold with_ordered_elems. pose proof (least_sorted addrs l Hl) as E.
    now rewrite (Hgo c1 s1 k1 Hr1 _ E), (Hgo c2 s2 k2 Hr2 _ E).
  - now rewrite (Hgo c1 s1 k1 Hr1 _ Hl), (Hgo c2 s2 k2 Hr2 _ Hl).
Qed.

(** The hypotheses are needed: past all mappings, *)
Theorem C14_past_all_refuted : exists (env : nenv unit) o es q addrs,
  wf_space es /\ wf_archives env /\ benign env /\ answers q es /\
  (forall v, In v es -> executable v -> readable v) /\ Forall2 (same_mapping env o) es es /\
  normalize_opts Checked env o false 9 (Query q) None addrs = Err EUnexpectedEof /\
  normalize_opts Checked env o true 9 (Query q) None addrs =
    Ok (UOutput [(8192, 0%nat)] [UUnknown Unmapped]) /\
  normalize_opts Checked env o false 9 (Text (map Ok (filter interesting es))) None addrs =
    Ok (UOutput [(8192, 0%nat)] [UUnknown Unmapped]).
Proof.
  exists ex_env, ex_opts, [ex_mapping], ex_query, [8192]. split; [apply ex_wf|].
  split; [intros p ms mb E Hin; injection E as <-; destruct Hin|].
  split; [|split; [apply ex_answers|split]].
  - split.
    + intros p. exists []. split; auto.
    + intros s e. eexists. split; [reflexivity|]. split; intros; simpl; eauto.
  - intros v [<-|[]] _. reflexivity.
  - split; [|repeat split; vm_compute; reflexivity].
    constructor; [|constructor]. repeat split; auto.
Qed.
(** and in mappings that are executable only (hardened binaries on aarch64). *)
Theorem C14_execute_only_refuted : exists (env : nenv unit) o es q addrs,
  wf_space es /\ wf_archives env /\ benign env /\ answers q es /\ Forall2 (same_mapping env o) es es /\
  normalize_opts Checked env o false 9 (Query q) None addrs =
    Ok (UOutput [(12288, 0%nat)] [UUnknown Unmapped]) /\
  normalize_opts Checked env o false 9 (Text (map Ok (filter interesting es))) None addrs =
    Ok (UOutput [(0, 0%nat)] [UElf [47; 98] None]).
Proof.
  set (xo := MapsEntry 12288 16384 1 0 (Some (PPath [3] [47; 98])) None).
  set (last := MapsEntry 16384 20480 4 0 None None).
  exists ex_env, ex_opts, [ex_mapping; xo; last],
    (fun a => Ok (if a <? 8192 then Some ex_mapping else if a <? 20480 then Some last else None)), [12288].
  split; [|split; [|split; [|split; [|split]]]].
  - split; [|split].
    + split; repeat constructor; simpl; lia.
    + repeat constructor; vm_compute; discriminate.
    + intros v w f p q Hv Hw E1 E2. simpl in Hv, Hw.
      destruct Hv as [<-|[<-|[<-|[]]]]; destruct Hw as [<-|[<-|[<-|[]]]]; simpl in E1, E2; congruence.
  - intros p ms mb E Hin; injection E as <-; destruct Hin.
  - split.
    + intros p. exists []. split; auto.
    + intros s e. eexists. split; [reflexivity|]. split; intros; simpl; eauto.
  - intros a. destruct (N.ltb_spec a 8192); [|destruct (N.ltb_spec a 20480)].
    + right. exists ex_mapping. repeat split; auto; [simpl; tauto|].
      intros w [<-|[<-|[<-|[]]]] _ _; simpl; lia.
    + right. exists last. split; auto. split; [simpl; tauto|]. repeat split; auto.
      intros w [<-|[<-|[<-|[]]]] Hr Hlt; simpl in *; try lia. discriminate Hr.
    + left. split; auto. intros w [<-|[<-|[<-|[]]]] _; simpl; lia.
  - repeat (constructor; [repeat split; auto|]). constructor.
  - split; vm_compute; reflexivity.
Qed.

(** *** From the kernel's data structures *)

Lemma text_of_inj : forall base k v v', 0 < base <= 16 -> v < base ^ N.of_nat k -> v' < base ^ N.of_nat k ->
  text_of base k v = text_of base k v' -> v = v'.
Proof.
  intros base k. induction k as [|k IH]; intros v v' Hb Hv Hv' E.
  - simpl in *. lia.
  - simpl text_of in E. apply app_inj_tail in E. destruct E as [E1 E2].
    rewrite Nat2N.inj_succ, N.pow_succ_r' in Hv, Hv'.
    apply IH in E1; auto; try (apply N.div_lt_upper_bound; lia).
    assert (Em : v mod base = v' mod base).
    { pose proof (N.mod_lt v base ltac:(lia)). pose proof (N.mod_lt v' base ltac:(lia)).
      assert (N.to_nat (v mod base) = N.to_nat (v' mod base)); [|lia].
      refine (proj1 (NoDup_nth digit_table 0) _ _ _ _ _ E2).
      - unfold digit_table. repeat (constructor; [simpl; intuition lia|]). constructor.
      - simpl. lia.
      - simpl. lia. }
    rewrite (N.div_mod v base), (N.div_mod v' base) by lia. congruence.
Qed.
Lemma text_of_length : forall base k v, length (text_of base k v) = k.
Proof. intros base k. induction k as [|k IH]; intros v; simpl; auto. rewrite app_length, IH. simpl. lia. Qed.
Lemma shortest_text_inj : forall base t v v', 0 < base <= 16 ->
  shortest_text base t v -> shortest_text base t v' -> v = v'.
Proof.
  intros base t v v' Hb (k & -> & _ & Hv & _) (k' & E & _ & Hv' & _).
  assert (k = k') by (rewrite <- (text_of_length base k v), E; apply text_of_length). subst k'.
  eapply text_of_inj; eauto.
Qed.
Lemma text_of_not : forall base k v c, 0 < base <= 16 -> ~ In c digit_table -> ~ In c (text_of base k v).
Proof.
  intros base k. induction k as [|k IH]; intros v c Hb Hc; [simpl; auto|]. cbn [text_of].
  rewrite in_app_iff. intros [H|[H|[]]].
  - eapply IH; eauto.
  - apply Hc. rewrite <- H. apply nth_In. pose proof (N.mod_lt v base ltac:(lia)). simpl. lia.
Qed.
Lemma app_split_inj : forall (c : N) a b a' b', ~ In c a -> ~ In c a' -> a ++ c :: b = a' ++ c :: b' ->
  a = a' /\ b = b'.
Proof.
  intros c. induction a as [|x a IH]; intros b a' b' Ha Ha' E; destruct a' as [|y a']; simpl in *.
  - injection E. auto.
  - injection E as -> _. tauto.
  - injection E as -> _. tauto.
  - injection E as -> E. destruct (IH b a' b') as [-> ->]; auto.
Qed.
Lemma map_files_inj : forall pid s e s' e' f, is_map_file pid s e f -> is_map_file pid s' e' f -> s = s'.
Proof.
  intros pid s e s' e' f (tp & ts & te & Hp & Hs & He & ->) (tp' & ts' & te' & Hp' & Hs' & He' & E).
  apply app_inv_head in E. unfold str_map_files in E. simpl in E.
  assert (Hno : forall base t v c, 0 < base <= 16 -> ~ In c digit_table -> shortest_text base t v -> ~ In c t).
  { intros base t v c Hb Hc (k & -> & _). now apply text_of_not. }
  assert (H47 : ~ In 47 digit_table) by (unfold digit_table; simpl; intuition lia).
  assert (H45 : ~ In 45 digit_table) by (unfold digit_table; simpl; intuition lia).
  apply app_split_inj in E; [|eapply (Hno 10); eauto; lia|eapply (Hno 10); eauto; lia].
  destruct E as [_ E]. injection E as E.
  apply app_split_inj in E; [|eapply (Hno 16); eauto; lia|eapply (Hno 16); eauto; lia].
  destruct E as [<- _]. eapply (shortest_text_inj 16); eauto. lia.
Qed.

(** A kernel mapping, how it is printed, and what the query reports. *)
Definition printed_of (v : vma) (shared : bool) : printed :=
  Printed (vma_start v) (vma_end v) (N.testbit (vma_flags v) 0) (N.testbit (vma_flags v) 1)
    (N.testbit (vma_flags v) 2) shared (vma_offset v) (vma_name v).
Definition maps_text (vs : list (vma * (bool * layout))) : list N :=
  kernel_file (map (fun '(v, (sh, l)) => (printed_of v sh, l)) vs).
Definition kernel_answers (sys : N -> outcome (option vma)) (vs : list vma) : Prop :=
  forall a,
    (sys a = Good None /\ forall v, In v vs -> N.testbit (vma_flags v) 0 = true -> vma_end v <= a) \/
    (exists v, sys a = Good (Some v) /\ In v vs /\ N.testbit (vma_flags v) 0 = true /\ a < vma_end v /\
       forall w, In w vs -> N.testbit (vma_flags w) 0 = true -> a < vma_end w -> vma_start v <= vma_start w).
Definition wf_vmas (vs : list vma) : Prop :=
  StronglySorted (fun v w => vma_end v <= vma_start w) vs /\
  Forall (fun v => vma_start v < vma_end v /\ vma_offset v + (vma_end v - vma_start v) <= two64) vs.

Definition perm_of (v : vma) : N :=
  (if N.testbit (vma_flags v) 0 then 4 else 0) + (if N.testbit (vma_flags v) 1 then 2 else 0) +
  (if N.testbit (vma_flags v) 2 then 1 else 0).
Definition entry_t (pid : N) (v : vma) : maps_entry :=
  MapsEntry (vma_start v) (vma_end v) (perm_of v) (vma_offset v)
    (parse_path_name (vma_name v) pid (vma_start v) (vma_end v)) None.
Definition entry_q (bids : bool) (pid : N) (v : vma) : maps_entry :=
  MapsEntry (vma_start v) (vma_end v) (perm_of v) (vma_offset v)
    (parse_path_name (vma_name v) pid (vma_start v) (vma_end v))
    (if bids && (0 <? nlen (vma_build_id v)) then Some (vma_build_id v) else None).

Lemma land_bit : forall f n, negb (N.land f (2 ^ n) =? 0) = N.testbit f n.
Proof.
  intros f n. destruct (N.testbit f n) eqn:E.
  - destruct (N.eqb_spec (N.land f (2 ^ n)) 0) as [H|]; auto.
    assert (Hb : N.testbit (N.land f (2 ^ n)) n = true) by (now rewrite N.land_spec, E, N.pow2_bits_true).
    rewrite H, N.bits_0 in Hb. discriminate.
  - destruct (N.eqb_spec (N.land f (2 ^ n)) 0) as [|H]; auto. exfalso. apply H.
    apply N.bits_inj. intros i. rewrite N.land_spec, N.bits_0.
    destruct (N.eq_dec n i) as [->|Hne]; [now rewrite E|]. rewrite N.pow2_bits_false by auto. apply andb_false_r.
Qed.
Lemma flags_perm : forall v, vma_flags_to_perm (vma_flags v) = perm_of v.
Proof.
  intros v. unfold vma_flags_to_perm, perm_of, VMA_READABLE, VMA_WRITABLE, VMA_EXECUTABLE.
  pose proof (land_bit (vma_flags v) 0) as H0. pose proof (land_bit (vma_flags v) 1) as H1.
  pose proof (land_bit (vma_flags v) 2) as H2.
  change (2 ^ 0) with 1 in H0. change (2 ^ 1) with 2 in H1. change (2 ^ 2) with 4 in H2.
  rewrite H0, H1, H2.
  destruct (N.testbit (vma_flags v) 0), (N.testbit (vma_flags v) 1), (N.testbit (vma_flags v) 2); reflexivity.
Qed.
Lemma perm_of_bits : forall v, N.testbit (perm_of v) 2 = N.testbit (vma_flags v) 0 /\
  N.testbit (perm_of v) 0 = N.testbit (vma_flags v) 2.
Proof.
  intros v. unfold perm_of.
  destruct (N.testbit (vma_flags v) 0), (N.testbit (vma_flags v) 1), (N.testbit (vma_flags v) 2); split; reflexivity.
Qed.
Lemma wf_entries : forall (en : vma -> maps_entry) pid vs, wf_vmas vs ->
  (forall v, me_start (en v) = vma_start v /\ me_end (en v) = vma_end v /\ me_offset (en v) = vma_offset v /\
     me_path (en v) = parse_path_name (vma_name v) pid (vma_start v) (vma_end v)) ->
  wf_space (map en vs).
Proof.
  intros en pid vs [Hs Hf] Hen.
  assert (Hd : disjoint (map en vs)).
  { split.
    - clear Hf. induction Hs as [|v vs Hs IH Hfa]; simpl; constructor; auto.
      rewrite Forall_map. eapply Forall_impl; [|exact Hfa]. intros w Hw. simpl in *.
      destruct (Hen v) as (_ & -> & _). destruct (Hen w) as (-> & _). exact Hw.
    - rewrite Forall_map. eapply Forall_impl; [|exact Hf]. intros w Hw. simpl in *.
      destruct (Hen w) as (-> & -> & _). lia. }
  split; auto. split.
  - rewrite Forall_map. eapply Forall_impl; [|exact Hf]. intros w Hw. simpl in *.
    destruct (Hen w) as (-> & -> & -> & _). lia.
  - intros v w f p q Hv Hw Ev Ew. apply in_map_iff in Hv, Hw.
    destruct Hv as (v0 & <- & Hv). destruct Hw as (w0 & <- & Hw).
    destruct (Hen v0) as (Sv & Nv & _ & Pv). destruct (Hen w0) as (Sw & Nw & _ & Pw). rewrite Pv in Ev. rewrite Pw in Ew.
    assert (Hm : forall u n s e g r, parse_path_name n u s e = Some (PPath g r) -> is_map_file u s e g).
    { intros u n s e g r E. pose proof (parse_path_name_ok n u s e) as D. rewrite E in D.
      inversion D; subst; auto. }
    pose proof (map_files_inj _ _ _ _ _ _ (Hm _ _ _ _ _ _ Ev) (Hm _ _ _ _ _ _ Ew)) as Es.
    rewrite Forall_forall in Hf. pose proof (Hf v0 Hv) as Fv. pose proof (Hf w0 Hw) as Fw. simpl in Fv, Fw.
    assert (L1 : lookup (map en vs) (vma_start v0) = Some (en v0)).
    { apply lookup_unique; auto; [now apply in_map|]. rewrite Sv, Nv. lia. }
    assert (L2 : lookup (map en vs) (vma_start v0) = Some (en w0)).
    { apply lookup_unique; auto; [now apply in_map|]. rewrite Sw, Nw. lia. }
    congruence.
Qed.
Lemma text_source : forall m pid vs,
  Forall (fun '(v, (sh, l)) => wf_layout (printed_of v sh) l /\ wf_name (vma_name v) /\ no_lf (vma_name v)) vs ->
  parse_filtered m (maps_text vs) pid = map Ok (filter interesting (map (entry_t pid) (map fst vs))).
Proof.
  intros m pid vs H. unfold parse_filtered, maps_text. rewrite parse_kernel_file_eq.
  - induction H as [|[v [sh l]] vs (Hl & Hn & Hlf) H IH]; simpl; auto.
    rewrite parse_kernel_line_eq; auto; [|constructor; [unfold white; simpl; tauto|constructor]].
    change (MapsEntry _ _ _ _ _ _) with (entry_t pid v). rewrite filter_relevant_eq, IH.
    now destruct (interesting (entry_t pid v)).
  - rewrite Forall_map. eapply Forall_impl; [|exact H]. intros [v [sh l]]. simpl. auto.
Qed.
Lemma query_source : forall sys pid bids vs, kernel_answers sys vs ->
  answers (fun a => query_procmap sys pid a bids) (map (entry_q bids pid) vs).
Proof.
  intros sys pid bids vs H a.
  assert (Hr : forall v, readable (entry_q bids pid v) <-> N.testbit (vma_flags v) 0 = true).
  { intros v. unfold readable. simpl. destruct (perm_of_bits v) as [-> _]. tauto. }
  destruct (H a) as [[E Hno]|(v & E & Hin & Hrd & Hlt & Hmin)].
  - left. unfold query_procmap. rewrite E. split; auto. intros w Hw Hrw. apply in_map_iff in Hw.
    destruct Hw as (u & <- & Hu). apply Hno; auto. now apply Hr.
  - right. exists (entry_q bids pid v). unfold query_procmap. rewrite E. simpl. rewrite flags_perm.
    split; [reflexivity|]. split; [now apply in_map|]. split; [now apply Hr|]. split; auto.
    intros w Hw Hrw. apply in_map_iff in Hw. destruct Hw as (u & <- & Hu). apply Hmin; auto. now apply Hr.
Qed.

(** For every process, with mappings whose names survive being printed, the
    text and the answers to queries give the same normalization. *)
Theorem C14_kernel_interfaces_partial :
  forall Sym (env : nenv Sym) o m pid vs sys addrs l fuel c1 c2,
  wf_vmas (map fst vs) -> wf_archives env ->
  Forall (fun '(v, (sh, l)) => wf_layout (printed_of v sh) l /\ wf_name (vma_name v) /\ no_lf (vma_name v)) vs ->
  kernel_answers sys (map fst vs) ->
  Forall (fun v => N.testbit (vma_flags v) 2 = true -> N.testbit (vma_flags v) 0 = true) (map fst vs) ->
  (no_build_ids o = true -> forall v f p, In v (map fst vs) -> vma_build_id v <> [] ->
     me_path (entry_t pid v) = Some (PPath f p) -> ~ is_archive p ->
     nv_build_id env (chosen o f p) = Good (Some (vma_build_id v))) ->
  (no_sorted_addrs o = false /\ least addrs l \/ no_sorted_addrs o = true /\ hd 0 addrs = l) ->
  (exists v, In v (map fst vs) /\ N.testbit (vma_flags v) 0 = true /\ l < vma_end v) ->
  (length vs < fuel)%nat ->
  normalize_opts m env o c1 fuel (Text (parse_filtered m (maps_text vs) pid)) None addrs =
  normalize_opts m env o c2 fuel (Query (fun a => query_procmap sys pid a (no_build_ids o))) None addrs.
Proof.
  intros Sym env o m pid vs sys addrs l fuel c1 c2 Hw Ha Hwf Hk Hx Hb Hl (v & Hv & Hrv & Hlt) Hf.
  rewrite text_source by auto.
  assert (Hwt : wf_space (map (entry_t pid) (map fst vs))) by (eapply (wf_entries (entry_t pid) pid); eauto).
  assert (Hwq : wf_space (map (entry_q (no_build_ids o) pid) (map fst vs)))
    by (eapply (wf_entries (entry_q (no_build_ids o) pid) pid); eauto).
  apply (C14_sources_agree_partial Sym env o m (map (entry_t pid) (map fst vs))
           (map (entry_q (no_build_ids o) pid) (map fst vs)) addrs l fuel); auto.
  - clear - Hb. set (us := map fst vs) in *. clearbody us.
    assert (Hall : forall u, In u us -> same_mapping env o (entry_t pid u) (entry_q (no_build_ids o) pid u)).
    { intros u Hu. repeat split; auto. intros f p Ep Hna. unfold mapping_build_id. simpl.
      destruct (no_build_ids o) eqn:Eo; simpl; auto.
      unfold file_build_id. rewrite Eo. destruct (N.ltb_spec 0 (nlen (vma_build_id u))) as [Hlen|]; auto.
      rewrite (Hb eq_refl u f p Hu); auto. intros E. rewrite E in Hlen. compute in Hlen. discriminate. }
    clear Hb. induction us as [|u us IH]; simpl; constructor; auto; [apply Hall; now left|].
    apply IH. intros w Hin. apply Hall. now right.
  - intros w Hin He. apply in_map_iff in Hin. destruct Hin as (u & <- & Hu). unfold executable, readable in *.
    simpl in *. destruct (perm_of_bits u) as [B2 B0]. rewrite B2. rewrite B0 in He.
    rewrite Forall_forall in Hx. now apply Hx.
  - exists (entry_t pid v). split; [now apply in_map|]. split; [|exact Hlt].
    unfold readable. simpl. destruct (perm_of_bits v) as [-> _]. exact Hrv.
  - now rewrite !map_length.
  - apply rd_text. auto.
  - apply rd_query; auto. now apply query_source.
Qed.

(** A process with a program (mapped in two parts), a heap, an archive and the
    vDSO; addresses in all of them, and in none. *)
Section Process.
  Let prog : list N := [47; 112]. (* /p *)
  Let apk : list N := [47; 120; 46; 97; 112; 107]. (* /x.apk *)
  Let ly : layout := Layout 8 8 8 [48; 48; 58; 48; 49] [49] 3.
  Let vs : list (vma * (bool * layout)) :=
    [(Vma 4096 8192 1 0 prog [7; 7], (false, ly)); (Vma 8192 12288 5 4096 prog [7; 7], (false, ly));
     (Vma 12288 16384 3 0 [91; 104; 101; 97; 112; 93] [], (false, ly));
     (Vma 20480 28672 5 65536 apk [], (true, ly));
     (Vma 28672 32768 5 0 [91; 118; 100; 115; 111; 93] [], (false, ly))].
  Let sys (a : N) : outcome (option vma) := Good (find (fun v => a <? vma_end v) (map fst vs)).
  Let env : nenv nat :=
    NEnv (fun _ => Good (Some [7; 7]))
      (fun _ => Good [Good (ZMember [97] 65000 900 (Good None)); Good (ZMember [108; 47; 98] 66000 2000 (Good (Some [9])))])
      (fun _ _ => Good (Vdso (fun off => Ok (Some (off + 1))) (fun a => Ok (if a =? 17 then inl 3%nat else inr MissingSyms)))).
  Let addrs : list N := [28688; 8200; 4100; 20480 + 1000; 12289; 17000; 8200; 20481].
  Let want : uoutput nat := UOutput
    [(16, 5%nat); (4104, 0%nat); (4, 0%nat); (536, 4%nat); (12289, 1%nat); (17000, 2%nat); (4104, 0%nat); (537, 3%nat)]
    [UElf prog (Some [7; 7]); UUnknown Unsupported; UUnknown Unmapped; UElf (apk ++ [33; 47; 97]) None;
     UElf (apk ++ [33; 47; 108; 47; 98]) (Some [9]); USym 3%nat].
  Example C14_example_text :
    normalize_opts Checked env ex_opts false 9 (Text (parse_filtered Checked (maps_text vs) 42)) None addrs
    = normalize_opts Checked env ex_opts true 9 (Query (fun a => query_procmap sys 42 a true)) None addrs.
  Proof. vm_compute. reflexivity. Qed.
  Example C10_example :
    normalize_opts Checked env ex_opts false 9 (Query (fun a => query_procmap sys 42 a true)) None addrs = Ok want.
  Proof. vm_compute. reflexivity. Qed.
End Process.

(** ** C15: archives *)
Theorem C15_members : forall Sym (env : nenv Sym) o m es src vis cache fuel cached addrs out n a x i v f p,
  wf_space es -> wf_archives env -> source_of es src vis -> (length es < fuel)%nat ->
  cached = None \/ cached = Some vis ->
  normalize_opts m env o cache fuel src cached addrs = Ok out ->
  nth_error addrs n = Some a -> nth_error (uo_outputs out) n = Some (x, i) ->
  In v vis -> contains_addr v a -> me_path v = Some (PPath f p) -> is_archive p -> no_apk_to_elf o = true ->
  let off := a - me_start v + me_offset v in
  exists ms, nv_archive env (chosen o f p) = Good ms /\
    ((exists mb b, first_member ms off mb /\ x = off - zm_data_offset mb /\ x < zm_data_len mb /\
        nth_error (uo_meta out) i = Some (UElf (member_path (chosen o f p) (zm_path mb)) b)) \/
     (no_member ms off /\ x = a /\ nth_error (uo_meta out) i = Some (UUnknown Unmapped))).
Proof.
  intros Sym env o m es src vis cache fuel cached addrs out n a x i v f p
    Hw Ha Hs Hf Hc E En Ex Hv Hcv Ep Hna Hapk off.
  assert (Hwv : wf_space vis) by (destruct Hs; now apply wf_space_filter).
  pose proof (C10_attribution Sym env o m es src vis cache fuel cached addrs out Hw Ha Hs Hf Hc E) as H.
  destruct (Forall2_nth_l _ _ _ _ _ H n a En) as ([x' i'] & Ex' & mt & Hi & Hat).
  rewrite Ex in Ex'. injection Ex' as <- <-.
  assert (Hu : forall w, In w vis -> contains_addr w a -> w = v)
    by (intros w Hiw Hcw; eapply (C10_unique_mapping vis); eauto).
  inversion Hat as [Hno|w Hiw Hcw Ew|w c Hiw Hcw Ew|w vd va sym Hiw Hcw Ew|w vd va r Hiw Hcw Ew|w vd Hiw Hcw Ew
    |w f' p' b Hiw Hcw Ew Hn' Hid|w f' p' Hiw Hcw Ew Hn' Hno
    |w f' p' ms mb b Hiw Hcw Ew Hn' Ht Har Hfm Hid|w f' p' ms Hiw Hcw Ew Hn' Ht Har Hnm];
    subst; [exfalso; eapply Hno; eauto| | | | | | | | |];
    pose proof (Hu w Hiw Hcw); subst w; rewrite Ep in Ew; try discriminate; injection Ew as <- <-;
    try contradiction; try congruence.
  - exists ms. split; auto. left. exists mb, b. split; auto. split; auto. split; auto.
    destruct Hfm as (pre & post & _ & Hin & _). unfold in_member in Hin. lia.
  - exists ms. split; auto.
Qed.
(** Without overlap among the members, the first one is the only one. *)
Theorem C15_member_unique : forall l off mb mb',
  StronglySorted (fun a b => zm_data_offset a + zm_data_len a <= zm_data_offset b) l ->
  first_member (map Good l) off mb -> In mb' l -> in_member off mb' -> mb' = mb.
Proof.
  intros l off mb mb' Hs (pre & post & E & Hin & Hpre) Hmb' Hin'.
  assert (Hl : exists post', l = pre ++ mb :: post').
  { clear - E. revert l E. induction pre as [|y pre IH]; intros l E; destruct l as [|z l]; try discriminate.
    - simpl in E. injection E as -> _. exists l. auto.
    - simpl in E. injection E as -> E. destruct (IH l E) as [post' ->]. exists post'. auto. }
  destruct Hl as [post' ->]. apply in_app_iff in Hmb'. destruct Hmb' as [Hp|[Hp|Hp]]; auto.
  - rewrite Forall_forall in Hpre. specialize (Hpre mb' Hp). contradiction.
  - exfalso. clear - Hs Hp Hin Hin'. induction pre as [|y pre IH]; simpl in Hs.
    + inversion Hs as [|? ? _ Hf]; subst. rewrite Forall_forall in Hf. specialize (Hf mb' Hp).
      unfold in_member in *. simpl in Hf. lia.
    + inversion Hs; subst. auto.
Qed.
(** Without the option, archives are reported as they are. *)
Theorem C15_untranslated : forall Sym (env : nenv Sym) o m es src vis cache fuel cached addrs out n a x i v f p,
  wf_space es -> wf_archives env -> source_of es src vis -> (length es < fuel)%nat ->
  cached = None \/ cached = Some vis ->
  normalize_opts m env o cache fuel src cached addrs = Ok out ->
  nth_error addrs n = Some a -> nth_error (uo_outputs out) n = Some (x, i) ->
  In v vis -> contains_addr v a -> me_path v = Some (PPath f p) -> is_archive p -> no_apk_to_elf o = false ->
  x = a - me_start v + me_offset v /\ nth_error (uo_meta out) i = Some (UApk (chosen o f p)).
Proof.
  intros Sym env o m es src vis cache fuel cached addrs out n a x i v f p
    Hw Ha Hs Hf Hc E En Ex Hv Hcv Ep Hna Hapk.
  assert (Hwv : wf_space vis) by (destruct Hs; now apply wf_space_filter).
  pose proof (C10_attribution Sym env o m es src vis cache fuel cached addrs out Hw Ha Hs Hf Hc E) as H.
  destruct (Forall2_nth_l _ _ _ _ _ H n a En) as ([x' i'] & Ex' & mt & Hi & Hat).
  rewrite Ex in Ex'. injection Ex' as <- <-.
  assert (Hu : forall w, In w vis -> contains_addr w a -> w = v)
    by (intros w Hiw Hcw; eapply (C10_unique_mapping vis); eauto).
  inversion Hat as [Hno|w Hiw Hcw Ew|w c Hiw Hcw Ew|w vd va sym Hiw Hcw Ew|w vd va r Hiw Hcw Ew|w vd Hiw Hcw Ew
    |w f' p' b Hiw Hcw Ew Hn' Hid|w f' p' Hiw Hcw Ew Hn' Hno
    |w f' p' ms mb b Hiw Hcw Ew Hn' Ht Har Hfm Hid|w f' p' ms Hiw Hcw Ew Hn' Ht Har Hnm];
    subst; [exfalso; eapply Hno; eauto| | | | | | | | |];
    pose proof (Hu w Hiw Hcw); subst w; rewrite Ep in Ew; try discriminate; injection Ew as <- <-;
    try contradiction; try congruence. auto.
Qed.
(** Errors of the archive in front of the member fail the whole batch. *)
Theorem C15_broken_archive_refuted : exists (env : nenv unit) o es src,
  wf_space es /\ wf_archives env /\ source_of es src es /\
  normalize_opts Checked env o false 9 src None [4096; 70000] = Err EInvalidData.
Proof.
  set (e := MapsEntry 4096 8192 5 0 (Some (PPath [1] [47; 120; 46; 97; 112; 107])) None).
  exists (NEnv (fun _ => Good None) (fun _ => Good [Bad EInvalidData]) (fun _ _ => Bad ENotFound)), ex_opts, [e],
    (Text [Ok e]). split; [|split; [|split]].
  - split; [|split].
    + split; repeat constructor; simpl; lia.
    + repeat constructor. vm_compute. discriminate.
    + intros v w f p q [<-|[]] [<-|[]] _ _. reflexivity.
  - intros p ms mb E Hin; injection E as <-; destruct Hin as [Hin|[]]; discriminate.
  - exact (so_text [e]).
  - vm_compute. reflexivity.
Qed.

Print Assumptions C10_attribution.
Print Assumptions C10_unique_mapping.
Print Assumptions C10_own_build_id.
Print Assumptions C10_build_id_refuted.
Print Assumptions C11_unmapped.
Print Assumptions C11_unknown_unchanged.
Print Assumptions C11_never_aborts.
Print Assumptions C11_never_aborts_unsorted.
Print Assumptions C11_no_mappings_refuted.
Print Assumptions C11_past_all_refuted.
Print Assumptions C11_vdso_refuted.
Print Assumptions C12_meta.
Print Assumptions C12_shared.
Print Assumptions C13_sorted_same.
Print Assumptions C13_unsorted_no_result.
Print Assumptions C13_unsorted_error.
Print Assumptions C14_sources_agree_partial.
Print Assumptions C14_past_all_refuted.
Print Assumptions C14_execute_only_refuted.
Print Assumptions C14_kernel_interfaces_partial.
Print Assumptions C15_members.
Print Assumptions C15_member_unique.
Print Assumptions C15_untranslated.
Print Assumptions C15_broken_archive_refuted.
