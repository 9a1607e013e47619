(** * Kernel symbols and the tags of BPF programs

    Claims C33 and C50 of /verif/properties.jsonl. *)

From Coq Require Import String Permutation.
From Verif Require Import Base Lists ByName Util UtilProofs Text Nom Maps MapsProofs Num Sym Inspect Elf ElfProofs
  ModMap Ksym ModSpec PropMod.
Local Close Scope string_scope.
Local Open Scope N_scope.

(** ** C50: tags *)
Lemma hex_pair : forall h l dh dl, hex_digit h dh -> hex_digit l dl ->
  from_str_radix 16 256 [h; l] = Some (16 * dh + dl).
Proof.
  intros h l dh dl Hh Hl. apply hex_ok.
  - exists [dh; dl]. split; [constructor; [exact Hh|constructor; [exact Hl|constructor]]|]. split; [discriminate|]. cbn [fold_left]. lia.
  - unfold hex_digit in *. lia.
Qed.
Lemma hex_digit_ascii : forall c d, hex_digit c d -> c < 128.
Proof. unfold hex_digit. intros. lia. Qed.
Lemma boundary_ascii : forall s, ascii s -> boundary s = true.
Proof.
  intros s H. destruct H as [|c s Hc H]; [reflexivity|]. unfold boundary, in_range.
  destruct (N.leb_spec 128 c); [lia|reflexivity].
Qed.
Definition hex_pairs (t : list N) (ps : list (list N)) : Prop :=
  Forall2 (fun b p => exists h l dh dl, p = [h; l] /\ hex_digit h dh /\ hex_digit l dl /\ b = 16 * dh + dl) t ps.
Lemma pairs_ascii : forall t ps, hex_pairs t ps -> ascii (concat ps).
Proof.
  intros t ps H. induction H as [|b p t ps (h & l & dh & dl & -> & Hh & Hl & _) H IH]; [constructor|].
  cbn [concat app]. repeat constructor; eauto using hex_digit_ascii.
Qed.
Lemma pairs_length : forall t ps, hex_pairs t ps -> length (concat ps) = (2 * length t)%nat.
Proof.
  intros t ps H. induction H as [|b p t ps (h & l & dh & dl & -> & Hh & Hl & _) H IH]; [reflexivity|].
  cbn [concat app length]. rewrite IH. lia.
Qed.
Lemma tag_loop_ok : forall t ps, hex_pairs t ps -> tag_loop (concat ps) = Ok (Some t).
Proof.
  intros t ps H. induction H as [|b p t ps (h & l & dh & dl & -> & Hh & Hl & ->) H IH]; [reflexivity|].
  cbn [concat app tag_loop]. rewrite boundary_ascii by (eapply pairs_ascii; exact H).
  rewrite (hex_pair h l dh dl Hh Hl), IH. reflexivity.
Qed.
Lemma pair_some : forall a b v, a <> 43 -> from_str_radix 16 256 [a; b] = Some v ->
  exists dh dl, hex_digit a dh /\ hex_digit b dl /\ v = 16 * dh + dl.
Proof.
  intros a b v Ha H. apply (from_str_radix_some hex_digit) in H; [|exact to_digit_hex].
  destruct H as [(ds & H1 & _ & ->)|(s & E & _)]; [|injection E as E _; congruence].
  inversion H1 as [|? dh ? ds' Hh H2]; subst. inversion H2 as [|? dl ? ds'' Hl H3]; subst. inversion H3; subst.
  exists dh, dl. split; auto. split; auto. cbn [fold_left]. lia.
Qed.
(** Text is never a problem as long as it is ASCII. *)
Lemma tag_loop_ascii : forall n s, length s = (2 * n)%nat -> ascii s -> no_plus s ->
  tag_loop s = Ok None \/ exists t ps, tag_loop s = Ok (Some t) /\ hex_pairs t ps /\ s = concat ps /\ length t = n.
Proof.
  induction n as [|n IH]; intros s Hl Ha Hp.
  - destruct s; [|discriminate]. right. exists [], []. repeat split. constructor.
  - destruct s as [|a [|b s]]; cbn [length] in Hl; try lia.
    inversion Ha as [|? ? Ha1 Ha2]; subst. inversion Ha2 as [|? ? Hb1 Hb2]; subst.
    inversion Hp as [|? ? Hp1 Hp2]; subst. inversion Hp2 as [|? ? Hp3 Hp4]; subst.
    cbn [tag_loop]. rewrite boundary_ascii by auto.
    destruct (from_str_radix 16 256 [a; b]) as [v|] eqn:E; [|now left].
    destruct (pair_some a b v Hp1 E) as (dh & dl & Hh & Hd & ->).
    destruct (IH s ltac:(lia) Hb2 Hp4) as [E2|(t & ps & E2 & H2 & -> & Hn)]; rewrite E2; cbn [bind]; [now left|].
    right. exists ((16 * dh + dl) :: t), ([a; b] :: ps). split; [reflexivity|]. split.
    + constructor; auto. exists a, b, dh, dl. auto.
    + split; [reflexivity|]. cbn [length]. lia.
Qed.
Lemma tag_no_underscore : forall t ps, hex_pairs t ps -> Forall (fun b => (b =? 95) = false) (concat ps).
Proof.
  intros t ps H. induction H as [|b p t ps (h & l & dh & dl & -> & Hh & Hl & _) H IH]; [constructor|].
  unfold hex_digit in *. cbn [concat app]. constructor; [apply N.eqb_neq; lia|]. constructor; [apply N.eqb_neq; lia|auto].
Qed.

(** A program's name gives its tag, in either case of the digits. *)
Theorem C50_tag : forall name t, bpf_name name t -> bpf_parse name = Ok (Some t).
Proof.
  intros name t (tx & rest & -> & (Hl & ps & -> & Hps) & Hr). unfold bpf_parse.
  change (bs "bpf_prog_"%string) with bpf_prog_prefix.
  rewrite (proj2 (strip_prefix_some bpf_prog_prefix _ (concat ps ++ rest)) eq_refl).
  change (hex_pairs t ps) in Hps.
  assert (E : tag_from_str (concat ps) = Ok (Some t)).
  { unfold tag_from_str. rewrite (pairs_length t ps Hps), Hl. now apply tag_loop_ok. }
  destruct Hr as [->|(r & ->)].
  - rewrite app_nil_r. rewrite (proj2 (split_once_none _ _)) by (eapply tag_no_underscore; exact Hps). exact E.
  - change (bs "_"%string ++ r) with (95 :: r).
    rewrite split_once_app by (auto; eapply tag_no_underscore; exact Hps). exact E.
Qed.
Print Assumptions C50_tag.
(** And nothing else is taken for a program, as long as names are ASCII and
    without plus signs. *)
Theorem C50_only : forall name, ascii name -> no_plus name ->
  (exists t, bpf_parse name = Ok (Some t) /\ bpf_name name t) \/ (bpf_parse name = Ok None /\ ~ is_bpf name).
Proof.
  intros name Ha Hp.
  assert (Hdec : bpf_parse name = Ok None -> ~ is_bpf name).
  { intros E (t & Ht). apply C50_tag in Ht. congruence. }
  enough (H : (exists t, bpf_parse name = Ok (Some t) /\ bpf_name name t) \/ bpf_parse name = Ok None).
  { destruct H as [H|H]; [now left|]. right. split; [exact H|]. now apply Hdec. }
  unfold bpf_parse at 2. destruct (strip_prefix bpf_prog_prefix name) as [s|] eqn:E; [|now right].
  apply strip_prefix_some in E.
  assert (Has : ascii s) by (subst name; now apply Forall_app in Ha).
  assert (Hps : no_plus s) by (subst name; now apply Forall_app in Hp).
  set (tag := match split_once _ s with Some (tag, _) => tag | None => s end).
  assert (Hs : exists rest, s = tag ++ rest /\ (rest = [] \/ exists r, rest = bs "_"%string ++ r)).
  { unfold tag. destruct (split_once (fun b => b =? 95) s) as [[a rest]|] eqn:E1.
    - apply split_once_some in E1. destruct E1 as (b & -> & Hb & _). apply N.eqb_eq in Hb. subst b.
      exists (95 :: rest). split; [reflexivity|]. right. now exists rest.
    - exists []. rewrite app_nil_r. auto. }
  destruct Hs as (rest & Hs & Hr). rewrite Hs in Has, Hps. apply Forall_app in Has, Hps.
  destruct Has as [Has _], Hps as [Hps _].
  unfold tag_from_str. destruct (Nat.eqb_spec (length tag) 16) as [Hl|Hl]; [|now right].
  destruct (tag_loop_ascii 8 tag ltac:(lia) Has Hps) as [E2|(t & ps & E2 & H2 & H3 & H4)]; [now right|].
  left. exists t.
  assert (Hb : bpf_name name t).
  { exists tag, rest. rewrite E, Hs. split; [reflexivity|]. split; [|auto]. split; [auto|]. exists ps. auto. }
  split; [|exact Hb]. now apply C50_tag.
Qed.
Print Assumptions C50_only.

(** Tags are printed the way the kernel writes them. *)
Lemma hex_char_digit : forall d, d < 16 -> hex_digit (hex_char d) d.
Proof. intros d H. unfold hex_char, hex_digit. destruct (N.ltb_spec d 10); lia. Qed.
Lemma hex_char_lower : forall c d, lower_hex c -> hex_digit c d -> hex_char d = c.
Proof. unfold lower_hex, hex_digit, hex_char. intros c d H1 H2. destruct (N.ltb_spec d 10); lia. Qed.
Lemma byte_div : forall dh dl, dh < 16 -> dl < 16 -> (16 * dh + dl) / 16 = dh /\ (16 * dh + dl) mod 16 = dl.
Proof.
  intros dh dl H1 H2. rewrite (N.mul_comm 16). split.
  - rewrite N.div_add_l by discriminate. rewrite N.div_small by auto. lia.
  - rewrite N.add_comm, N.mod_add by discriminate. now apply N.mod_small.
Qed.
Theorem C50_display : forall t tx, tag_text t tx -> Forall lower_hex tx -> tag_display t = tx.
Proof.
  intros t tx (_ & ps & -> & H) Hl. induction H as [|b p t ps (h & l & dh & dl & -> & Hh & Hd & ->) H IH]; [reflexivity|].
  cbn [concat app] in Hl. inversion Hl as [|? ? L1 L2]; subst. inversion L2 as [|? ? L3 L4]; subst.
  unfold tag_display in *. cbn [flat_map concat]. rewrite IH by auto.
  destruct (byte_div dh dl) as [-> ->]; [unfold hex_digit in *; lia..|].
  now rewrite (hex_char_lower h dh L1 Hh), (hex_char_lower l dl L3 Hd).
Qed.
Print Assumptions C50_display.
Theorem C50_roundtrip : forall t rest, length t = 8%nat -> Forall (fun b => b < 256) t ->
  rest = [] \/ (exists r, rest = bs "_"%string ++ r) ->
  bpf_parse (bs "bpf_prog_"%string ++ tag_display t ++ rest) = Ok (Some t).
Proof.
  intros t rest Hl Hb Hr. apply C50_tag. exists (tag_display t), rest. split; [reflexivity|]. split; [|auto].
  split; [auto|]. exists (map (fun b => [hex_char (b / 16); hex_char (b mod 16)]) t). split.
  - unfold tag_display. clear. induction t as [|b t IH]; [reflexivity|]. cbn [flat_map map concat]. now rewrite IH.
  - clear - Hb. induction Hb as [|b t Hb H IH]; [constructor|]. cbn [map]. constructor; auto.
    exists (hex_char (b / 16)), (hex_char (b mod 16)), (b / 16), (b mod 16). split; [reflexivity|].
    assert (b / 16 < 16) by (apply N.div_lt_upper_bound; [discriminate|exact Hb]).
    split; [now apply hex_char_digit|]. split; [apply hex_char_digit; now apply N.mod_lt|].
    apply N.div_mod. discriminate.
Qed.
Print Assumptions C50_roundtrip.
Example C50_example :
  bpf_parse (bs "bpf_prog_7cc47bbf07148bfe_hid_tail_call"%string) =
    Ok (Some [0x7c; 0xc4; 0x7b; 0xbf; 0x07; 0x14; 0x8b; 0xfe]) /\
  bpf_parse (bs "bpf_prog_30304e82b4033ea3"%string) =
    Ok (Some [0x30; 0x30; 0x4e; 0x82; 0xb4; 0x03; 0x3e; 0xa3]) /\
  bpf_parse (bs "bpf_prog_run_array"%string) = Ok None /\
  bpf_parse (bs "bpf_prog_7cc47bbf07148bf_x"%string) = Ok None /\
  bpf_parse (bs "xbpf_prog_30304e82b4033ea3"%string) = Ok None /\
  tag_display [0x7c; 0xc4; 0x7b; 0xbf; 0x07; 0x14; 0x8b; 0xfe] = bs "7cc47bbf07148bfe"%string.
Proof. repeat split; vm_compute; reflexivity. Qed.

(** Digits of a tag may have plus signs in their place: what is accepted is no
    tag then, and is printed as another one. *)
Theorem C50_plus_refuted : exists name t,
  bpf_parse name = Ok (Some t) /\ ~ is_bpf name /\ name <> bs "bpf_prog_"%string ++ tag_display t.
Proof.
  exists (bs "bpf_prog_+1+2+3+4+5+6+7+f"%string), [1; 2; 3; 4; 5; 6; 7; 15].
  split; [vm_compute; reflexivity|]. split; [|discriminate].
  intros (t & tx & rest & E & (Hl & ps & -> & Hps) & Hr).
  assert (E2 : bs "+1+2+3+4+5+6+7+f"%string = concat ps ++ rest).
  { change (bs "bpf_prog_"%string ++ bs "+1+2+3+4+5+6+7+f"%string = bs "bpf_prog_"%string ++ concat ps ++ rest) in E.
    now apply app_inv_head in E. }
  destruct Hps as [|b p t ps (h & l & dh & dl & -> & Hh & _) Hps]; [discriminate|].
  vm_compute in E2. injection E2 as E2 _. subst h. unfold hex_digit in Hh. lia.
Qed.
Print Assumptions C50_plus_refuted.
(** Some symbol names, though text, end the program. *)
Theorem C50_panic_refuted : exists name, text name /\ bpf_parse name = Panic.
Proof.
  exists (bs "bpf_prog_a"%string ++ [195; 169] ++ bs "7bbf07148bfe1"%string). split.
  - apply text_valid. vm_compute. reflexivity.
  - vm_compute. reflexivity.
Qed.
Print Assumptions C50_panic_refuted.

(** ** C33: symbols *)
Definition plain (name : list N) : Prop :=
  (exists r, name = bs "bpf_prog_"%string ++ r) -> ascii name /\ no_plus name.
Lemma bpf_parse_plain : forall name, plain name ->
  exists o, bpf_parse name = Ok o /\ forall t, o = Some t <-> bpf_name name t.
Proof.
  intros name H.
  destruct (strip_prefix bpf_prog_prefix name) as [r|] eqn:E.
  - apply strip_prefix_some in E. destruct (H (ex_intro _ r E)) as [Ha Hp].
    destruct (C50_only name Ha Hp) as [(t & Et & Ht)|[En Hn]].
    + exists (Some t). split; auto. intros t'. split; [intros E1; injection E1 as <-; auto|].
      intros Ht'. apply C50_tag in Ht'. congruence.
    + exists None. split; auto. intros t. split; [discriminate|]. intros Ht. exfalso. apply Hn. now exists t.
  - exists None. unfold bpf_parse. rewrite E. split; auto. intros t. split; [discriminate|].
    intros (tx & rest & En & _). rewrite (proj2 (strip_prefix_some bpf_prog_prefix name (tx ++ rest)) En) in E. discriminate.
Qed.
Lemma ksym_line_lf : forall e s, ksym_line e s -> Forall (fun b => b <> 10) s.
Proof.
  intros e s H. destruct H as [addr name a typ rest s1 s2 Ha [Ht _] [Hn _] Hr S1 S2 Ba].
  repeat (apply Forall_app; split); auto using word_lf, spaces_lf, rest_lf.
  apply word_lf. eapply hex_word; eauto.
Qed.
Lemma ksym_line_valid : forall e s, ksym_line e s -> utf8_valid (s ++ [10]) = true.
Proof.
  intros e s H. destruct H as [addr name a typ rest s1 s2 Ha [_ Ht] [_ Hn] Hr S1 S2 Ba].
  apply utf8_app; [|reflexivity].
  repeat (apply utf8_app); auto using spaces_valid, rest_valid; try now apply text_valid.
  apply utf8_ascii. eapply number_ascii; eauto.
Qed.
Lemma parse_ksym_ok : forall e s, ksym_line e s ->
  parse_ksym (s ++ [10]) =
  if ke_addr e =? 0 then Ok None
  else let* tag := bpf_parse (ke_name e) in Ok (Some (Ksym (ke_addr e) (ke_name e) tag)).
Proof.
  intros e s H. destruct H as [addr name a typ rest s1 s2 Ha [Ht _] [Hn _] Hr S1 S2 Ba].
  unfold parse_ksym. rewrite words_lf_end. rewrite words_next by (auto; eapply hex_word; eauto).
  rewrite words_next by auto. destruct (rest_words name rest Hn Hr) as [l ->].
  rewrite (hex_ok two64 addr a Ha Ba). cbn [ke_addr ke_name]. unfold ksym_new.
  destruct (addr =? 0); auto. destruct (bpf_parse name); reflexivity.
Qed.

Definition entry (k : ksym) : kentry := KEntry (ks_addr k) (ks_name k).
Definition tag_right (k : ksym) : Prop := forall t, ks_tag k = Some t <-> bpf_name (ks_name k) t.
Lemma ksym_lines_ok : forall es ls, Forall2 ksym_line es ls -> Forall (fun e => plain (ke_name e)) (visible es) ->
  exists ks, ksym_lines (map (fun l => l ++ [10]) ls) = Ok ks /\ map entry ks = visible es /\ Forall tag_right ks.
Proof.
  intros es ls H. unfold visible. induction H as [|e s es ls He H IH]; intros Hp.
  - exists []. repeat split. constructor.
  - cbn [map ksym_lines]. rewrite (ksym_line_valid e s He), (parse_ksym_ok e s He). cbn [filter] in *.
    destruct (ke_addr e =? 0); cbn [negb] in *.
    + destruct (IH Hp) as (ks & -> & H1 & H2). exists ks. auto.
    + inversion Hp as [|? ? Hp1 Hp2]; subst. destruct (IH Hp2) as (ks & -> & H1 & H2).
      destruct (bpf_parse_plain (ke_name e) Hp1) as (o & -> & Ho). cbn [bind].
      exists (Ksym (ke_addr e) (ke_name e) o :: ks). split; [reflexivity|]. split.
      * cbn [map]. rewrite H1. unfold entry. cbn [ks_addr ks_name]. destruct e; reflexivity.
      * constructor; auto.
Qed.

(** All symbols with an address are there, sorted by address; those that share
    one in the order they are listed in. *)
Theorem C33_load : forall es t, kallsyms_text es t -> Forall (fun e => plain (ke_name e)) (visible es) ->
  exists ks, ksym_load t = Ok ks /\ StronglySorted (fun a b => ks_addr a <= ks_addr b) ks /\
    (forall a, map entry (filter (fun k => ks_addr k =? a) ks) = filter (fun e => ke_addr e =? a) (visible es)) /\
    Permutation (map entry ks) (visible es) /\ Forall tag_right ks.
Proof.
  intros es t H Hp. destruct (text_of_lines _ _ _ _ H ksym_line_lf) as (ls & Hls & Hr).
  destruct (ksym_lines_ok es ls Hls Hp) as (ks & E & Hm & Ht). exists (isort ks_leb ks).
  assert (Hs : sorted ks_leb (isort ks_leb ks)).
  { apply isort_sorted; intros; unfold ks_leb in *; rewrite ?N.leb_le in *; lia. }
  pose proof (isort_perm ks_leb ks) as Hperm.
  split; [unfold ksym_load; rewrite Hr, E; reflexivity|]. split.
  { clear - Hs. unfold sorted in Hs. induction Hs as [|x l Hs IH HF]; constructor; auto.
    eapply Forall_impl; [|exact HF]. intros y Hy. now apply N.leb_le. }
  split.
  { intros a. rewrite isort_stable.
    - rewrite <- Hm. clear. induction ks as [|k ks IH]; [reflexivity|]. cbn [filter map].
      change (ke_addr (entry k)) with (ks_addr k). destruct (ks_addr k =? a); cbn [map]; now rewrite IH.
    - intros k1 k2 H1 H2. apply N.eqb_eq in H1, H2. unfold ks_leb. apply N.leb_le. lia. }
  split; [rewrite <- Hm; apply Permutation_map; now apply Permutation_sym|].
  apply (Permutation_Forall Hperm). exact Ht.
Qed.
Print Assumptions C33_load.

Lemma run_first : forall (ks : list ksym) i k, StronglySorted (fun a b => ks_addr a <= ks_addr b) ks ->
  nth_error ks i = Some k -> first_of_run ks_addr ks i ->
  hd_error (filter (fun x => ks_addr x =? ks_addr k) ks) = Some k.
Proof.
  intros ks i k Hs Hk Hf. apply filter_hd. apply nth_error_split in Hk. destruct Hk as (l1 & l2 & -> & Hl).
  exists l1, l2. split; [reflexivity|]. split; [apply N.eqb_refl|]. apply Forall_forall. intros x Hx.
  apply In_nth_error in Hx. destruct Hx as [j Hj]. apply N.eqb_neq.
  assert (Hlt : (j < i)%nat) by (rewrite <- Hl; apply nth_error_Some; congruence).
  apply (Hf j k x Hlt).
  - rewrite nth_error_app2 by lia. rewrite Hl, Nat.sub_diag. reflexivity.
  - rewrite nth_error_app1 by lia. exact Hj.
Qed.
Lemma run_last : forall (ks : list ksym) i k, StronglySorted (fun a b => ks_addr a <= ks_addr b) ks ->
  nth_error ks i = Some k -> last_of_run ks_addr ks i ->
  hd_error (rev (filter (fun x => ks_addr x =? ks_addr k) ks)) = Some k.
Proof.
  intros ks i k Hs Hk Hf. apply filter_last. apply nth_error_split in Hk. destruct Hk as (l1 & l2 & -> & Hl).
  exists l1, l2. split; [reflexivity|]. split; [apply N.eqb_refl|]. apply Forall_forall. intros x Hx.
  apply In_nth_error in Hx. destruct Hx as [j Hj]. apply N.eqb_neq.
  apply (Hf (S (i + j)) k x ltac:(lia)).
  - rewrite nth_error_app2 by lia. rewrite Hl, Nat.sub_diag. reflexivity.
  - rewrite nth_error_app2 by lia. replace (S (i + j) - length l1)%nat with (S j) by lia. exact Hj.
Qed.
Lemma map_hd : forall A B (f : A -> B) l, hd_error (map f l) = option_map f (hd_error l).
Proof. intros A B f [|x l]; reflexivity. Qed.
Lemma eqb_Forall : forall (e : kentry) l, Forall (fun x => (ke_addr x =? ke_addr e) = false) l ->
  Forall (fun x => ke_addr x <> ke_addr e) l.
Proof. intros e l H. eapply Forall_impl; [|exact H]. intros x. apply N.eqb_neq. Qed.
Lemma in_visible : forall ks es e, Permutation (map entry ks) (visible es) -> In e (visible es) <-> exists k, In k ks /\ entry k = e.
Proof.
  intros ks es e Hp. split.
  - intros H. apply (Permutation_in e (Permutation_sym Hp)), in_map_iff in H. destruct H as (k & H1 & H2). eauto.
  - intros (k & H1 & <-). apply (Permutation_in _ Hp). now apply in_map.
Qed.

(** What is reported for a symbol *)
Definition reported (e : kentry) (addr : N) (find : (list N -> N -> res (option code_info)) -> find_opts -> find_result) : Prop :=
  (~ is_bpf (ke_name e) -> forall code opts,
     find code opts = Ok (inl (ResolvedSym (ke_name e) None (ke_addr e) None LangUnknown None []))) /\
  (forall t, bpf_name (ke_name e) t -> forall code,
     let sym ci := ResolvedSym (ke_name e) (Some (bs "[bpf]"%string)) (ke_addr e) None LangUnknown ci [] in
     find code Basic = Ok (inl (sym None)) /\
     forall opts, opts <> Basic ->
       (forall ci, code t addr = Ok ci -> find code opts = Ok (inl (sym ci))) /\
       (forall k, code t addr = Err k -> find code opts = Err k)).

(** The symbol reported is the one with the greatest start at or below the
    address; where several share that start it is the first one listed, unless
    theirs is the lowest address of all. *)
Theorem C33_found : forall es t ks addr, kallsyms_text es t -> Forall (fun e => plain (ke_name e)) (visible es) ->
  ksym_load t = Ok ks -> (exists x, In x (visible es) /\ ke_addr x <= addr) ->
  exists e, In e (visible es) /\ closest (visible es) e addr /\
    (ke_addr e = addr \/ (exists x, In x (visible es) /\ ke_addr x < ke_addr e) -> first_listed (visible es) e) /\
    (ke_addr e < addr -> (forall x, In x (visible es) -> ke_addr e <= ke_addr x) -> last_listed (visible es) e) /\
    reported e addr (fun code opts => ksym_find_sym code ks addr opts).
Proof.
  intros es t ks addr Ht Hpl Hl (x & Hx & Hxa).
  destruct (C33_load es t Ht Hpl) as (ks' & E & Hs & Hf & Hperm & Htag). rewrite Hl in E. injection E as <-.
  pose proof (StronglySorted_ksorted _ ks_addr ks Hs) as Hk.
  assert (Hfirst : forall i k, nth_error ks i = Some k -> first_of_run ks_addr ks i -> first_listed (visible es) (entry k)).
  { intros i k Hi Hr. pose proof (run_first ks i k Hs Hi Hr) as H. specialize (Hf (ks_addr k)).
    assert (H2 : hd_error (filter (fun e => ke_addr e =? ks_addr k) (visible es)) = Some (entry k)) by (rewrite <- Hf, map_hd, H; reflexivity).
    apply filter_hd in H2. destruct H2 as (l1 & l2 & H2 & _ & H3). exists l1, l2. split; auto. now apply eqb_Forall. }
  assert (Hlast : forall i k, nth_error ks i = Some k -> last_of_run ks_addr ks i -> last_listed (visible es) (entry k)).
  { intros i k Hi Hr. pose proof (run_last ks i k Hs Hi Hr) as H. specialize (Hf (ks_addr k)).
    assert (H2 : hd_error (rev (filter (fun e => ke_addr e =? ks_addr k) (visible es))) = Some (entry k)) by (rewrite <- Hf, <- map_rev, map_hd, H; reflexivity).
    apply filter_last in H2. destruct H2 as (l1 & l2 & H2 & _ & H3). exists l1, l2. split; auto. now apply eqb_Forall. }
  assert (Hrep : forall i k, find_match_or_lower_bound_by_key ks addr ks_addr = Some i -> nth_error ks i = Some k ->
    reported (entry k) addr (fun code opts => ksym_find_sym code ks addr opts)).
  { intros i k Hi Hn. assert (Hin := nth_error_In _ _ Hn). rewrite Forall_forall in Htag. specialize (Htag k Hin).
    unfold ksym_find_sym, find_ksym. rewrite Hi, Hn. unfold ksym_resolve. cbn [entry ke_addr ke_name]. split.
    - intros Hb code opts. destruct (ks_tag k) as [t0|] eqn:Et; [|reflexivity].
      exfalso. apply Hb. exists t0. now apply Htag.
    - intros t0 Hb code. rewrite (proj2 (Htag t0) Hb). cbv zeta. split; [reflexivity|]. intros opts Ho.
      assert (Hc : code_info_opt opts = true) by (destruct opts; [congruence|reflexivity..]). rewrite Hc. split.
      + intros ci ->. reflexivity.
      + intros k0 ->. reflexivity. }
  destruct (proj1 (in_visible ks es x Hperm) Hx) as (kx & Hkx & <-). cbn [entry ke_addr] in Hxa.
  destruct (flb_cases ks_addr ks addr Hk) as [[E Hn]|[(i & k & E & He & Hkx2 & Hr)|(i & k & E & He & Hlt & Hmax & Hr)]].
  - apply Hn in Hkx. lia.
  - exists (entry k). assert (Hin := nth_error_In _ _ He).
    split; [apply (in_visible ks es _ Hperm); eauto|]. split; [|split; [|split]].
    + split; cbn [entry ke_addr]; [lia|]. intros; lia.
    + intros _. now apply (Hfirst i).
    + cbn [entry ke_addr]. intros. lia.
    + now apply (Hrep i).
  - exists (entry k). assert (Hin := nth_error_In _ _ He).
    split; [apply (in_visible ks es _ Hperm); eauto|]. split; [|split; [|split]].
    + split; cbn [entry ke_addr]; [lia|]. intros y Hy Hya. apply (in_visible ks es y Hperm) in Hy.
      destruct Hy as (ky & Hy & <-). cbn [entry ke_addr] in *. now apply Hmax.
    + intros [Heq|(y & Hy & Hya)]; [cbn [entry ke_addr] in Heq; lia|].
      destruct Hr as [[_ Hr]|[(h & Hh & Eh) Hr]]; [now apply (Hfirst i)|].
      apply (in_visible ks es y Hperm) in Hy. destruct Hy as (ky & Hy & <-). cbn [entry ke_addr] in Hya.
      apply In_nth_error in Hy. destruct Hy as [j Hj].
      pose proof (Hk 0%nat j h ky ltac:(lia) Hh Hj). lia.
    + intros _ Hlow. destruct Hr as [[(h & Hh & Eh) _]|[_ Hr]]; [|now apply (Hlast i)].
      exfalso. assert (Hh' := nth_error_In _ _ Hh).
      pose proof (Hlow (entry h) (proj2 (in_visible ks es _ Hperm) (ex_intro _ h (conj Hh' eq_refl)))) as H1.
      pose proof (Hk 0%nat i h k ltac:(lia) Hh He). cbn [entry ke_addr] in H1. lia.
    + now apply (Hrep i).
Qed.
Print Assumptions C33_found.

Theorem C33_none : forall es t ks addr, kallsyms_text es t -> Forall (fun e => plain (ke_name e)) (visible es) ->
  ksym_load t = Ok ks -> (forall x, In x (visible es) -> addr < ke_addr x) ->
  forall code opts,
  (visible es = [] -> ksym_find_sym code ks addr opts = Ok (inr MissingSyms)) /\
  (visible es <> [] -> ksym_find_sym code ks addr opts = Ok (inr UnknownAddr)).
Proof.
  intros es t ks addr Ht Hpl Hl Hno code opts.
  destruct (C33_load es t Ht Hpl) as (ks' & E & Hs & Hf & Hperm & Htag). rewrite Hl in E. injection E as <-.
  pose proof (StronglySorted_ksorted _ ks_addr ks Hs) as Hk.
  assert (Hg : forall k, In k ks -> addr < ks_addr k).
  { intros k Hin. apply (Hno (entry k)), (in_visible ks es _ Hperm). eauto. }
  assert (Hn : find_match_or_lower_bound_by_key ks addr ks_addr = None).
  { destruct (flb_cases ks_addr ks addr Hk) as [[E _]|[(i & k & E & He & Hx & _)|(i & k & E & He & Hx & _)]]; auto;
      apply nth_error_In, Hg in He; lia. }
  unfold ksym_find_sym, find_ksym. rewrite Hn. split; intros Hv.
  - rewrite Hv in Hperm. apply Permutation_sym, Permutation_nil in Hperm. destruct ks; [reflexivity|discriminate].
  - destruct ks; [|reflexivity]. apply Permutation_nil in Hperm. congruence.
Qed.
Print Assumptions C33_none.

(** ** Symbols by name *)
Lemma name_leb_iff : forall a b, ks_name_leb a b = true <->
  bcmp (ks_name a) (ks_name b) = Lt \/ (ks_name a = ks_name b /\ ks_addr a <= ks_addr b).
Proof.
  intros a b. unfold ks_name_leb. destruct (bcmp (ks_name a) (ks_name b)) eqn:E.
  - apply bcmp_eq in E. rewrite N.leb_le. split; [auto|]. intros [H|H]; [discriminate|tauto].
  - split; auto.
  - split; [discriminate|]. intros [H|[H _]]; [discriminate|]. apply bcmp_eq in H. congruence.
Qed.
Lemma ks_names_sorted : forall ks, sorted ks_name_leb (isort ks_name_leb ks).
Proof.
  intros ks. apply isort_sorted.
  - intros a b. rewrite !name_leb_iff. rewrite (bcmp_antisym (ks_name a) (ks_name b)).
    destruct (bcmp (ks_name a) (ks_name b)) eqn:E; cbn [CompOpp]; auto.
    apply bcmp_eq in E. destruct (N.le_ge_cases (ks_addr a) (ks_addr b)); auto.
  - intros a b c. rewrite !name_leb_iff. intros [H1|[H1 H2]] [H3|[H3 H4]].
    + left. eapply bcmp_lt_trans; eauto.
    + rewrite <- H3. auto.
    + rewrite H1. auto.
    + right. split; [congruence|lia].
Qed.
Lemma perm_filter : forall A (p : A -> bool) l1 l2, Permutation l1 l2 -> Permutation (filter p l1) (filter p l2).
Proof.
  intros A p l1 l2 H. induction H as [|x l1 l2 H IH|x y l|l1 l2 l3 H1 IH1 H2 IH2]; cbn [filter].
  - constructor.
  - destruct (p x); auto.
  - destruct (p x), (p y); auto. constructor.
  - etransitivity; eauto.
Qed.
Lemma filter_none : forall A (p : A -> bool) l, (forall x, In x l -> p x = false) -> filter p l = [].
Proof.
  intros A p l. induction l as [|x l IH]; intros H; [reflexivity|]. cbn [filter].
  rewrite (H x) by now left. apply IH. intros. apply H. now right.
Qed.
Lemma filter_map : forall A B (f : A -> B) (p : B -> bool) l, filter p (map f l) = map f (filter (fun x => p (f x)) l).
Proof.
  intros A B f p l. induction l as [|x l IH]; [reflexivity|]. cbn [map filter]. rewrite IH. destruct (p (f x)); reflexivity.
Qed.
Lemma by_name_filter : forall ks name opts, fa_sym_type opts <> TVariable ->
  filter (fun i => beq (si_name i) name) (ksym_find_addr ks name opts) =
  map ksym_info (filter (fun k => beq (ks_name k) name) (isort ks_name_leb ks)).
Proof.
  intros ks name opts Ho.
  assert (E : ksym_find_addr ks name opts =
    match find_name_or_lower_bound (isort ks_name_leb ks) name ks_name with
    | Some i => map ksym_info (skipn i (isort ks_name_leb ks))
    | None => []
    end) by (unfold ksym_find_addr; destruct (fa_sym_type opts); congruence || reflexivity).
  rewrite E. clear E. set (idx := isort ks_name_leb ks).
  assert (Hs : name_sorted ks_name idx).
  { pose proof (ks_names_sorted ks) as H. fold idx in H. unfold sorted in H.
    induction H as [|x l H IH HF]; constructor; auto. eapply Forall_impl; [|exact HF].
    intros y Hy. apply name_leb_iff in Hy. destruct Hy as [->|[Hy _]]; [discriminate|].
    apply bcmp_eq in Hy. rewrite Hy. discriminate. }
  pose proof (find_name_spec _ ks_name idx name Hs) as H.
  pose proof (name_cmp_sorted ks_name idx name Hs) as Hc.
  assert (Hnone : find_lowest_match_by idx (fun e => bcmp (ks_name e) name) = None ->
    forall x, In x idx -> beq (ks_name x) name = false).
  { intros Hl x Hx. pose proof (find_lowest_match_by_none _ _ _ Hc Hl x Hx) as Hn.
    destruct (beq (ks_name x) name) eqn:E; auto. apply beq_eq in E. apply bcmp_eq in E. contradiction. }
  destruct (find_name_or_lower_bound idx name ks_name) as [i|].
  - rewrite filter_map. cbn [ksym_info si_name]. f_equal. destruct H as [H|[H _]].
    + destruct (find_lowest_match_by_some _ _ _ _ Hc H) as [_ Hlt].
      rewrite <- (firstn_skipn i idx) at 2. rewrite filter_app.
      rewrite (filter_none _ _ (firstn i idx)); [reflexivity|].
      intros x Hx. apply In_nth_error in Hx. destruct Hx as [j Hj].
      assert (Hji : (j < i)%nat).
      { assert (Hj2 : nth_error (firstn i idx) j <> None) by congruence. apply nth_error_Some in Hj2.
        rewrite firstn_length in Hj2. lia. }
      assert (Hj3 : nth_error idx j = Some x).
      { rewrite <- (firstn_skipn i idx). rewrite nth_error_app1; [exact Hj|]. apply nth_error_Some. congruence. }
      specialize (Hlt j x Hji Hj3). destruct (beq (ks_name x) name) eqn:E; auto.
      apply beq_eq, bcmp_eq in E. congruence.
    + rewrite !filter_none; auto. intros x Hx. apply in_skipn in Hx. now apply Hnone.
  - rewrite (filter_none _ _ idx); [reflexivity|]. now apply Hnone.
Qed.

(** Among the symbols reported for a name are all that have it, the one at the
    lowest address first. *)
Theorem C33_by_name : forall es t ks name opts, kallsyms_text es t -> Forall (fun e => plain (ke_name e)) (visible es) ->
  ksym_load t = Ok ks -> fa_sym_type opts <> TVariable ->
  let exact := filter (fun i => beq (si_name i) name) (ksym_find_addr ks name opts) in
  Permutation (map (fun i => KEntry (si_addr i) (si_name i)) exact) (filter (fun e => beq (ke_name e) name) (visible es)) /\
  StronglySorted (fun a b => si_addr a <= si_addr b) exact /\
  Forall (fun i => si_type i = TFunction /\ si_size i = None /\ si_file_offset i = None /\
    (si_module i = Some (bs "[bpf]"%string) <-> is_bpf (si_name i)) /\ (si_module i = None <-> ~ is_bpf (si_name i))) exact.
Proof.
  intros es t ks name opts Ht Hpl Hl Ho. cbv zeta.
  destruct (C33_load es t Ht Hpl) as (ks' & E & Hs & Hf & Hperm & Htag). rewrite Hl in E. injection E as <-.
  rewrite by_name_filter by auto. pose proof (isort_perm ks_name_leb ks) as Hp2.
  pose proof (ks_names_sorted ks) as Hsn. set (idx := isort ks_name_leb ks) in *. split; [|split].
  - rewrite map_map. cbn [ksym_info si_addr si_name]. change (fun x => KEntry (ks_addr x) (ks_name x)) with entry.
    rewrite <- (filter_map _ _ entry (fun e => beq (ke_name e) name)).
    apply Permutation_sym. etransitivity; [apply perm_filter; apply Permutation_sym, Hperm|].
    apply perm_filter, Permutation_map, Hp2.
  - clear - Hsn. unfold sorted in Hsn. induction Hsn as [|x l H IH HF]; cbn [filter map]; [constructor|].
    destruct (beq (ks_name x) name) eqn:E; auto. cbn [map]. constructor; auto.
    apply Forall_forall. intros i Hi. apply in_map_iff in Hi. destruct Hi as (y & <- & Hy).
    apply filter_In in Hy. destruct Hy as [Hy Ey]. rewrite Forall_forall in HF. apply HF, name_leb_iff in Hy.
    cbn [ksym_info si_addr]. apply beq_eq in E, Ey. destruct Hy as [Hy|[_ Hy]]; auto.
    rewrite E, Ey, bcmp_refl in Hy. discriminate.
  - apply Forall_forall. intros i Hi. apply in_map_iff in Hi. destruct Hi as (k & <- & Hk).
    apply filter_In in Hk. destruct Hk as [Hk _]. apply (Permutation_in k (Permutation_sym Hp2)) in Hk.
    rewrite Forall_forall in Htag. specialize (Htag k Hk). cbn [ksym_info si_type si_size si_file_offset si_module si_name].
    split; [reflexivity|]. split; [reflexivity|]. split; [reflexivity|].
    destruct (ks_tag k) as [t0|] eqn:Et.
    + assert (Hb : is_bpf (ks_name k)) by (exists t0; now apply Htag). split; split; auto; [discriminate|tauto].
    + assert (Hb : ~ is_bpf (ks_name k)) by (intros (t0 & H0); apply Htag in H0; congruence).
      split; split; auto; [discriminate|tauto].
Qed.
Print Assumptions C33_by_name.

(** ** Examples *)
Ltac ks_line a typ rest :=
  match goal with
  | |- ksym_line (KEntry _ ?n) ?s =>
      replace s with (a ++ [32] ++ typ ++ [32] ++ n ++ rest) by (vm_compute; reflexivity)
  end;
  apply (KsymLine _ _ a typ rest [32] [32]); check_mod.
Definition ex_kall : list N :=
  bs "0000000000000000 A fixed_percpu_data"%string ++ 10 ::
  bs "ffffffffc0279010 T fuse_dev_init	[fuse]"%string ++ 10 ::
  bs "ffffffff81000000 T _stext"%string ++ 10 ::
  bs "ffffffff81000000 T _text"%string ++ 10 ::
  bs "ffffffff81000f60 T do_one_initcall"%string ++ 10 ::
  bs "ffffffff81000f60 t alias"%string ++ 10 ::
  bs "ffffffffc003b960 t bpf_prog_7cc47bbf07148bfe_hid_tail_call	[bpf]"%string ++ 10 :: [].
Definition ex_kentries : list kentry :=
  [KEntry 0 (bs "fixed_percpu_data"%string); KEntry 0xffffffffc0279010 (bs "fuse_dev_init"%string);
   KEntry 0xffffffff81000000 (bs "_stext"%string); KEntry 0xffffffff81000000 (bs "_text"%string);
   KEntry 0xffffffff81000f60 (bs "do_one_initcall"%string); KEntry 0xffffffff81000f60 (bs "alias"%string);
   KEntry 0xffffffffc003b960 (bs "bpf_prog_7cc47bbf07148bfe_hid_tail_call"%string)].
Lemma ex_kall_ok : kallsyms_text ex_kentries ex_kall.
Proof.
  unfold ex_kentries, ex_kall.
  apply TextCons. { ks_line (bs "0000000000000000"%string) (bs "A"%string) (@nil N). }
  apply TextCons. { ks_line (bs "ffffffffc0279010"%string) (bs "T"%string) ([9] ++ bs "[fuse]"%string). }
  apply TextCons. { ks_line (bs "ffffffff81000000"%string) (bs "T"%string) (@nil N). }
  apply TextCons. { ks_line (bs "ffffffff81000000"%string) (bs "T"%string) (@nil N). }
  apply TextCons. { ks_line (bs "ffffffff81000f60"%string) (bs "T"%string) (@nil N). }
  apply TextCons. { ks_line (bs "ffffffff81000f60"%string) (bs "t"%string) (@nil N). }
  apply TextCons. { ks_line (bs "ffffffffc003b960"%string) (bs "t"%string) ([9] ++ bs "[bpf]"%string). }
  constructor.
Qed.
Lemma plain_check : forall l, forallb (fun e => forallb (fun c => (c <? 128) && negb (c =? 43)) (ke_name e)) l = true ->
  Forall (fun e => plain (ke_name e)) l.
Proof.
  intros l H. rewrite forallb_forall in H. apply Forall_forall. intros e He _. apply H in He.
  rewrite forallb_forall in He. split; apply Forall_forall; intros c Hc; apply He, andb_true_iff in Hc;
    destruct Hc as [H1 H2]; [now apply N.ltb_lt|now apply negb_true_iff, N.eqb_neq in H2].
Qed.
Definition ex_code (tag : list N) (addr : N) : res (option code_info) :=
  Ok (Some (CodeInfo None tag (Some addr) None)).
Definition names_of (r : find_result) : res (list N + reason) :=
  let* x := r in Ok (match x with inl s => inl (rs_name s) | inr r => inr r end).
Example C33_example :
  kallsyms_text ex_kentries ex_kall /\ Forall (fun e => plain (ke_name e)) (visible ex_kentries) /\
  exists ks, ksym_load ex_kall = Ok ks /\
    map (fun a => names_of (ksym_find_sym ex_code ks a Basic))
      [0xffffffff80ffffff; 0xffffffff81000000; 0xffffffff81000f60; 0xffffffff81000f61; 0xffffffffc0279011] =
    [Ok (inr UnknownAddr); Ok (inl (bs "_stext"%string)); Ok (inl (bs "do_one_initcall"%string));
     Ok (inl (bs "do_one_initcall"%string)); Ok (inl (bs "fuse_dev_init"%string))] /\
    ksym_find_sym ex_code ks 0xffffffffc003b970 WithCode =
      Ok (inl (ResolvedSym (bs "bpf_prog_7cc47bbf07148bfe_hid_tail_call"%string) (Some (bs "[bpf]"%string))
        0xffffffffc003b960 None LangUnknown
        (Some (CodeInfo None [0x7c; 0xc4; 0x7b; 0xbf; 0x07; 0x14; 0x8b; 0xfe] (Some 0xffffffffc003b970) None)) [])) /\
    map si_name (ksym_find_addr ks (bs "_stext"%string) (FindAddrOpts false TUndefined)) =
      [bs "_stext"%string; bs "_text"%string; bs "alias"%string; bs "bpf_prog_7cc47bbf07148bfe_hid_tail_call"%string;
       bs "do_one_initcall"%string; bs "fuse_dev_init"%string].
Proof.
  split; [exact ex_kall_ok|]. split; [apply plain_check; vm_compute; reflexivity|].
  eexists. split; [vm_compute; reflexivity|]. split; [vm_compute; reflexivity|]. split; vm_compute; reflexivity.
Qed.

(** Of two symbols that start at the lowest address, the one reported depends
    on the address within them; the same holds nowhere else. *)
Theorem C33_lowest_refuted : exists es t ks a b s1 s2 code,
  kallsyms_text es t /\ Forall (fun e => plain (ke_name e)) (visible es) /\ ksym_load t = Ok ks /\
  ksym_find_sym code ks a Basic = Ok (inl s1) /\ ksym_find_sym code ks b Basic = Ok (inl s2) /\
  rs_addr s1 = rs_addr s2 /\ rs_name s1 <> rs_name s2.
Proof.
  destruct C33_example as (H1 & H2 & ks & H3 & _).
  exists ex_kentries, ex_kall, ks, 0xffffffff81000000, 0xffffffff81000004,
    (ResolvedSym (bs "_stext"%string) None 0xffffffff81000000 None LangUnknown None []),
    (ResolvedSym (bs "_text"%string) None 0xffffffff81000000 None LangUnknown None []), ex_code.
  split; [exact H1|]. split; [exact H2|]. split; [exact H3|].
  assert (E : Ok ks = ksym_load ex_kall) by auto. vm_compute in E. injection E as ->.
  split; [vm_compute; reflexivity|]. split; [vm_compute; reflexivity|]. split; [reflexivity|]. vm_compute. discriminate.
Qed.
Print Assumptions C33_lowest_refuted.
Theorem C33_same : forall es t ks a b code s1 s2, kallsyms_text es t -> Forall (fun e => plain (ke_name e)) (visible es) ->
  ksym_load t = Ok ks -> ksym_find_sym code ks a Basic = Ok (inl s1) -> ksym_find_sym code ks b Basic = Ok (inl s2) ->
  rs_addr s1 = rs_addr s2 -> (exists x, In x (visible es) /\ ke_addr x < rs_addr s1) -> rs_name s1 = rs_name s2.
Proof.
  intros es t ks a b code s1 s2 Ht Hp Hl H1 H2 E (x & Hx & Hlt).
  assert (Hsome : forall c s, ksym_find_sym code ks c Basic = Ok (inl s) ->
    exists e, In e (visible es) /\ rs_name s = ke_name e /\ rs_addr s = ke_addr e /\
      ((exists x, In x (visible es) /\ ke_addr x < ke_addr e) -> first_listed (visible es) e)).
  { intros c s H.
    assert (Hx0 : (exists x, In x (visible es) /\ ke_addr x <= c) \/ forall x, In x (visible es) -> c < ke_addr x).
    { clear. induction (visible es) as [|y l [(z & Hz & Hzc)|IH]]; [right; intros ? []|left; exists z; split; [now right|auto]|].
      destruct (N.le_gt_cases (ke_addr y) c); [left; exists y; split; [now left|auto]|].
      right. intros z [<-|Hz]; auto. }
    destruct Hx0 as [Hx0|Hx0].
    - destruct (C33_found es t ks c Ht Hp Hl Hx0) as (e & He & _ & Hf & _ & Hr1 & Hr2). exists e. split; auto.
      assert (Hs : rs_name s = ke_name e /\ rs_addr s = ke_addr e).
      { rewrite Forall_forall in Hp. destruct (bpf_parse_plain _ (Hp e He)) as ([t0|] & _ & Ho).
        - destruct (Hr2 t0 (proj1 (Ho t0) eq_refl) code) as [Hr _]. rewrite H in Hr. injection Hr as ->. auto.
        - assert (Hn : ~ is_bpf (ke_name e)) by (intros (t0 & Hb); apply Ho in Hb; discriminate).
          specialize (Hr1 Hn code Basic). rewrite H in Hr1. injection Hr1 as ->. auto. }
      destruct Hs as [-> ->]. auto.
    - exfalso. destruct (C33_none es t ks c Ht Hp Hl Hx0 code Basic) as [Hn1 Hn2].
      destruct (visible es); [rewrite Hn1 in H by auto|rewrite Hn2 in H by discriminate]; discriminate. }
  destruct (Hsome a s1 H1) as (e1 & He1 & N1 & A1 & F1), (Hsome b s2 H2) as (e2 & He2 & N2 & A2 & F2).
  destruct F1 as (l1 & r1 & E1 & F1); [exists x; split; auto; lia|].
  destruct F2 as (l2 & r2 & E2 & F2); [exists x; split; auto; lia|].
  rewrite N1, N2. f_equal. rewrite E1 in E2.
  assert (Hu : forall l1 l2 r1 r2, l1 ++ e1 :: r1 = l2 ++ e2 :: r2 ->
    Forall (fun x => ke_addr x <> ke_addr e1) l1 -> Forall (fun x => ke_addr x <> ke_addr e2) l2 -> e1 = e2).
  { clear - E A1 A2. assert (Ee : ke_addr e1 = ke_addr e2) by congruence. induction l1 as [|y l1 IH]; intros [|z l2] r1 r2 H Hf1 Hf2.
    - now injection H.
    - injection H as <- _. inversion Hf2; congruence.
    - injection H as -> _. inversion Hf1; congruence.
    - injection H as -> H. inversion Hf1; inversion Hf2; subst. eapply IH; eauto. }
  eapply Hu; eauto.
Qed.
Print Assumptions C33_same.

(** ** C59: names and iteration *)

(** What is known about a symbol *)
Definition info_right (e : kentry) (i : sym_info) : Prop :=
  si_name i = ke_name e /\ si_addr i = ke_addr e /\ si_size i = None /\ si_type i = TFunction /\ si_file_offset i = None /\
  (is_bpf (ke_name e) -> si_module i = Some (bs "[bpf]"%string)) /\ (~ is_bpf (ke_name e) -> si_module i = None).
Lemma ksym_info_right : forall k, tag_right k -> info_right (entry k) (ksym_info k).
Proof.
  intros k Ht. unfold info_right. cbn [entry ke_name ke_addr ksym_info si_name si_addr si_size si_type si_file_offset si_module].
  repeat (split; [reflexivity|]). split.
  - intros (t & H). apply Ht in H. now rewrite H.
  - intros Hn. destruct (ks_tag k) as [t|] eqn:E; [|reflexivity]. exfalso. apply Hn. exists t. now apply Ht.
Qed.
(** Iteration goes over the symbols by their address, those at one address in the
    order listed, until it is told to stop. *)
Theorem C59_for_each : forall es t ks opts, kallsyms_text es t -> Forall (fun e => plain (ke_name e)) (visible es) ->
  ksym_load t = Ok ks -> fa_sym_type opts <> TVariable ->
  exists l, Permutation l (visible es) /\ StronglySorted (fun a b => ke_addr a <= ke_addr b) l /\
    (forall a, filter (fun e => ke_addr e =? a) l = filter (fun e => ke_addr e =? a) (visible es)) /\
    exists is, Forall2 info_right l is /\
      forall S (f : for_each_fn S) s, ksym_for_each ks opts f s = ElfSpec.visit f is s.
Proof.
  intros es t ks opts Ht Hpl Hl Ho. destruct (C33_load es t Ht Hpl) as (ks' & E & Hs & Hf & Hperm & Htag).
  rewrite Hl in E. injection E as <-. exists (map entry ks). split; [exact Hperm|]. split; [|split].
  - clear - Hs. induction Hs as [|k l Hs IH HF]; cbn [map]; constructor; auto. apply Forall_forall. intros e He.
    apply in_map_iff in He. destruct He as (k2 & <- & Hk). rewrite Forall_forall in HF. exact (HF k2 Hk).
  - intros a. rewrite <- Hf. clear. induction ks as [|k l IH]; [reflexivity|]. cbn [map filter entry ke_addr].
    destruct (ks_addr k =? a); cbn [map]; now rewrite IH.
  - exists (map ksym_info ks). split.
    + clear - Htag. induction Htag as [|k l Hk H IH]; cbn [map]; constructor; auto. now apply ksym_info_right.
    + intros S f s. unfold ksym_for_each. destruct (fa_sym_type opts); try congruence; revert s; clear; induction ks as [|k l IH];
        intros s; cbn [ksym_for_each_loop map ElfSpec.visit]; auto; destruct (f s (ksym_info k)) as [s' []]; cbn [fst snd]; auto.
Qed.
Print Assumptions C59_for_each.
(** Kernel symbols are functions: there are no variables. *)
Theorem C59_variables : forall ks opts, fa_sym_type opts = TVariable ->
  (forall name, ksym_find_addr ks name opts = []) /\ (forall S (f : for_each_fn S) s, ksym_for_each ks opts f s = s).
Proof. intros ks opts H. unfold ksym_find_addr, ksym_for_each. rewrite H. auto. Qed.
Print Assumptions C59_variables.
(** Looking up a name also gives symbols of other names: all those after it. *)
Theorem C59_others_refuted : exists es t ks name opts i,
  kallsyms_text es t /\ Forall (fun e => plain (ke_name e)) (visible es) /\ ksym_load t = Ok ks /\
  In i (ksym_find_addr ks name opts) /\ si_name i <> name /\ (exists e, In e (visible es) /\ ke_name e = name).
Proof.
  destruct C33_example as (H1 & H2 & ks & H3 & _).
  exists ex_kentries, ex_kall, ks, (bs "do_one_initcall"%string), (FindAddrOpts false TFunction).
  exists (SymInfo (bs "fuse_dev_init"%string) 0xffffffffc0279010 None TFunction None None).
  split; [exact H1|]. split; [exact H2|]. split; [exact H3|].
  assert (E : Ok ks = ksym_load ex_kall) by auto. vm_compute in E. injection E as ->.
  split; [vm_compute; auto|]. split; [vm_compute; discriminate|].
  exists (KEntry 0xffffffff81000f60 (bs "do_one_initcall"%string)). split; [vm_compute; auto 10|reflexivity].
Qed.
Print Assumptions C59_others_refuted.
