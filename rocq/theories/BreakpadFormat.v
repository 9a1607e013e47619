(** * The Breakpad parser against the text format *)

From Coq Require Import String.
From Verif Require Import Base Util UtilProofs Amap Text Sym Nom Breakpad BreakpadSpec.
Local Open Scope N_scope.

(** ** Tokens *)
Lemma span_app : forall f a r, Forall (fun b => f b = true) a ->
  match r with [] => True | b :: _ => f b = false end -> span f (a ++ r) = (a, r).
Proof.
  intros f a r Ha Hr. induction Ha as [|b a Hb Ha IH]; cbn [app span].
  - destruct r as [|b r]; [reflexivity|]. cbn [span]. now rewrite Hr.
  - now rewrite Hb, IH.
Qed.
Lemma blank_spec : forall b, is_space b = true <-> blank b.
Proof. intros. unfold is_space, blank. rewrite orb_true_iff, !N.eqb_eq. tauto. Qed.
Lemma white_spec : forall b, is_multispace b = true <-> white b.
Proof. intros. unfold is_multispace, is_space, white. rewrite !orb_true_iff, !N.eqb_eq. tauto. Qed.
Definition not_blank (r : list N) : Prop := match r with [] => True | b :: _ => is_space b = false end.
Lemma starts_black_spec : forall s, starts_black s -> not_blank s.
Proof.
  intros [|b s]; cbn; auto. intros H. destruct (is_space b) eqn:E; auto. now apply blank_spec in E.
Qed.
Lemma space1_sep : forall s r, sep s -> not_blank r -> space1 (s ++ r) = POk r tt.
Proof.
  intros s r (t & -> & Ht) Hr. unfold space1. rewrite span_app; auto.
  constructor; auto. eapply Forall_impl; [|exact Ht]. intros. now apply blank_spec.
Qed.
Lemma space1_none : forall r, not_blank r -> space1 r = PErr.
Proof. intros [|b r]; unfold space1; cbn; auto. intros ->. reflexivity. Qed.

Lemma strip_app : forall t r, strip_prefix t (t ++ r) = Some r.
Proof. induction t as [|b t IH]; intros; cbn [app strip_prefix]; auto. now rewrite N.eqb_refl. Qed.
Lemma keyword_sep : forall k s r, sep s -> not_blank r -> keyword k (k ++ s ++ r) = POk r tt.
Proof.
  intros. unfold keyword, terminated, tag. rewrite strip_app. cbn [pbind].
  now rewrite space1_sep.
Qed.

Lemma eol_spec : forall e r, eol e -> my_eol (e ++ r) = POk r tt.
Proof.
  intros e r [k ->]. unfold my_eol, take_while. rewrite <- app_assoc.
  rewrite span_app; [|now apply Forall_forall; intros x Hx; apply repeat_spec in Hx; subst|reflexivity].
  reflexivity.
Qed.
(** The first byte of an end of line. *)
Lemma eol_head : forall e, eol e -> exists b e', e = b :: e' /\ (b = 13 \/ b = 10).
Proof.
  intros e [[|k] ->]; cbn [repeat app]; eexists _, _; split; try reflexivity; auto.
Qed.
Lemma line_text : forall t e r, Forall line_char t -> eol e -> not_my_eol (t ++ e ++ r) = POk (e ++ r) t.
Proof.
  intros t e r Ht He. unfold not_my_eol, take_while. rewrite span_app; auto.
  - eapply Forall_impl; [|exact Ht]. intros b [H1 H2].
    apply N.eqb_neq in H1, H2. now rewrite H1, H2.
  - destruct (eol_head e He) as (b & e' & -> & [-> | ->]); reflexivity.
Qed.
Lemma line_end : forall t e r, Forall line_char t -> eol e -> terminated not_my_eol my_eol (t ++ e ++ r) = POk r t.
Proof.
  intros. unfold terminated. rewrite line_text by auto. cbn [pbind].
  rewrite eol_spec by auto. reflexivity.
Qed.
Lemma rest_of_line_spec : forall n e r, name_text n -> eol e -> rest_of_line (n ++ e ++ r) = POk r n.
Proof.
  intros n e r (Hl & _ & Hu) He. unfold rest_of_line, terminated, pcheck.
  rewrite line_text by auto. cbn [pbind]. rewrite (proj2 (utf8_valid_iff n) Hu). cbn [pbind].
  rewrite eol_spec by auto. reflexivity.
Qed.

Lemma digits_spec : forall dig base max s ds r acc k,
  Forall2 (fun c d => dig c = Some d) s ds -> (length s <= max)%nat ->
  match r with [] => True | b :: _ => dig b = None end ->
  digits dig base max acc k (s ++ r) = (fold_left (fun a d => a * base + d) ds acc, (k + length s)%nat, r).
Proof.
  intros dig base. induction max as [|max IH]; intros s ds r acc k HF Hl Hr.
  - destruct HF; [|simpl in Hl; lia]. cbn. rewrite Nat.add_0_r. reflexivity.
  - destruct HF as [|c d s ds Hc HF].
    + cbn [app]. destruct r as [|b r]; cbn [digits fold_left length]; rewrite Nat.add_0_r; auto.
      now rewrite Hr.
    + cbn [app digits fold_left]. rewrite Hc, (IH s ds); auto; [|simpl in Hl; lia].
      f_equal. f_equal. simpl. lia.
Qed.
Lemma hex_char_spec : forall c d, hex_char c d -> to_digit16 c = Some d.
Proof.
  intros c d [[H ->]|[[H ->]|[H ->]]]; unfold to_digit16;
  repeat match goal with |- context [N.leb ?a ?b] => destruct (N.leb_spec a b); cbn [andb]; try lia end; auto.
Qed.
Lemma dec_char_spec : forall c d, dec_char c d -> to_digit10 c = Some d.
Proof.
  intros c d [H ->]; unfold to_digit10;
  repeat match goal with |- context [N.leb ?a ?b] => destruct (N.leb_spec a b); cbn [andb]; try lia end; auto.
Qed.
Definition not_digit (r : list N) : Prop := match r with [] => True | b :: _ => to_digit16 b = None end.
Lemma not_digit10 : forall r, not_digit r -> match r with [] => True | b :: _ => to_digit10 b = None end.
Proof.
  intros [|b r]; cbn; auto. unfold to_digit16, to_digit10. destruct ((48 <=? b) && (b <=? 57)); auto.
Qed.
Lemma hex_spec : forall max v s r, number hex_char 16 max v s -> not_digit r ->
  hex_str max (s ++ r) = POk r v.
Proof.
  intros max v s r (ds & HF & Hl & ->) Hr. unfold hex_str.
  rewrite (digits_spec _ _ _ s ds r); auto; [|eapply Forall2_impl; [|exact HF]; apply hex_char_spec|lia].
  destruct s; [simpl in Hl; lia|]. reflexivity.
Qed.
Lemma dec_spec : forall v s r, dec_text v s -> not_digit r -> decimal_u32 (s ++ r) = POk r v.
Proof.
  intros v s r ((ds & HF & Hl & ->) & Hv) Hr. unfold decimal_u32.
  rewrite (digits_spec _ _ _ s ds r); auto; [|eapply Forall2_impl; [|exact HF]; apply dec_char_spec|lia|now apply not_digit10].
  destruct s; [simpl in Hl; lia|]. cbn [Nat.add length].
  destruct (N.ltb_spec (fold_left (fun a d : N => a * 10 + d) ds 0) two32); [reflexivity|].
  unfold two32 in *. lia.
Qed.
Lemma sep_head : forall s r, sep s -> not_digit (s ++ r).
Proof. intros s r (t & -> & _). reflexivity. Qed.
Lemma eol_digit : forall e r, eol e -> not_digit (e ++ r).
Proof. intros e r He. destruct (eol_head e He) as (b & e' & -> & [-> | ->]); reflexivity. Qed.
Lemma eol_blank : forall e r, eol e -> not_blank (e ++ r).
Proof. intros e r He. destruct (eol_head e He) as (b & e' & -> & [-> | ->]); reflexivity. Qed.
Lemma name_blank : forall n e r, starts_black n -> eol e -> not_blank (n ++ e ++ r).
Proof.
  intros [|b n] e r H He; [now apply (eol_blank e r)|]. now apply starts_black_spec in H.
Qed.
Lemma number_head : forall (chr : N -> N -> Prop) base max v s, number chr base max v s ->
  exists c s' d, s = c :: s' /\ chr c d.
Proof.
  intros chr base max v s (ds & HF & Hl & _). destruct HF; [simpl in Hl; lia|]. eauto.
Qed.
Lemma hex_char_range : forall c d, hex_char c d -> 48 <= c <= 57 \/ 65 <= c <= 70 \/ 97 <= c <= 102.
Proof. intros c d [|[|]]; lia. Qed.
Lemma number_blank_hex : forall max v s r, number hex_char 16 max v s -> not_blank (s ++ r).
Proof.
  intros max v s r H. apply number_head in H. destruct H as (c & s' & d & -> & Hc).
  apply hex_char_range in Hc. cbn. unfold is_space.
  destruct (N.eqb_spec c 32); [lia|]. destruct (N.eqb_spec c 9); [lia|]. reflexivity.
Qed.
Lemma number_blank_dec : forall v s r, dec_text v s -> not_blank (s ++ r).
Proof.
  intros v s r [H _]. apply number_head in H. destruct H as (c & s' & d & -> & [Hc _]). cbn. unfold is_space.
  destruct (N.eqb_spec c 32); [lia|]. destruct (N.eqb_spec c 9); [lia|]. reflexivity.
Qed.

Lemma hex64_sep : forall v s t r, hex64_text v s -> sep t -> not_blank r ->
  terminated hex64 space1 (s ++ t ++ r) = POk r v.
Proof.
  intros. unfold terminated, hex64. rewrite (hex_spec 16 v); auto using sep_head. cbn [pbind].
  now rewrite space1_sep.
Qed.
Lemma hex32_sep : forall v s t r, hex32_text v s -> sep t -> not_blank r ->
  terminated hex32 space1 (s ++ t ++ r) = POk r v.
Proof.
  intros. unfold terminated, hex32. rewrite (hex_spec 8 v); auto using sep_head. cbn [pbind].
  now rewrite space1_sep.
Qed.
Lemma dec_sep : forall v s t r, dec_text v s -> sep t -> not_blank r ->
  terminated decimal_u32 space1 (s ++ t ++ r) = POk r v.
Proof.
  intros. unfold terminated. rewrite (dec_spec v); auto using sep_head. cbn [pbind].
  now rewrite space1_sep.
Qed.
Lemma word_sep : forall w t r, word w -> sep t -> not_blank r ->
  terminated non_space space1 (w ++ t ++ r) = POk r w.
Proof.
  intros w t r (_ & _ & Hw) Ht Hr. unfold terminated, non_space, take_while.
  rewrite span_app.
  - cbn [pbind]. now rewrite space1_sep.
  - eapply Forall_impl; [|exact Hw]. intros b Hb. apply N.eqb_neq in Hb. now rewrite Hb.
  - destruct Ht as (t' & -> & _). reflexivity.
Qed.
Lemma word_blank : forall w r, word w -> not_blank (w ++ r).
Proof. intros [|b w] r (Hn & Hb & _); [easy|]. now apply starts_black_spec in Hb. Qed.

#[global] Hint Resolve number_blank_hex number_blank_dec word_blank name_blank eol_blank eol_digit sep_head : tok.
Ltac tok := eauto with tok.

(** ** Records *)
Lemma info_spec : forall k t s e r, sep s -> eol e -> Forall line_char t ->
  ignored k (k ++ s ++ t ++ e ++ r) = POk r tt.
Proof.
  intros k t s e r Hs He Ht. unfold ignored.
  assert (Hsp : exists t', Forall line_char t' /\ keyword k (k ++ s ++ t ++ e ++ r) = POk (t' ++ e ++ r) tt).
  { unfold keyword, terminated, tag. rewrite strip_app. cbn [pbind].
    destruct Hs as (sp & -> & Hsp). exists (snd (span is_space t)).
    assert (Hspan : forall t, Forall line_char t -> Forall line_char (snd (span is_space t)) /\
      snd (span is_space (sp ++ t ++ e ++ r)) = snd (span is_space t) ++ e ++ r).
    { clear t Ht. intros t Ht.
      assert (H1 : snd (span is_space (t ++ e ++ r)) = snd (span is_space t) ++ e ++ r /\ Forall line_char (snd (span is_space t))).
      { induction Ht as [|b t Hb Ht IH].
        - split; [|constructor]. pose proof (eol_blank e r He) as Hbl. cbn [app].
          pose proof (span_app is_space [] (e ++ r) (Forall_nil _) Hbl) as E. cbn [app] in E. now rewrite E.
        - cbn [app span]. destruct (is_space b) eqn:Eb; [|split; [reflexivity|now constructor]].
          destruct (span is_space (t ++ e ++ r)) as [p q] eqn:E1. destruct (span is_space t) as [p' q'] eqn:E2.
          cbn [snd] in *. exact IH. }
      destruct H1 as [H1 H2]. split; auto. rewrite <- H1.
      clear -Hsp. induction Hsp as [|b sp Hb Hsp IH]; auto. cbn [app span].
      rewrite (proj2 (blank_spec b) Hb). destruct (span is_space (sp ++ t ++ e ++ r)); auto. }
    destruct (Hspan t Ht) as [H1 H2]. split; auto. unfold space1. cbn [app span].
    change (is_space 32) with true. cbn iota.
    destruct (span is_space (sp ++ t ++ e ++ r)) as [p q]. cbn [snd] in H2. subst q. reflexivity. }
  destruct Hsp as (t' & Ht' & ->). cbn [pbind]. unfold pmap, cut.
  now rewrite line_end.
Qed.

Lemma multispace_skip : forall w r, Forall white w ->
  match r with [] => True | b :: _ => ~ white b end -> multispace0 (w ++ r) = POk r tt.
Proof.
  intros w r Hw Hr. unfold multispace0. rewrite span_app; [reflexivity| |].
  - eapply Forall_impl; [|exact Hw]. intros. now apply white_spec.
  - destruct r as [|b r]; auto. destruct (is_multispace b) eqn:E; auto. now apply white_spec in E.
Qed.

Lemma numbered_spec : forall k id name s1 d s2 e r, sep s1 -> sep s2 -> eol e -> dec_text id d ->
  name_text name -> numbered k (k ++ s1 ++ d ++ s2 ++ name ++ e ++ r) = POk r (id, name).
Proof.
  intros k id name s1 d s2 e r H1 H2 He Hd Hn. unfold numbered.
  rewrite keyword_sep by tok. cbn [pbind]. unfold cut.
  rewrite (dec_sep id) by (first [assumption | apply name_blank; [apply Hn|assumption]]). cbn [pbind].
  now rewrite rest_of_line_spec.
Qed.

(** "m" *)
Lemma multi_spec : forall m mt a v r, multi m mt -> hex64_text v a ->
  exists o, popt (keyword (bs "m")) (mt ++ a ++ r) = POk (a ++ r) o.
Proof.
  intros m mt a v r Hm Ha. unfold popt. destruct m; cbn [multi] in Hm.
  - destruct Hm as (t & Ht & ->). rewrite <- app_assoc.
    rewrite keyword_sep; [|auto|eapply number_blank_hex; exact Ha]. eauto.
  - subst mt. cbn [app].
    assert (E : keyword (bs "m") (a ++ r) = PErr).
    { apply number_head in Ha. destruct Ha as (c & s' & d & -> & Hc). apply hex_char_range in Hc.
      change (bs "m") with [109]. cbn [app]. unfold keyword, terminated, tag, strip_prefix.
      destruct (N.eqb_spec 109 c); [lia|]. reflexivity. }
    rewrite E. eauto.
Qed.
Lemma multi_blank : forall m mt a v r, multi m mt -> hex64_text v a -> not_blank (mt ++ a ++ r).
Proof.
  intros m mt a v r Hm Ha. destruct m; cbn [multi] in Hm.
  - destruct Hm as (t & Ht & ->). reflexivity.
  - subst mt. cbn [app]. eapply number_blank_hex; exact Ha.
Qed.

Lemma func_spec : forall m addr size param name s1 mt a s2 z s3 p s4 e r,
  sep s1 -> multi m mt -> hex64_text addr a -> sep s2 -> hex32_text size z -> sep s3 ->
  hex32_text param p -> sep s4 -> name_text name -> eol e ->
  func_line (bs "FUNC" ++ s1 ++ mt ++ a ++ s2 ++ z ++ s3 ++ p ++ s4 ++ name ++ e ++ r)
    = POk r (Func addr size name [] []).
Proof.
  intros m addr size param name s1 mt a s2 z s3 p s4 e r H1 Hm Ha H2 Hz H3 Hp H4 Hn He.
  unfold func_line.
  rewrite keyword_sep; [|auto|eapply multi_blank; eauto]. cbn [pbind]. unfold cut.
  destruct (multi_spec m mt a addr (s2 ++ z ++ s3 ++ p ++ s4 ++ name ++ e ++ r) Hm Ha) as [o ->].
  cbn [pbind]. rewrite (hex64_sep addr); [|auto|auto|eapply number_blank_hex; exact Hz]. cbn [pbind].
  rewrite (hex32_sep size); [|auto|auto|eapply number_blank_hex; exact Hp]. cbn [pbind].
  rewrite (hex32_sep param); [|auto|auto|apply name_blank; [apply Hn|auto]]. cbn [pbind].
  rewrite rest_of_line_spec; auto.
Qed.
Lemma public_spec : forall m addr param name s1 mt a s2 p s3 e r,
  sep s1 -> multi m mt -> hex64_text addr a -> sep s2 -> hex32_text param p -> sep s3 ->
  name_text name -> eol e ->
  public_line (bs "PUBLIC" ++ s1 ++ mt ++ a ++ s2 ++ p ++ s3 ++ name ++ e ++ r) = POk r tt.
Proof.
  intros m addr param name s1 mt a s2 p s4 e r H1 Hm Ha H2 Hp H4 Hn He.
  unfold public_line.
  rewrite keyword_sep; [|auto|eapply multi_blank; eauto]. cbn [pbind]. unfold cut.
  destruct (multi_spec m mt a addr (s2 ++ p ++ s4 ++ name ++ e ++ r) Hm Ha) as [o ->].
  cbn [pbind]. rewrite (hex64_sep addr); [|auto|auto|eapply number_blank_hex; exact Hp]. cbn [pbind].
  rewrite (hex32_sep param); [|auto|auto|apply name_blank; [apply Hn|auto]]. cbn [pbind].
  rewrite rest_of_line_spec; auto.
Qed.
Lemma module_spec : forall os cpu id name s1 s2 s3 s4 e r,
  sep s1 -> sep s2 -> sep s3 -> sep s4 -> eol e -> word os -> word cpu -> word id ->
  Forall line_char name -> starts_black name ->
  module_line (bs "MODULE" ++ s1 ++ os ++ s2 ++ cpu ++ s3 ++ id ++ s4 ++ name ++ e ++ r) = POk r name.
Proof.
  intros os cpu id name s1 s2 s3 s4 e r H1 H2 H3 H4 He Ho Hc Hi Hn Hb.
  unfold module_line. rewrite keyword_sep by tok. cbn [pbind]. unfold cut.
  rewrite word_sep by tok. cbn [pbind]. rewrite word_sep by tok. cbn [pbind].
  rewrite word_sep by tok. cbn [pbind]. rewrite line_end by auto. reflexivity.
Qed.
Lemma data_spec : forall addr size line file a s1 z s2 l s3 f e r,
  hex64_text addr a -> sep s1 -> hex32_text size z -> sep s2 -> dec_text line l -> sep s3 ->
  dec_text file f -> eol e ->
  func_line_data (a ++ s1 ++ z ++ s2 ++ l ++ s3 ++ f ++ e ++ r) = POk r (SourceLine addr size file line).
Proof.
  intros addr size line file a s1 z s2 l s3 f e r Ha H1 Hz H2 Hl H3 Hf He. unfold func_line_data.
  rewrite (hex64_sep addr); [|auto|auto|eapply number_blank_hex; exact Hz]. cbn [pbind].
  rewrite (hex32_sep size); [|auto|auto|eapply number_blank_dec; exact Hl]. cbn [pbind].
  rewrite (dec_sep line); [|auto|auto|eapply number_blank_dec; exact Hf]. cbn [pbind].
  unfold terminated. rewrite (dec_spec file) by tok. cbn [pbind]. rewrite eol_spec by auto. reflexivity.
Qed.

Lemma range_spec : forall a s b1 b2 b3 r, hex64_text a b1 -> sep b2 -> hex32_text s b3 -> not_digit r ->
  inline_address_range (b1 ++ b2 ++ b3 ++ r) = POk r (a, s).
Proof.
  intros a s b1 b2 b3 r H1 H2 H3 Hr. unfold inline_address_range.
  rewrite (hex64_sep a); [|auto|auto|eapply number_blank_hex; exact H3]. cbn [pbind].
  unfold hex32. rewrite (hex_spec 8 s) by auto. reflexivity.
Qed.
Lemma ranges_blank : forall l b r, enc_ranges l b -> not_blank (b ++ r).
Proof. intros l b r [a s b1 b2 b3 H1 H2 H3 | a s l' b1 b2 b3 b4 b5 H1 H2 H3 H4 H5]; rewrite <- app_assoc;
  eapply number_blank_hex; exact H1. Qed.
Lemma ranges_spec : forall e r l b, enc_ranges l b -> eol e ->
  exists x xs i, l = x :: xs /\ inline_address_range (b ++ e ++ r) = POk i x /\
    forall fuel, (length i < fuel)%nat -> sep_rest fuel space1 inline_address_range i = POk (e ++ r) xs.
Proof.
  intros e r l b H He. induction H as [a s b1 b2 b3 H1 H2 H3 | a s l b1 b2 b3 b4 b5 H1 H2 H3 H4 H5 IH].
  - exists (a, s), [], (e ++ r). split; auto. split.
    + rewrite <- !app_assoc. apply range_spec; tok.
    + intros [|fuel] Hf; [lia|]. cbn [sep_rest]. rewrite space1_none by tok. reflexivity.
  - destruct IH as (x & xs & i & -> & E & Hs). exists (a, s), (x :: xs), (b4 ++ b5 ++ e ++ r).
    split; auto. split.
    + rewrite <- !app_assoc. apply range_spec; tok.
    + intros [|fuel] Hf; [lia|]. cbn [sep_rest].
      rewrite space1_sep by (auto; eapply ranges_blank; eauto). cbn iota. rewrite E.
      rewrite Hs; [reflexivity|].
      assert (Hlt : (length i <= length (b5 ++ e ++ r))%nat).
      { clear -H5 E He. revert E.
        inversion H5 as [a' s' c1 c2 c3 K1 K2 K3|a' s' ? c1 c2 c3 c4 c5 K1 K2 K3 K4 K5]; subst; rewrite <- !app_assoc;
        (rewrite (range_spec a' s') by tok); intros E; injection E as <-; subst; rewrite !app_length; lia. }
      destruct H4 as (t & -> & _). rewrite app_length in Hf. simpl in Hf. lia.
Qed.
Lemma inline_spec : forall depth cl cf origin ranges s1 d s2 l s3 f s4 o s5 rb e r,
  sep s1 -> dec_text depth d -> sep s2 -> dec_text cl l -> sep s3 -> dec_text cf f -> sep s4 ->
  dec_text origin o -> sep s5 -> enc_ranges ranges rb -> eol e ->
  inline_line (bs "INLINE" ++ s1 ++ d ++ s2 ++ l ++ s3 ++ f ++ s4 ++ o ++ s5 ++ rb ++ e ++ r)
   = POk r (map (fun '(a, s) => Inlinee depth a s cf cl origin) ranges).
Proof.
  intros depth cl cf origin ranges s1 d s2 l s3 f s4 o s5 rb e r H1 Hd H2 Hl H3 Hf H4 Ho H5 Hr He.
  unfold inline_line. rewrite keyword_sep by tok. cbn [pbind]. unfold cut.
  rewrite (dec_sep depth) by tok. cbn [pbind]. rewrite (dec_sep cl) by tok. cbn [pbind].
  rewrite (dec_sep cf) by tok. cbn [pbind].
  rewrite (dec_sep origin) by (auto; eapply ranges_blank; eauto). cbn [pbind].
  unfold terminated, separated_list1.
  destruct (ranges_spec e r ranges rb Hr He) as (x & xs & i & -> & -> & Hs). cbn [pbind].
  rewrite Hs by lia. cbn [pbind]. rewrite eol_spec by auto. reflexivity.
Qed.

(** ** The top level alternatives *)
Definition not_white (r : list N) : Prop := match r with [] => True | b :: _ => ~ white b end.
Ltac no_tag := cbn [keyword terminated tag strip_prefix bs map list_ascii_of_string app].

Lemma keyword_mismatch : forall k i, strip_prefix k i = None -> keyword k i = PErr.
Proof. intros k i H. unfold keyword, terminated, tag. now rewrite H. Qed.

Definition item_of (r : brec) : option line_item :=
  match r with
  | RModule _ _ _ n => Some (LModule n)
  | RInfo _ => Some LInfo
  | RFile i n => Some (LFile i n)
  | ROrigin i n => Some (LOrigin i n)
  | RPublic _ _ _ _ => Some LPublic
  | RFunc _ a s _ n => Some (LFunction (Func a s n [] []))
  | RStackWin _ => Some LStackWin
  | RCfiInit _ => Some LStackCfi
  | _ => None
  end.
Ltac miss :=
  match goal with |- match ?x with _ => _ end = _ =>
    let E := fresh in
    assert (E : x = PErr) by
      (unfold info_url, info_line, file_line, inline_origin_line, numbered, public_line, func_line,
         stack_win_line, stack_cfi_init, ignored, module_line, pmap;
       rewrite keyword_mismatch by reflexivity; reflexivity);
    rewrite E; clear E
  end.

(** "INFO URL ..." is an INFO record, too. *)
Lemma info_url_spec : forall t s e r, sep s -> eol e -> Forall line_char t ->
  info_url (bs "INFO" ++ s ++ t ++ e ++ r) = PErr \/ info_url (bs "INFO" ++ s ++ t ++ e ++ r) = POk r tt.
Proof.
  intros t s e r (sp & -> & Hsp) He Ht.
  assert (Hin : Forall line_char (sp ++ t)).
  { apply Forall_app. split; auto. eapply Forall_impl; [|exact Hsp]. intros b [-> | ->]; split; discriminate. }
  replace (bs "INFO" ++ (32 :: sp) ++ t ++ e ++ r) with (bs "INFO " ++ (sp ++ t) ++ e ++ r)
    by (rewrite <- app_assoc; reflexivity).
  revert Hin. generalize (sp ++ t). clear sp t Hsp Ht. intros u Hin.
  unfold info_url.
  destruct (strip_prefix (bs "INFO URL") (bs "INFO " ++ u ++ e ++ r)) as [x|] eqn:E.
  2:{ left. unfold ignored. now rewrite keyword_mismatch. }
  assert (Hu : exists u', u = bs "URL" ++ u').
  { change (strip_prefix (bs "URL") (u ++ e ++ r) = Some x) in E. change (bs "URL") with [85; 82; 76] in *.
    destruct (eol_head e He) as (b & e' & -> & Hb).
    destruct u as [|a u]; cbn [app strip_prefix] in E.
    { destruct (N.eqb_spec 85 b); [lia|discriminate]. }
    destruct (N.eqb_spec 85 a); [subst|discriminate].
    destruct u as [|a u]; cbn [app strip_prefix] in E.
    { destruct (N.eqb_spec 82 b); [lia|discriminate]. }
    destruct (N.eqb_spec 82 a); [subst|discriminate].
    destruct u as [|a u]; cbn [app strip_prefix] in E.
    { destruct (N.eqb_spec 76 b); [lia|discriminate]. }
    destruct (N.eqb_spec 76 a); [subst|discriminate]. exists u. reflexivity. }
  destruct Hu as [u' ->]. apply Forall_app in Hin. destruct Hin as [_ Hin].
  replace (bs "INFO " ++ (bs "URL" ++ u') ++ e ++ r) with (bs "INFO URL" ++ u' ++ e ++ r)
    by (rewrite <- app_assoc; reflexivity).
  destruct u' as [|b u'].
  { left. unfold ignored, keyword, terminated, tag. rewrite strip_app. cbn [pbind app].
    rewrite space1_none by tok. reflexivity. }
  destruct (is_space b) eqn:Eb.
  2:{ left. unfold ignored, keyword, terminated, tag. rewrite strip_app. cbn [pbind app].
      rewrite space1_none by auto. reflexivity. }
  right. destruct (proj1 (blank_spec b) Eb) as [-> | ->].
  - inversion Hin; subst. change (bs "INFO URL" ++ (32 :: u') ++ e ++ r) with (bs "INFO URL" ++ [32] ++ u' ++ e ++ r).
    apply info_spec; auto. exists []. auto.
  - (* a tab *)
    inversion Hin; subst.
    assert (E2 : ignored (bs "INFO URL") (bs "INFO URL" ++ (9 :: u') ++ e ++ r) =
                 ignored (bs "INFO URL") (bs "INFO URL" ++ [32] ++ u' ++ e ++ r)).
    { unfold ignored, keyword, terminated, tag. rewrite !strip_app. cbn [pbind].
      unfold space1. cbn [app span]. change (is_space 9) with true. change (is_space 32) with true. cbn iota.
      destruct (span is_space (u' ++ e ++ r)). reflexivity. }
    rewrite E2. apply info_spec; auto. exists []. auto.
Qed.

Lemma line_spec : forall rc b w r it, enc_rec rc b -> item_of rc = Some it -> Forall white w -> not_white r ->
  line (b ++ w ++ r) = POk r it.
Proof.
  intros rc b w r it Henc Hit Hw Hr. unfold line, terminated.
  match goal with |- pbind (?p (b ++ w ++ r)) _ = _ =>
    assert (E : p (b ++ w ++ r) = POk (w ++ r) it) end.
  2:{ rewrite E. cbn [pbind]. rewrite multispace_skip by auto. reflexivity. }
  generalize (w ++ r). clear w r Hw Hr. intros r. revert Hit.
  destruct Henc; intros Hit; cbn [item_of] in Hit; try discriminate; injection Hit as <-;
  rewrite <- !app_assoc; cbn [palt].
  - do 8 miss. unfold pmap. rewrite module_spec by auto. reflexivity.
  - unfold pmap at 1. destruct (info_url_spec t s e r) as [E|E]; auto; rewrite E; cbn [pbind]; auto.
    unfold pmap at 1, info_line. rewrite info_spec by auto. reflexivity.
  - do 2 miss. unfold pmap at 1, file_line. rewrite (numbered_spec _ id name) by auto. reflexivity.
  - do 3 miss. unfold pmap at 1, inline_origin_line. rewrite (numbered_spec _ id name) by auto. reflexivity.
  - do 4 miss. unfold pmap at 1. rewrite (public_spec m addr param name) by auto. reflexivity.
  - do 5 miss. unfold pmap at 1. rewrite (func_spec m addr size param name) by auto. reflexivity.
  - do 6 miss. unfold pmap at 1, stack_win_line. rewrite info_spec by auto. reflexivity.
  - do 7 miss. unfold pmap at 1, stack_cfi_init. rewrite info_spec by auto. reflexivity.
Qed.

(** ** Records of a function *)
Lemma hex_not_I : forall v s k r, hex64_text v s -> strip_prefix (73 :: k) (s ++ r) = None.
Proof.
  intros v s k r H. apply number_head in H. destruct H as (c & s' & d & -> & Hc).
  apply hex_char_range in Hc. cbn [app strip_prefix]. destruct (N.eqb_spec 73 c); [lia|]. reflexivity.
Qed.
Definition extend (f : func) (ls : list source_line) (is : list inlinee) : func :=
  Func (fn_addr f) (fn_size f) (fn_name f) (fn_lines f ++ ls) (fn_inlinees f ++ is).
Definition sub_effect (s : pstate) (f : func) (r : brec) : list (N * list N) * func :=
  match r with
  | RLine a z l i => (p_origins s, extend f [SourceLine a z i l] [])
  | RInline d l i o ranges => (p_origins s, extend f [] (map (fun '(a, z) => Inlinee d a z i l o) ranges))
  | ROrigin i n => (aset N.eqb i n (p_origins s), f)
  | _ => (p_origins s, f)
  end.
Lemma subline_spec : forall s f rc b r, enc_rec rc b -> sub_record InFunc rc = true ->
  parse_func_subline s f (b ++ r) = POk r (sub_effect s f rc).
Proof.
  intros s f rc b r Henc Hsub. destruct Henc; cbn [sub_record] in Hsub; try discriminate;
  unfold parse_func_subline; rewrite <- !app_assoc; cbn [sub_effect].
  - destruct H as (t & -> & Ht).
    change (strip_prefix (bs "INLINE_ORIGIN ") (bs "INLINE_ORIGIN" ++ (32 :: t) ++ d ++ s2 ++ name ++ e ++ r))
      with (strip_prefix [] (t ++ d ++ s2 ++ name ++ e ++ r)). cbn iota.
    unfold inline_origin_line. rewrite (numbered_spec _ id name (32 :: t)); [reflexivity|exists t| | | |]; auto.
  - change (bs "INLINE_ORIGIN ") with (73 :: tl (bs "INLINE_ORIGIN ")). rewrite (hex_not_I addr) by auto.
    change (bs "INLINE ") with (73 :: tl (bs "INLINE ")). rewrite (hex_not_I addr) by auto.
    rewrite (data_spec addr size line file) by auto. cbn [pbind]. unfold extend. rewrite app_nil_r. reflexivity.
  - assert (Hsp : exists t, s1 = 32 :: t) by (destruct H as (t & -> & _); eauto). destruct Hsp as (t & Et).
    match goal with |- context [strip_prefix (bs "INLINE_ORIGIN ") ?i] =>
      assert (E : strip_prefix (bs "INLINE_ORIGIN ") i = None) by (rewrite Et; reflexivity); rewrite E; clear E end.
    match goal with |- context [strip_prefix (bs "INLINE ") (_ ++ _ ++ ?i)] =>
      assert (E : strip_prefix (bs "INLINE ") (bs "INLINE" ++ s1 ++ i) = Some (t ++ i))
        by (rewrite Et; reflexivity); rewrite E; clear E end.
    rewrite (inline_spec depth cl cf origin ranges) by auto.
    cbn [pbind]. unfold extend. rewrite app_nil_r. reflexivity.
Qed.
Definition failed {A} (p : pr A) : Prop := match p with POk _ _ => False | _ => True end.
Lemma subline_end : forall s f rc b r c, enc_rec rc b -> allowed false c rc -> sub_record InFunc rc = false ->
  c = InFunc -> failed (parse_func_subline s f (b ++ r)).
Proof.
  intros s f rc b r c Henc Hal Hsub ->. destruct Henc; cbn [sub_record allowed] in Hsub, Hal; try discriminate;
  exact I.
Qed.
Lemma cfi_spec : forall rc b r, enc_rec rc b -> sub_record InCfi rc = true -> stack_cfi (b ++ r) = POk r tt.
Proof.
  intros rc b r Henc Hsub. destruct Henc; cbn [sub_record] in Hsub; try discriminate;
  rewrite <- !app_assoc; unfold stack_cfi.
  - change (bs "STACK CFI INIT" ++ s ++ t ++ e ++ r) with (bs "STACK CFI" ++ [32] ++ bs "INIT" ++ s ++ t ++ e ++ r).
    replace (bs "INIT" ++ s ++ t ++ e ++ r) with ((bs "INIT" ++ s ++ t) ++ e ++ r) by (now rewrite <- !app_assoc).
    apply info_spec; auto.
    + exists []. auto.
    + destruct H as (sp & -> & Hsp). repeat (apply Forall_app; split; auto).
      * repeat constructor; discriminate.
      * constructor; [split; discriminate|]. eapply Forall_impl; [|exact Hsp]. intros b [-> | ->]; split; discriminate.
  - now apply info_spec.
Qed.
Lemma cfi_end : forall rc b r, enc_rec rc b -> allowed false InCfi rc -> sub_record InCfi rc = false ->
  failed (stack_cfi (b ++ r)).
Proof.
  intros rc b r Henc Hal Hsub. destruct Henc; cbn [sub_record allowed] in Hsub, Hal; try discriminate;
  try exact I.
Qed.

(** ** The loop *)
Definition cur_ctx (s : pstate) : ctx :=
  match p_cur s with CurNone => Top | CurFunc _ => InFunc | CurCfi => InCfi end.
Definition set_item (s : pstate) (r : brec) : pstate :=
  let lines := p_lines s + 1 in
  match r with
  | RModule _ _ _ n => PState (Some n) (p_files s) (p_origins s) (p_funcs s) lines CurNone
  | RFile id name =>
      PState (p_module s) (aset N.eqb id name (p_files s)) (p_origins s) (p_funcs s) lines CurNone
  | ROrigin id name =>
      PState (p_module s) (p_files s) (aset N.eqb id name (p_origins s)) (p_funcs s) lines CurNone
  | RFunc _ a z _ n =>
      PState (p_module s) (p_files s) (p_origins s) (p_funcs s) lines (CurFunc (Func a z n [] []))
  | RCfiInit _ => PState (p_module s) (p_files s) (p_origins s) (p_funcs s) lines CurCfi
  | _ => PState (p_module s) (p_files s) (p_origins s) (p_funcs s) lines CurNone
  end.
Definition apply_rec (s : pstate) (r : brec) : pstate :=
  if sub_record (cur_ctx s) r then
    match p_cur s with
    | CurFunc f => PState (p_module s) (p_files s) (fst (sub_effect s f r)) (p_funcs s) (p_lines s + 1)
                     (CurFunc (snd (sub_effect s f r)))
    | _ => PState (p_module s) (p_files s) (p_origins s) (p_funcs s) (p_lines s + 1) CurCfi
    end
  else set_item (finish_cur s) r.

Lemma rec_nonempty : forall rc b, enc_rec rc b -> exists x b', b = x :: b' /\ ~ white x.
Proof.
  intros rc b H. destruct H; try (eexists _, _; split; [reflexivity|intros [Hx|[Hx|[Hx|Hx]]]; discriminate Hx]).
  apply number_head in H. destruct H as (c & s' & d & -> & Hc). apply hex_char_range in Hc.
  eexists _, _; split; [reflexivity|unfold white; lia].
Qed.
Lemma file_not_white : forall first c rs b, enc_file first c rs b -> not_white b.
Proof.
  intros first c rs b [|? ? ? ? b0 w b1 Ha He Hw Hs Hf]; [exact I|].
  destruct (rec_nonempty _ _ He) as (x & b' & -> & Hx). exact Hx.
Qed.
Lemma allowed_false : forall c r, allowed true c r -> (forall a b d e, r <> RModule a b d e) -> allowed false c r.
Proof. intros c [] H Hn; cbn in *; auto. exfalso. eapply Hn. reflexivity. Qed.
Lemma item_exists : forall first c r, allowed first c r -> sub_record c r = false -> exists it, item_of r = Some it.
Proof. intros first [] [] Ha Hs; cbn in *; try discriminate; eauto. Qed.
Lemma store_spec : forall s r it first c, allowed first c r -> item_of r = Some it ->
  (first = true -> p_lines s = 0) -> store s it = Ok (set_item s r).
Proof.
  intros s [] it first c Ha Hi Hl; cbn [item_of] in Hi; try discriminate; injection Hi as <-; try reflexivity.
  cbn [allowed] in Ha. unfold set_item. cbn [store]. rewrite (Hl Ha). reflexivity.
Qed.
Lemma finish_cur_none : forall s, p_cur (finish_cur s) = CurNone.
Proof. intros s. unfold finish_cur. destruct (p_cur s); reflexivity. Qed.
Lemma apply_ctx : forall s r,
  (sub_record (cur_ctx s) r = false -> exists it, item_of r = Some it) ->
  cur_ctx (apply_rec s r) = next_ctx (cur_ctx s) r.
Proof.
  intros s r Hit. unfold apply_rec. destruct (sub_record (cur_ctx s) r) eqn:E.
  - unfold cur_ctx in *. destruct (p_cur s) eqn:Ec; destruct r; cbn in E |- *; try discriminate; reflexivity.
  - destruct (Hit eq_refl) as [it Ei]. unfold cur_ctx in *.
    destruct r; cbn in Ei |- *; try discriminate; try reflexivity; destruct (p_cur s); cbn in *; auto; discriminate.
Qed.

Lemma loop_spec : forall first c rs b, enc_file first c rs b -> forall s fuel,
  cur_ctx s = c -> (first = true -> p_lines s = 0 /\ c = Top) -> (2 * length b + 2 <= fuel)%nat ->
  parse_loop fuel s b = Ok (fold_left apply_rec rs s).
Proof.
  induction 1 as [first c|first c r rs b w rest Hal Henc Hw Hsub Hf IH]; intros s fuel Hc Hfirst Hfuel.
  - destruct fuel as [|fuel]; [lia|]. reflexivity.
  - cbn [fold_left].
    destruct (rec_nonempty _ _ Henc) as (x & b' & Eb & Hx).
    pose proof (file_not_white _ _ _ _ Hf) as Hnw.
    assert (Hlen : (S (length (w ++ rest)) <= length (b ++ w ++ rest))%nat)
      by (rewrite (app_length b), Eb; cbn [length]; lia).
    assert (Hctx : cur_ctx (apply_rec s r) = next_ctx c r).
    { subst c. apply apply_ctx. intros E. eapply item_exists; eauto. }
    assert (Hlen2 : (length rest <= length (w ++ rest))%nat) by (rewrite app_length; lia).
    specialize (IH (apply_rec s r)).
    (* reading the record at the top level *)
    assert (Htop : forall s0 fuel, p_cur s0 = CurNone -> sub_record c r = false -> set_item s0 r = apply_rec s r ->
      p_lines s0 = p_lines s ->
      (S (2 * length rest + 2) <= fuel)%nat ->
      parse_loop fuel s0 (b ++ w ++ rest) = Ok (fold_left apply_rec rs (apply_rec s r))).
    { intros s0 fuel0 Hc0 Hs0 Hset Hln Hf0. destruct fuel0 as [|fuel0]; [lia|]. cbn [parse_loop].
      rewrite Eb at 1. cbn [app]. cbn iota. rewrite Hc0.
      destruct (item_exists _ _ _ Hal Hs0) as [it Hit].
      rewrite (line_spec r b w rest it) by auto. rewrite (store_spec s0 r it first c); auto.
      2:{ intros Hft. rewrite Hln. now apply Hfirst. }
      cbn [bind]. rewrite Hset. apply IH; auto; [discriminate|lia]. }
    destruct fuel as [|fuel]; [lia|]. destruct (sub_record c r) eqn:Es.
    + (* a sub record *)
      assert (w = []) by auto. subst w. cbn [app] in *. cbn [parse_loop].
      rewrite Eb at 1. cbn [app]. cbn iota.
      unfold apply_rec in *. rewrite Hc, Es in *. unfold cur_ctx in Hc.
      destruct (p_cur s) as [|f|] eqn:Ecur; subst c.
      * destruct r; discriminate.
      * rewrite (subline_spec s f r b rest) by auto.
        destruct (sub_effect s f r) as [o f'] eqn:Ee. cbn [fst snd] in *.
        apply IH; auto; [discriminate|lia].
      * rewrite (cfi_spec r b rest) by auto. apply IH; auto; [discriminate|lia].
    + destruct (p_cur s) as [|f|] eqn:Ecur.
      * apply (Htop s); auto; [|lia]. unfold apply_rec. rewrite Hc, Es.
        unfold finish_cur. rewrite Ecur. destruct s; cbn in Ecur; subst; reflexivity.
      * assert (Hfin : c = InFunc) by (unfold cur_ctx in Hc; rewrite Ecur in Hc; auto).
        assert (Hff : first = false) by (destruct first; auto; destruct (Hfirst eq_refl); congruence).
        rewrite Hff in Hal. rewrite Hfin in Es, Hal.
        pose proof (subline_end s f r b (w ++ rest) InFunc Henc Hal Es eq_refl) as Hfail.
        cbn [parse_loop]. rewrite Eb at 1. cbn [app]. cbn iota. rewrite Ecur.
        destruct (parse_func_subline s f (b ++ w ++ rest)); [contradiction| |];
        (apply Htop; [apply finish_cur_none|congruence|unfold apply_rec; rewrite Hc, Hfin, Es; reflexivity
          |unfold finish_cur; rewrite Ecur; reflexivity|lia]).
      * assert (Hfin : c = InCfi) by (unfold cur_ctx in Hc; rewrite Ecur in Hc; auto).
        assert (Hff : first = false) by (destruct first; auto; destruct (Hfirst eq_refl); congruence).
        rewrite Hff in Hal. rewrite Hfin in Es, Hal.
        pose proof (cfi_end r b (w ++ rest) Henc Hal Es) as Hfail.
        cbn [parse_loop]. rewrite Eb at 1. cbn [app]. cbn iota. rewrite Ecur.
        destruct (stack_cfi (b ++ w ++ rest)); [contradiction| |];
        (apply Htop; [apply finish_cur_none|congruence|unfold apply_rec; rewrite Hc, Hfin, Es; reflexivity
          |unfold finish_cur; rewrite Ecur; reflexivity|lia]).
Qed.

(** ** What is stored *)
Lemma SS_impl : forall {A} (R S : A -> A -> Prop) l, (forall a b, R a b -> S a b) ->
  StronglySorted R l -> StronglySorted S l.
Proof.
  intros A R S l H. induction 1 as [|x l Hs IH HF]; constructor; auto.
  eapply Forall_impl; [|exact HF]. auto.
Qed.
Lemma line_leb_sorted : forall l, lines_sorted (isort line_leb l).
Proof.
  intros l.
  assert (H : sorted line_leb (isort line_leb l)).
  { apply isort_sorted; unfold line_leb; intros; rewrite !orb_true_iff, !andb_true_iff, !N.ltb_lt, !N.leb_le, !N.eqb_eq in *; lia. }
  eapply SS_impl; [|exact H]. cbn. unfold line_leb. intros a b Hab.
  rewrite orb_true_iff, andb_true_iff, N.ltb_lt, N.leb_le, N.eqb_eq in Hab. exact Hab.
Qed.
Lemma inl_leb_sorted : forall l, inlinees_sorted (isort inl_leb l).
Proof.
  intros l.
  assert (H : sorted inl_leb (isort inl_leb l)).
  { apply isort_sorted; unfold inl_leb; intros; rewrite !orb_true_iff, !andb_true_iff, !N.ltb_lt, !N.leb_le, !N.eqb_eq in *; lia. }
  eapply SS_impl; [|exact H]. cbn. unfold inl_leb. intros a b Hab.
  rewrite orb_true_iff, andb_true_iff, N.ltb_lt, N.leb_le, N.eqb_eq in Hab. exact Hab.
Qed.
Lemma func_leb_sorted : forall l, funcs_sorted (isort func_leb l).
Proof.
  intros l.
  assert (H : sorted func_leb (isort func_leb l)).
  { apply isort_sorted; unfold func_leb; intros; rewrite !orb_true_iff, !andb_true_iff, !N.ltb_lt, !N.leb_le, !N.eqb_eq in *; lia. }
  eapply SS_impl; [|exact H]. cbn. unfold func_leb. intros a b Hab.
  rewrite orb_true_iff, andb_true_iff, N.ltb_lt, N.leb_le, N.eqb_eq in Hab. exact Hab.
Qed.

Definition pending (s : pstate) (rs : list brec) : list func :=
  match p_cur s with
  | CurFunc f => [finish_func (extend f (fst (body rs)) (snd (body rs)))]
  | _ => []
  end.
Lemma extend_nil : forall f, extend f [] [] = f.
Proof. intros []. unfold extend. cbn. now rewrite !app_nil_r. Qed.
Lemma extend_extend : forall f a b c d, extend (extend f a b) c d = extend f (a ++ c) (b ++ d).
Proof. intros. unfold extend. cbn. now rewrite <- !app_assoc. Qed.
Lemma aget_set : forall k i (n : list N) m,
  aget N.eqb k (aset N.eqb i n m) = if i =? k then Some n else aget N.eqb k m.
Proof.
  intros. destruct (N.eqb_spec i k) as [->|].
  - apply aget_aset_eq. apply N.eqb_spec.
  - apply aget_aset_neq; auto. apply N.eqb_spec.
Qed.
Lemma stored : forall first c rs b, enc_file first c rs b -> forall s, cur_ctx s = c ->
  let s' := fold_left apply_rec rs s in
  p_module s' = (if first then match module_of rs with Some n => Some n | None => p_module s end else p_module s) /\
  (forall id, aget N.eqb id (p_files s') =
     match file_of id rs with Some x => Some x | None => aget N.eqb id (p_files s) end) /\
  (forall id, aget N.eqb id (p_origins s') =
     match origin_of id rs with Some x => Some x | None => aget N.eqb id (p_origins s) end) /\
  p_funcs (finish_cur s') = p_funcs s ++ pending s rs ++ map finish_func (functions rs).
Proof.
  induction 1 as [first c|first c r rs b w rest Hal Henc Hw Hsub Hf IH]; intros s Hc; cbn [fold_left].
  - split; [now destruct first|]. split; auto. split; auto. unfold pending, finish_cur.
    destruct (p_cur s) as [|f|]; cbn [p_funcs body fst snd functions map app]; rewrite ?app_nil_r; auto.
    now rewrite extend_nil.
  - assert (Hctx : cur_ctx (apply_rec s r) = next_ctx c r).
    { subst c. apply apply_ctx. intros E. eapply item_exists; eauto. }
    specialize (IH (apply_rec s r) Hctx). cbn zeta in IH |- *. destruct IH as (I1 & I2 & I3 & I4).
    rewrite I1. setoid_rewrite I2. setoid_rewrite I3. rewrite I4. clear I1 I2 I3 I4 Hctx.
    unfold apply_rec. rewrite Hc. unfold cur_ctx in Hc.
    destruct (sub_record c r) eqn:Es.
    + destruct (p_cur s) as [|f|] eqn:Ecur; subst c; [destruct r; discriminate| |].
      * destruct r; cbn [sub_record allowed] in Es, Hal; try discriminate;
        cbn [p_module p_files p_origins p_funcs module_of file_of origin_of functions pending p_cur sub_effect fst snd];
        unfold pending; rewrite Ecur; cbn [p_cur body fst snd].
        -- repeat split; try (now destruct first). intros k. rewrite aget_set.
           destruct (origin_of k rs); auto. destruct (id =? k); auto.
        -- repeat split; try (now destruct first). rewrite extend_extend.
           destruct (body rs) as [ls is]. reflexivity.
        -- repeat split; try (now destruct first). rewrite extend_extend.
           destruct (body rs) as [ls is]. reflexivity.
      * destruct r; cbn [sub_record allowed] in Es, Hal; try discriminate;
        cbn [p_module p_files p_origins p_funcs module_of file_of origin_of functions];
        unfold pending; rewrite Ecur; cbn [p_cur app];
        repeat split; try (now destruct first).
    + assert (Hpend : p_funcs (finish_cur s) ++ map finish_func (functions (r :: rs)) =
        p_funcs s ++ pending s (r :: rs) ++ map finish_func (functions (r :: rs))).
      { unfold finish_cur, pending. destruct (p_cur s) as [|f|] eqn:Ecur; subst c; cbn [p_funcs]; auto.
        rewrite <- app_assoc. f_equal. f_equal. f_equal. f_equal.
        destruct r; cbn in Es; try discriminate; cbn [body fst snd]; now rewrite extend_nil. }
      rewrite <- Hpend. clear Hpend.
      assert (Hfo : p_module (finish_cur s) = p_module s /\ p_files (finish_cur s) = p_files s /\
         p_origins (finish_cur s) = p_origins s)
        by (unfold finish_cur; destruct (p_cur s); auto).
      destruct Hfo as (F1 & F2 & F3).
      assert (Hai : exists it, item_of r = Some it) by (eapply item_exists; eauto). destruct Hai as [it Hai].
      unfold pending.
      destruct r; cbn [item_of] in Hai; try discriminate;
      cbn [set_item p_module p_files p_origins p_funcs p_cur module_of file_of origin_of functions app map];
      rewrite ?F1, ?F2, ?F3;
      repeat split; try (now destruct first); intros;
      rewrite ?aget_set;
      try (destruct (file_of id0 rs); auto; destruct (id =? id0); auto; fail);
      try (destruct (origin_of id0 rs); auto; destruct (id =? id0); auto; fail).
Qed.

Lemma last_newline : forall x, upto_last_newline (x ++ [10]) = Some (x ++ [10]).
Proof. induction x as [|y x IH]; [reflexivity|]. cbn [app upto_last_newline]. now rewrite IH. Qed.

Lemma finish_same : forall f, same_func f (finish_func f).
Proof.
  intros f. unfold same_func, finish_func. cbn.
  repeat (split; [reflexivity|]). split; [apply isort_perm|]. split; [apply line_leb_sorted|].
  split; [apply isort_perm|]. apply inl_leb_sorted.
Qed.
(** Parsing a well formed file yields what its records say. *)
Theorem parse_format : forall rs x, enc_file true Top rs (x ++ [10]) ->
  exists sf, from_bytes (x ++ [10]) = Ok sf /\ describes rs sf.
Proof.
  intros rs x H. unfold from_bytes, parse. rewrite last_newline.
  rewrite (loop_spec _ _ _ _ H); [|reflexivity|split; reflexivity|lia]. cbn [bind].
  destruct (N.eqb_spec (nlen (x ++ [10])) 0) as [E|_];
    [rewrite nlen_app in E; unfold nlen in E; cbn [length] in E; lia|]. rewrite N.eqb_refl. cbn [negb].
  eexists. split; [reflexivity|].
  destruct (stored _ _ _ _ H initial_state eq_refl) as (S1 & S2 & S3 & S4).
  set (s' := fold_left apply_rec rs initial_state) in *. unfold finish, describes.
  assert (Hfo : p_module (finish_cur s') = p_module s' /\ p_files (finish_cur s') = p_files s' /\
     p_origins (finish_cur s') = p_origins s')
    by (unfold finish_cur; destruct (p_cur s'); auto).
  destruct Hfo as (F1 & F2 & F3). cbn [sf_module sf_files sf_origins sf_funcs].
  rewrite F1, F2, F3, S4. split; [|split; [|split; [|split]]].
  - rewrite S1. destruct (module_of rs); reflexivity.
  - intros id. rewrite S2. destruct (file_of id rs); reflexivity.
  - intros id. rewrite S3. destruct (origin_of id rs); reflexivity.
  - apply func_leb_sorted.
  - cbn. exists (map finish_func (functions rs)). split; [|apply isort_perm].
    clear. induction (functions rs); constructor; auto. apply finish_same.
Qed.

(** ** All files: what is parsed is sorted *)
Definition file_sorted (sf : symbol_file) : Prop :=
  funcs_sorted (sf_funcs sf) /\
  Forall (fun f => lines_sorted (fn_lines f) /\ inlinees_sorted (fn_inlinees f)) (sf_funcs sf).
Definition done (s : pstate) : Prop :=
  Forall (fun f => lines_sorted (fn_lines f) /\ inlinees_sorted (fn_inlinees f)) (p_funcs s).
Lemma finish_done : forall s, done s -> done (finish_cur s).
Proof.
  intros s H. unfold done, finish_cur in *. destruct (p_cur s); cbn [p_funcs]; auto.
  apply Forall_app. split; auto. constructor; auto. cbn. split; [apply line_leb_sorted|apply inl_leb_sorted].
Qed.
Lemma store_done : forall s l s', store s l = Ok s' -> done s -> done s'.
Proof.
  intros s l s' H Hd. unfold store in H. destruct l; try (injection H as <-; exact Hd).
  destruct (negb (p_lines s =? 0)); [discriminate|]. injection H as <-. exact Hd.
Qed.
Lemma loop_done : forall fuel s i s', parse_loop fuel s i = Ok s' -> done s -> done s'.
Proof.
  induction fuel as [|fuel IH]; intros s i s' H Hd; cbn [parse_loop] in H; [discriminate|].
  destruct i as [|b i]; [injection H as <-; auto|].
  destruct (p_cur s) as [|f|].
  - destruct (line (b :: i)) as [r it| |]; try discriminate. ib H s0 E.
    eapply IH; [exact H|]. eapply store_done; eauto.
  - destruct (parse_func_subline s f (b :: i)) as [r [o f']| |];
      (eapply IH; [exact H|]); auto using finish_done.
  - destruct (stack_cfi (b :: i)) as [r []| |];
      (eapply IH; [exact H|]); auto using finish_done.
Qed.
Lemma parsed_sorted : forall b sf, from_bytes b = Ok sf -> file_sorted sf.
Proof.
  intros b sf H. unfold from_bytes in H. ib H cs E. destruct cs as [c s].
  destruct (c =? 0); [discriminate|]. destruct (negb (c =? nlen b)); [discriminate|]. injection H as <-.
  assert (Hd : done s).
  { unfold parse in E. destruct (upto_last_newline b) as [i|].
    - ib E s0 E0. injection E as <- <-. eapply loop_done; [exact E0|]. constructor.
    - injection E as <- <-. constructor. }
  apply finish_done in Hd. split; cbn [finish sf_funcs].
  - apply func_leb_sorted.
  - unfold done in Hd. rewrite Forall_forall in *. intros f Hf. apply Hd.
    eapply Permutation_in; [symmetry; apply isort_perm|exact Hf].
Qed.

(** ** All inputs: parsing terminates *)
Definition shrinks {A} (p : parser A) : Prop := forall i r a, p i = POk r a -> (length r <= length i)%nat.
Definition consumes {A} (p : parser A) : Prop := forall i r a, p i = POk r a -> (length r < length i)%nat.
Lemma consumes_shrinks : forall A (p : parser A), consumes p -> shrinks p.
Proof. intros A p H i r a E. apply H in E. lia. Qed.
Lemma span_length : forall f i, (length (snd (span f i)) + length (fst (span f i)) = length i)%nat.
Proof.
  induction i as [|b i IH]; auto. cbn [span]. destruct (f b); cbn; auto.
  destruct (span f i); cbn in *. lia.
Qed.
Lemma take_while_shrinks : forall f, shrinks (take_while f).
Proof.
  intros f i r a H. unfold take_while in H. pose proof (span_length f i) as L.
  destruct (span f i). injection H as <- <-. cbn in L. lia.
Qed.
Lemma strip_length : forall t i r, strip_prefix t i = Some r -> (length r + length t = length i)%nat.
Proof.
  induction t as [|a t IH]; intros i r H; cbn [strip_prefix] in H.
  - injection H as <-. simpl. lia.
  - destruct i as [|b i]; [discriminate|]. destruct (a =? b); [|discriminate]. apply IH in H. simpl. lia.
Qed.
Lemma tag_shrinks : forall t, shrinks (tag t).
Proof.
  intros t i r a H. unfold tag in H. destruct (strip_prefix t i) as [x|] eqn:E; [|discriminate].
  injection H as <- _. apply strip_length in E. lia.
Qed.
Lemma space1_consumes : consumes space1.
Proof.
  intros i r a H. unfold space1 in H. pose proof (span_length is_space i) as L.
  destruct (span is_space i) as [[|b p] q]; [discriminate|]. injection H as <- _. cbn in L. lia.
Qed.
Lemma terminated_shrinks : forall A B (p : parser A) (q : parser B), shrinks p -> shrinks q -> shrinks (terminated p q).
Proof.
  intros A B p q Hp Hq i r a H. unfold terminated in H.
  destruct (p i) as [i1 a1| |] eqn:E1; cbn in H; try discriminate.
  destruct (q i1) as [i2 a2| |] eqn:E2; cbn in H; try discriminate.
  injection H as <- <-. apply Hp in E1. apply Hq in E2. lia.
Qed.
Lemma terminated_consumes : forall A B (p : parser A) (q : parser B), shrinks p -> consumes q -> consumes (terminated p q).
Proof.
  intros A B p q Hp Hq i r a H. unfold terminated in H.
  destruct (p i) as [i1 a1| |] eqn:E1; cbn in H; try discriminate.
  destruct (q i1) as [i2 a2| |] eqn:E2; cbn in H; try discriminate.
  injection H as <- <-. apply Hp in E1. apply Hq in E2. lia.
Qed.
Lemma terminated_consumes1 : forall A B (p : parser A) (q : parser B), consumes p -> shrinks q -> consumes (terminated p q).
Proof.
  intros A B p q Hp Hq i r a H. unfold terminated in H.
  destruct (p i) as [i1 a1| |] eqn:E1; cbn in H; try discriminate.
  destruct (q i1) as [i2 a2| |] eqn:E2; cbn in H; try discriminate.
  injection H as <- <-. apply Hp in E1. apply Hq in E2. lia.
Qed.
Lemma keyword_consumes : forall k, consumes (keyword k).
Proof. intros k. apply terminated_consumes; [apply tag_shrinks|apply space1_consumes]. Qed.
Lemma cut_shrinks : forall A (p : parser A), shrinks p -> shrinks (cut p).
Proof.
  intros A p H i r a E. unfold cut in E. destruct (p i) eqn:Ep; try discriminate. injection E as <- <-. now apply H in Ep.
Qed.
Lemma popt_shrinks : forall A (p : parser A), shrinks p -> shrinks (popt p).
Proof.
  intros A p H i r a E. unfold popt in E. destruct (p i) eqn:Ep; try discriminate; injection E as <- <-; auto.
  now apply H in Ep.
Qed.
Lemma pmap_consumes : forall A B (p : parser A) (f : A -> B), consumes p -> consumes (pmap p f).
Proof.
  intros A B p f H i r a E. unfold pmap in E. destruct (p i) eqn:Ep; cbn in E; try discriminate.
  injection E as <- <-. now apply H in Ep.
Qed.
Lemma pmap_shrinks : forall A B (p : parser A) (f : A -> B), shrinks p -> shrinks (pmap p f).
Proof.
  intros A B p f H i r a E. unfold pmap in E. destruct (p i) eqn:Ep; cbn in E; try discriminate.
  injection E as <- <-. now apply H in Ep.
Qed.
Lemma pcheck_shrinks : forall A (p : parser A) f, shrinks p -> shrinks (pcheck p f).
Proof.
  intros A p f H i r a E. unfold pcheck in E. destruct (p i) as [r0 a0| |] eqn:Ep; cbn in E; try discriminate.
  destruct (f a0); [|discriminate]. injection E as <- <-. now apply H in Ep.
Qed.
Lemma palt_consumes : forall A (ps : list (parser A)), Forall consumes ps -> consumes (palt ps).
Proof.
  induction 1 as [|p ps Hp Hps IH]; intros i r a E; cbn [palt] in E; [discriminate|].
  destruct (p i) eqn:Ep; try discriminate.
  - injection E as <- <-. now apply Hp in Ep.
  - now apply IH in E.
Qed.
Lemma pbind_consumes : forall A B (p : parser A) (f : list N -> A -> pr B), consumes p ->
  (forall a, shrinks (fun i => f i a)) -> consumes (fun i => pbind (p i) f).
Proof.
  intros A B p f Hp Hf i r b E. destruct (p i) as [i1 a| |] eqn:Ep; cbn in E; try discriminate.
  apply Hp in Ep. apply Hf in E. lia.
Qed.
Lemma pbind_shrinks : forall A B (p : parser A) (f : list N -> A -> pr B), shrinks p ->
  (forall a, shrinks (fun i => f i a)) -> shrinks (fun i => pbind (p i) f).
Proof.
  intros A B p f Hp Hf i r b E. destruct (p i) as [i1 a| |] eqn:Ep; cbn in E; try discriminate.
  apply Hp in Ep. apply Hf in E. lia.
Qed.
Lemma ret_shrinks : forall A (a : A), shrinks (fun i => POk i a).
Proof. intros A a i r b H. injection H as <- _. lia. Qed.
Lemma digits_length : forall dig base max acc k i v k' r, digits dig base max acc k i = (v, k', r) ->
  (length r + k' = length i + k)%nat.
Proof.
  intros dig base. induction max as [|max IH]; intros acc k i v k' r H; cbn [digits] in H.
  - injection H as _ <- <-. lia.
  - destruct i as [|b i]; [injection H as _ <- <-; lia|]. destruct (dig b).
    + apply IH in H. simpl. lia.
    + injection H as _ <- <-. lia.
Qed.
Lemma hex_consumes : forall max, consumes (hex_str max).
Proof.
  intros max i r a H. unfold hex_str in H. destruct (digits to_digit16 16 max 0 0 i) as [[v k] r0] eqn:E.
  apply digits_length in E. destruct k; [discriminate|]. injection H as <- _. lia.
Qed.
Lemma dec_consumes : consumes decimal_u32.
Proof.
  intros i r a H. unfold decimal_u32 in H. destruct (digits to_digit10 10 10 0 0 i) as [[v k] r0] eqn:E.
  apply digits_length in E. destruct k; [discriminate|]. destruct (v <? two32); [|discriminate]. injection H as <- _. lia.
Qed.
Lemma eol_consumes : consumes my_eol.
Proof.
  intros i r a H. unfold my_eol in H.
  destruct (take_while (fun b => b =? 13) i) as [i1 x| |] eqn:E; cbn in H; try discriminate.
  apply take_while_shrinks in E. unfold tag in H.
  destruct (strip_prefix [10] i1) eqn:E1; [|discriminate]. apply strip_length in E1. injection H as <- _.
  cbn in E1. lia.
Qed.
Lemma rest_of_line_consumes : consumes rest_of_line.
Proof.
  apply terminated_consumes; [apply pcheck_shrinks, take_while_shrinks|apply eol_consumes].
Qed.
Lemma sep_rest_shrinks : forall A (p : parser A) fuel, consumes p -> shrinks (sep_rest fuel space1 p).
Proof.
  intros A p. induction fuel as [|fuel IH]; intros Hp i r a H; cbn [sep_rest] in H; [discriminate|].
  destruct (space1 i) as [i1 u| |] eqn:E1; try discriminate; [|injection H as <- _; lia].
  destruct (p i1) as [i2 x| |] eqn:E2; try discriminate; [|injection H as <- _; lia].
  destruct (sep_rest fuel space1 p i2) as [i3 l| |] eqn:E3; cbn in H; try discriminate.
  injection H as <- _. apply space1_consumes in E1. apply Hp in E2. apply IH in E3; auto. lia.
Qed.
Lemma range_consumes : consumes inline_address_range.
Proof.
  apply pbind_consumes; [apply terminated_consumes; [apply consumes_shrinks, hex_consumes|apply space1_consumes]|].
  intros a. cbv beta. apply pbind_shrinks; [apply consumes_shrinks, hex_consumes|]. intros. apply ret_shrinks.
Qed.
Lemma ranges_shrinks : shrinks (separated_list1 space1 inline_address_range).
Proof.
  unfold separated_list1. apply pbind_shrinks; [apply consumes_shrinks, range_consumes|].
  intros a i r l E. destruct (sep_rest (S (length i)) space1 inline_address_range i) as [r0 l0| |] eqn:E0; try discriminate.
  cbn in E. injection E as <- _. apply sep_rest_shrinks in E0; auto using range_consumes.
Qed.
Ltac shr :=
  repeat first
    [ apply keyword_consumes | apply space1_consumes | apply hex_consumes | apply dec_consumes
    | apply eol_consumes | apply rest_of_line_consumes | apply take_while_shrinks | apply tag_shrinks
    | apply ret_shrinks | apply ranges_shrinks | apply (consumes_shrinks _ _ rest_of_line_consumes) | apply (consumes_shrinks _ _ eol_consumes)
    | apply terminated_shrinks | apply cut_shrinks | apply popt_shrinks
    | apply pmap_shrinks
    | (apply pbind_shrinks; [|intros; cbv beta]) | (apply consumes_shrinks) ].
Lemma ignored_consumes : forall k, consumes (ignored k).
Proof. intros k. apply pbind_consumes; [apply keyword_consumes|]. intros _. shr. Qed.
Lemma numbered_consumes : forall k, consumes (numbered k).
Proof. intros k. apply pbind_consumes; [apply keyword_consumes|]. intros _. shr. Qed.
Lemma line_consumes : consumes line.
Proof.
  apply terminated_consumes1.
  - apply palt_consumes.
    repeat (apply Forall_cons); [..|apply Forall_nil]; apply pmap_consumes; try apply ignored_consumes; try apply numbered_consumes.
    + apply pbind_consumes; [apply keyword_consumes|]. intros _. shr.
    + apply pbind_consumes; [apply keyword_consumes|]. intros _. shr.
    + apply pbind_consumes; [apply keyword_consumes|]. intros _. shr.
  - intros i r a H. unfold multispace0 in H. injection H as <- _.
    pose proof (span_length is_multispace i). lia.
Qed.
Lemma inline_consumes : consumes inline_line.
Proof. apply pbind_consumes; [apply keyword_consumes|]. intros _. shr. Qed.
Lemma data_consumes : consumes func_line_data.
Proof.
  apply pbind_consumes; [apply terminated_consumes; [apply consumes_shrinks, hex_consumes|apply space1_consumes]|].
  intros a. shr.
Qed.
Lemma subline_consumes : forall s f, consumes (parse_func_subline s f).
Proof.
  intros s f i r a H. unfold parse_func_subline in H.
  destruct (strip_prefix (bs "INLINE_ORIGIN ") i).
  - destruct (inline_origin_line i) as [i1 o| |] eqn:E; cbn in H; try discriminate. injection H as <- _.
    now apply numbered_consumes in E.
  - destruct (strip_prefix (bs "INLINE ") i).
    + destruct (inline_line i) as [i1 o| |] eqn:E; cbn in H; try discriminate. injection H as <- _.
      now apply inline_consumes in E.
    + destruct (func_line_data i) as [i1 o| |] eqn:E; cbn in H; try discriminate. injection H as <- _.
      now apply data_consumes in E.
Qed.
Definition terminates {A} (r : res A) : Prop := match r with Ok _ | Err _ => True | _ => False end.
Lemma loop_terminates : forall fuel s i,
  (2 * length i + (match p_cur s with CurNone => 0 | _ => 1 end) < fuel)%nat -> terminates (parse_loop fuel s i).
Proof.
  induction fuel as [|fuel IH]; intros s i H; [lia|]. cbn [parse_loop].
  destruct i as [|b i]; [exact I|].
  destruct (p_cur s) as [|f|] eqn:Ec.
  - destruct (line (b :: i)) as [r it| |] eqn:E; try exact I. apply line_consumes in E.
    destruct (store s it) as [s'| k | |] eqn:Es; cbn [bind]; try exact I;
      try (unfold store in Es; destruct it; try discriminate; destruct (negb (p_lines s =? 0)); discriminate).
    apply IH. destruct (p_cur s'); lia.
  - destruct (parse_func_subline s f (b :: i)) as [r [o f']| |] eqn:E.
    + apply subline_consumes in E. apply IH. cbn [p_cur]. lia.
    + apply IH. rewrite finish_cur_none. lia.
    + apply IH. rewrite finish_cur_none. lia.
  - destruct (stack_cfi (b :: i)) as [r []| |] eqn:E.
    + apply ignored_consumes in E. apply IH. cbn [p_cur]. lia.
    + apply IH. rewrite finish_cur_none. lia.
    + apply IH. rewrite finish_cur_none. lia.
Qed.
Lemma parse_terminates : forall b, terminates (from_bytes b).
Proof.
  intros b. unfold from_bytes, parse. destruct (upto_last_newline b) as [i|]; [|exact I].
  pose proof (loop_terminates (2 * length i + 2) initial_state i) as H.
  destruct (parse_loop (2 * length i + 2) initial_state i); cbn [bind].
  - destruct (nlen i =? 0); [exact I|]. destruct (negb (nlen i =? nlen b)); exact I.
  - exact I.
  - apply H. cbn. lia.
  - apply H. cbn. lia.
Qed.
(** The number of rounds of [sep_rest] suffices. *)
Lemma sep_rest_fuel : forall A (p : parser A), consumes p -> forall f1 f2 i,
  (length i < f1)%nat -> (length i < f2)%nat -> sep_rest f1 space1 p i = sep_rest f2 space1 p i.
Proof.
  intros A p Hp. induction f1 as [|f1 IH]; intros [|f2] i H1 H2; try lia. cbn [sep_rest].
  destruct (space1 i) as [i1 u| |] eqn:E1; auto. apply space1_consumes in E1.
  destruct (p i1) as [i2 a| |] eqn:E2; auto. apply Hp in E2.
  rewrite (IH f2 i2) by lia. reflexivity.
Qed.
