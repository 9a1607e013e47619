(** * Numbers, words and lines of text

    The functions of Rust's standard library that the text formats are read
    with, what numbers look like, and lemmas relating the two. *)

From Verif Require Import Base Text Maps MapsProofs.
Local Open Scope N_scope.

(** ** Standard library *)

(** [char::to_digit], for radixes up to 16 *)
Definition to_digit (radix b : N) : option N :=
  let d := if in_range 48 57 b then Some (b - 48)
           else if in_range 65 70 b then Some (b - 55)
           else if in_range 97 102 b then Some (b - 87)
           else None in
  match d with
  | Some d => if d <? radix then Some d else None
  | None => None
  end.
Fixpoint digits_loop (radix limit acc : N) (l : list N) : option N :=
  match l with
  | [] => Some acc
  | b :: l =>
      match to_digit radix b with
      | None => None
      | Some d =>
          let v := acc * radix + d in
          if v <? limit then digits_loop radix limit v l else None
      end
  end.
(** [from_str_radix] of an unsigned type with values below [limit]: a leading
    plus sign is fine. *)
Definition from_str_radix (radix limit : N) (l : list N) : option N :=
  match l with
  | [] => None
  | 43 :: [] => None
  | 43 :: l => digits_loop radix limit 0 l
  | l => digits_loop radix limit 0 l
  end.

(** [<[T]>::split] *)
Fixpoint split (p : N -> bool) (l : list N) : list (list N) :=
  match l with
  | [] => [[]]
  | b :: l =>
      if p b then [] :: split p l
      else match split p l with
           | [] => [[b]]
           | x :: xs => (b :: x) :: xs
           end
  end.
Definition is_empty {A} (l : list A) : bool := match l with [] => true | _ => false end.
(** [str::split_ascii_whitespace] *)
Definition words (l : list N) : list (list N) :=
  filter (fun w => negb (is_empty w)) (split is_ws l).

(** [BufRead::read_line]: a line that is no text is an error. *)
Fixpoint fold_lines {A} (f : A -> list N -> A) (acc : A) (lines : list (list N)) : res A :=
  match lines with
  | [] => Ok acc
  | l :: lines => if utf8_valid l then fold_lines f (f acc l) lines else Err EInvalidData
  end.

(** ** What numbers look like *)
Definition hex_digit (c d : N) : Prop :=
  (48 <= c <= 57 /\ d = c - 48) \/ (65 <= c <= 70 /\ d = c - 55) \/ (97 <= c <= 102 /\ d = c - 87).
Definition dec_digit (c d : N) : Prop := 48 <= c <= 57 /\ d = c - 48.
Definition number (chr : N -> N -> Prop) (base v : N) (s : list N) : Prop :=
  exists ds, Forall2 chr s ds /\ s <> [] /\ v = fold_left (fun a d => a * base + d) ds 0.
Definition hex_text := number hex_digit 16.
Definition dec_text := number dec_digit 10.
(** White space, and a word *)
Definition blank (c : N) : Prop := c = 32 \/ c = 9 \/ c = 10 \/ c = 12 \/ c = 13.
Definition word (s : list N) : Prop := s <> [] /\ Forall (fun c => ~ blank c) s.
Definition spaces (s : list N) : Prop := s <> [] /\ Forall (fun c => c = 32 \/ c = 9) s.
(** Text, in UTF-8 *)
Definition text (s : list N) : Prop := exists cs, Forall is_scalar cs /\ s = utf8_enc cs.
(** A text with a line for each of some things *)
Inductive text_of {A} (line : A -> list N -> Prop) : list A -> list N -> Prop :=
| TextNil : text_of line [] []
| TextCons : forall e s es t, line e s -> text_of line es t -> text_of line (e :: es) (s ++ 10 :: t).

(** ** Lemmas *)
Lemma is_ws_blank : forall c, is_ws c = true <-> blank c.
Proof.
  intros c. unfold is_ws, blank. rewrite !orb_true_iff, !N.eqb_eq. tauto.
Qed.
Lemma not_blank_ws : forall c, ~ blank c -> is_ws c = false.
Proof. intros c H. destruct (is_ws c) eqn:E; auto. apply is_ws_blank in E. tauto. Qed.
Lemma word_ws : forall s, word s -> Forall (fun b => is_ws b = false) s.
Proof. intros s [_ H]. eapply Forall_impl; [|exact H]. exact not_blank_ws. Qed.
Lemma to_digit_hex : forall c d, to_digit 16 c = Some d <-> hex_digit c d.
Proof.
  intros c d. unfold to_digit, hex_digit.
  destruct (in_range 48 57 c) eqn:E1; [apply in_range_iff in E1|].
  { destruct (N.ltb_spec (c - 48) 16); [|lia]. split; [intros H0; injection H0 as <-; lia|]. intros; f_equal; lia. }
  destruct (in_range 65 70 c) eqn:E2; [apply in_range_iff in E2|].
  { destruct (N.ltb_spec (c - 55) 16); [|lia]. split; [intros H0; injection H0 as <-; lia|]. intros; f_equal; lia. }
  destruct (in_range 97 102 c) eqn:E3; [apply in_range_iff in E3|].
  { destruct (N.ltb_spec (c - 87) 16); [|lia]. split; [intros H0; injection H0 as <-; lia|]. intros; f_equal; lia. }
  split; [discriminate|]. intros H. exfalso.
  assert (N : forall lo hi, in_range lo hi c = false -> ~ (lo <= c <= hi)).
  { intros lo hi E Hc. apply in_range_iff in Hc. congruence. }
  apply N in E1, E2, E3. lia.
Qed.
Lemma to_digit_dec : forall c d, to_digit 10 c = Some d <-> dec_digit c d.
Proof.
  intros c d. unfold to_digit, dec_digit.
  destruct (in_range 48 57 c) eqn:E1; [apply in_range_iff in E1|].
  { destruct (N.ltb_spec (c - 48) 10); [|lia]. split; [intros H0; injection H0 as <-; lia|]. intros; f_equal; lia. }
  assert (N : ~ (48 <= c <= 57)) by (intros Hc; apply in_range_iff in Hc; congruence).
  split; [|lia]. intros H. exfalso.
  destruct (in_range 65 70 c) eqn:E2; [apply in_range_iff in E2|].
  { destruct (N.ltb_spec (c - 55) 10); [lia|discriminate]. }
  destruct (in_range 97 102 c) eqn:E3; [apply in_range_iff in E3|discriminate].
  destruct (N.ltb_spec (c - 87) 10); [lia|discriminate].
Qed.

Section Digits.
  Context (chr : N -> N -> Prop) (radix limit : N).
  Hypothesis Hd : forall c d, to_digit radix c = Some d <-> chr c d.

  Lemma fold_mono : forall ds a, radix <> 0 -> a <= fold_left (fun a d => a * radix + d) ds a.
  Proof.
    induction ds as [|d ds IH]; intros a Hr; cbn [fold_left]; [lia|].
    etransitivity; [|now apply IH]. nia.
  Qed.
  Lemma digits_loop_ok : forall s ds a, radix <> 0 -> Forall2 chr s ds ->
    fold_left (fun a d => a * radix + d) ds a < limit ->
    digits_loop radix limit a s = Some (fold_left (fun a d => a * radix + d) ds a).
  Proof.
    intros s ds a Hr H. revert a. induction H as [|c d s ds Hc Hs IH]; intros a Hl; [reflexivity|].
    cbn [digits_loop fold_left] in *. apply Hd in Hc. rewrite Hc.
    pose proof (fold_mono ds (a * radix + d) Hr) as Hm.
    destruct (N.ltb_spec (a * radix + d) limit); [|lia]. now apply IH.
  Qed.
  Lemma digits_loop_some : forall s a v, digits_loop radix limit a s = Some v ->
    exists ds, Forall2 chr s ds /\ v = fold_left (fun a d => a * radix + d) ds a.
  Proof.
    induction s as [|c s IH]; intros a v H; cbn [digits_loop] in H.
    - injection H as <-. exists []. split; [constructor|reflexivity].
    - destruct (to_digit radix c) as [d|] eqn:E; [|discriminate]. destruct (_ <? _); [|discriminate].
      apply IH in H. destruct H as (ds & H1 & H2). exists (d :: ds). split; auto. constructor; auto. now apply Hd.
  Qed.
  Lemma from_str_radix_ok : forall v s, radix <> 0 -> (forall d, ~ chr 43 d) -> number chr radix v s -> v < limit ->
    from_str_radix radix limit s = Some v.
  Proof.
    intros v s Hr Hp (ds & H1 & H2 & ->) Hl.
    assert (E : digits_loop radix limit 0 s = Some (fold_left (fun a d => a * radix + d) ds 0)) by now apply digits_loop_ok.
    unfold from_str_radix. destruct s as [|c s]; [congruence|].
    assert (Hc : c <> 43) by (inversion H1; subst; intros ->; eapply Hp; eauto).
    destruct (N.eq_dec c 43); [congruence|]. rewrite <- E.
    destruct c as [|p]; [reflexivity|]. do 6 (destruct p as [p|p|]; try reflexivity). congruence.
  Qed.
  (** Whatever is accepted is a number, or one behind a plus sign. *)
  Lemma from_str_radix_some : forall v s, from_str_radix radix limit s = Some v ->
    number chr radix v s \/ exists s', s = 43 :: s' /\ number chr radix v s'.
  Proof.
    intros v s H.
    assert (G : forall s, s <> [] -> digits_loop radix limit 0 s = Some v -> number chr radix v s).
    { intros s' Hn E. apply digits_loop_some in E. destruct E as (ds & H1 & H2). exists ds. auto. }
    unfold from_str_radix in H. destruct s as [|c s]; [discriminate|].
    destruct (N.eq_dec c 43) as [->|Hc].
    - destruct s as [|c s]; [discriminate|]. right. exists (c :: s). split; auto. apply G; auto. discriminate.
    - left. apply G; [discriminate|]. rewrite <- H. symmetry.
      destruct c as [|p]; [reflexivity|]. do 6 (destruct p as [p|p|]; try reflexivity). congruence.
  Qed.
End Digits.

Lemma hex_ok : forall limit v s, hex_text v s -> v < limit -> from_str_radix 16 limit s = Some v.
Proof.
  intros. apply (from_str_radix_ok hex_digit); auto using to_digit_hex; [discriminate|].
  unfold hex_digit. intros d. lia.
Qed.
Lemma dec_ok : forall limit v s, dec_text v s -> v < limit -> from_str_radix 10 limit s = Some v.
Proof.
  intros. apply (from_str_radix_ok dec_digit); auto using to_digit_dec; [discriminate|].
  unfold dec_digit. intros d. lia.
Qed.
Lemma number_word : forall (chr : N -> N -> Prop) base v s, (forall c d, chr c d -> ~ blank c) -> number chr base v s -> word s.
Proof.
  intros chr base v s H (ds & H1 & H2 & _). split; auto. clear H2. induction H1; constructor; eauto.
Qed.
Lemma hex_digit_ws : forall c d, hex_digit c d -> ~ blank c.
Proof. intros c d. unfold hex_digit, blank. lia. Qed.
Lemma dec_hex_digit : forall c d, dec_digit c d -> hex_digit c d.
Proof. unfold dec_digit, hex_digit. intros. lia. Qed.
Lemma hex_word : forall v s, hex_text v s -> word s.
Proof. intros v s. apply number_word. exact hex_digit_ws. Qed.
Lemma dec_word : forall v s, dec_text v s -> word s.
Proof. intros v s. apply number_word. intros c d H. eapply hex_digit_ws, dec_hex_digit, H. Qed.
Lemma number_ascii : forall base v s, number hex_digit base v s -> Forall (fun b => b < 128) s.
Proof.
  intros base v s (ds & H & _). induction H as [|c d s ds Hc H IH]; constructor; auto. unfold hex_digit in Hc. lia.
Qed.

(** ** Splitting *)
Lemma split_nonempty : forall p l, split p l <> [].
Proof. intros p [|b l]; cbn [split]; [discriminate|]. destruct (p b); [discriminate|]. destruct (split p l); discriminate. Qed.
Lemma split_app : forall p a b rest, Forall (fun c => p c = false) a -> p b = true ->
  split p (a ++ b :: rest) = a :: split p rest.
Proof.
  intros p a b rest Ha Hb. induction Ha as [|c a Hc Ha IH]; cbn [app split]; [now rewrite Hb|].
  now rewrite Hc, IH.
Qed.
Lemma split_last : forall p a, Forall (fun c => p c = false) a -> split p a = [a].
Proof. intros p a Ha. induction Ha as [|c a Hc Ha IH]; cbn [split]; [reflexivity|]. now rewrite Hc, IH. Qed.

Lemma words_ws : forall b l, is_ws b = true -> words (b :: l) = words l.
Proof. intros b l H. unfold words. cbn [split]. rewrite H. reflexivity. Qed.
Lemma words_word : forall w b l, word w -> is_ws b = true -> words (w ++ b :: l) = w :: words l.
Proof.
  intros w b l Hw Hb. unfold words. rewrite split_app by (auto; now apply word_ws). cbn [filter].
  destruct w; [destruct Hw; congruence|reflexivity].
Qed.
Lemma words_last : forall w, word w -> words w = [w].
Proof. intros w Hw. unfold words. rewrite split_last by now apply word_ws. destruct w; [destruct Hw; congruence|reflexivity]. Qed.
Lemma space_ws : forall c, c = 32 \/ c = 9 -> is_ws c = true.
Proof. intros c [->| ->]; reflexivity. Qed.
Lemma words_spaces : forall s l, Forall (fun c => c = 32 \/ c = 9) s -> words (s ++ l) = words l.
Proof.
  intros s l H. induction H as [|c s Hc H IH]; [reflexivity|]. cbn [app]. rewrite words_ws by now apply space_ws. exact IH.
Qed.
Lemma words_next : forall w s l, word w -> spaces s -> words (w ++ s ++ l) = w :: words l.
Proof.
  intros w s l Hw [Hs1 Hs2]. destruct s as [|c s]; [congruence|]. inversion Hs2; subst. cbn [app].
  rewrite words_word by (auto; now apply space_ws). f_equal. now apply words_spaces.
Qed.

Lemma utf8_app : forall a b, utf8_valid a = true -> utf8_valid b = true -> utf8_valid (a ++ b) = true.
Proof.
  intros a b Ha Hb. apply utf8_valid_iff in Ha, Hb. destruct Ha as (c1 & H1 & ->), Hb as (c2 & H2 & ->).
  apply utf8_valid_iff. exists (c1 ++ c2). split; [now apply Forall_app|]. unfold utf8_enc. now rewrite flat_map_app.
Qed.

Lemma text_valid : forall s, text s <-> utf8_valid s = true.
Proof. intros s. symmetry. apply utf8_valid_iff. Qed.
Lemma spaces_valid : forall s, spaces s -> utf8_valid s = true.
Proof. intros s [_ H]. apply utf8_ascii. eapply Forall_impl; [|exact H]. cbv beta. intros. lia. Qed.
Lemma word_lf : forall s, word s -> Forall (fun b => b <> 10) s.
Proof. intros s [_ H]. eapply Forall_impl; [|exact H]. unfold blank. cbv beta. intros. lia. Qed.
Lemma spaces_lf : forall s, spaces s -> Forall (fun b => b <> 10) s.
Proof. intros s [_ H]. eapply Forall_impl; [|exact H]. cbv beta. intros. lia. Qed.

(** A text of lines that end in line feeds *)
Lemma text_of_lines : forall A (line : A -> list N -> Prop) es t, text_of line es t ->
  (forall e s, line e s -> Forall (fun b => b <> 10) s) ->
  exists ls, Forall2 line es ls /\ read_lines t = map (fun l => l ++ [10]) ls.
Proof.
  intros A line es t H Hl. induction H as [|e s es t He H IH].
  - exists []. split; [constructor|reflexivity].
  - destruct IH as (ls & H1 & H2). exists (s :: ls). split; [now constructor|]. cbn [map].
    rewrite read_lines_app by eauto. now rewrite H2.
Qed.
Lemma read_lines_lines : forall ls, Forall (Forall (fun b => b <> 10)) ls ->
  read_lines (flat_map (fun l => l ++ [10]) ls) = map (fun l => l ++ [10]) ls.
Proof.
  induction 1 as [|l ls Hl H IH]; [reflexivity|]. cbn [flat_map map]. rewrite <- app_assoc. cbn [app].
  rewrite read_lines_app by auto. now rewrite IH.
Qed.
Lemma fold_lines_ok : forall A (f : A -> list N -> A) lines acc, Forall (fun l => utf8_valid l = true) lines ->
  fold_lines f acc lines = Ok (fold_left f lines acc).
Proof.
  intros A f lines acc H. revert acc. induction H as [|l lines Hl H IH]; intros acc; [reflexivity|].
  cbn [fold_lines fold_left]. now rewrite Hl, IH.
Qed.

(** ** Checks, for examples *)
Lemma hex_check : forall v s, s <> [] -> digits_loop 16 (2 ^ 70) 0 s = Some v -> hex_text v s.
Proof.
  intros v s Hn H. apply (digits_loop_some hex_digit) in H; [|exact to_digit_hex].
  destruct H as (ds & H1 & H2). exists ds. auto.
Qed.
Lemma dec_check : forall v s, s <> [] -> digits_loop 10 (2 ^ 70) 0 s = Some v -> dec_text v s.
Proof.
  intros v s Hn H. apply (digits_loop_some dec_digit) in H; [|exact to_digit_dec].
  destruct H as (ds & H1 & H2). exists ds. auto.
Qed.
Lemma word_check : forall s, negb (is_empty s) && forallb (fun c => negb (is_ws c)) s = true -> word s.
Proof.
  intros s H. apply andb_true_iff in H. destruct H as [H1 H2]. split; [destruct s; [discriminate|congruence]|].
  rewrite forallb_forall in H2. apply Forall_forall. intros c Hc. apply H2 in Hc. intros Hb. apply is_ws_blank in Hb.
  rewrite Hb in Hc. discriminate.
Qed.
Lemma spaces_check : forall s, negb (is_empty s) && forallb (fun c => (c =? 32) || (c =? 9)) s = true -> spaces s.
Proof.
  intros s H. apply andb_true_iff in H. destruct H as [H1 H2]. split; [destruct s; [discriminate|congruence]|].
  rewrite forallb_forall in H2. apply Forall_forall. intros c Hc. apply H2, orb_true_iff in Hc.
  rewrite !N.eqb_eq in Hc. auto.
Qed.
