(** * C70: errors with contexts *)

From Coq Require Import String.
From Verif Require Import Base Errors ErrorsSpec.
Local Open Scope string_scope.

(** Every error is one made from an error of another library, with contexts. *)
Theorem C70_shape : forall e, exists e0 k f b l, first e0 k f b /\ e = add_contexts e0 l.
Proof.
  induction e as [f b|k f b|f b|c s IH|c s IH].
  - exists (Dwarf f b), EInvalidDwarf, f, b, []. split; constructor.
  - exists (Io k f b), (kind (Io k f b)), f, b, []. split; [|reflexivity]. destruct k; cbn [kind]; try (apply FirstIo; cbn [In]; tauto). apply FirstElse.
  - exists (Std f b), EOther, f, b, []. split; constructor.
  - destruct IH as (e0 & k & f & b & l & H & ->). exists e0, k, f, b, (l ++ [Owned c])%list. split; auto. unfold add_contexts. now rewrite fold_left_app.
  - destruct IH as (e0 & k & f & b & l & H & ->). exists e0, k, f, b, (l ++ [Borrowed c])%list. split; auto. unfold add_contexts. now rewrite fold_left_app.
Qed.
Print Assumptions C70_shape.

Lemma first_kind : forall e k f b, first e k f b -> kind e = k /\ backtrace e = b.
Proof.
  intros e k f b H. destruct H as [f b|f b|k f b r H|n f b]; auto. split; auto. cbn [In] in H.
  repeat (destruct H as [H|H]; [injection H as <- <-; reflexivity|]). destruct H.
Qed.
Lemma layers : forall l e, kind (add_contexts e l) = kind e /\ backtrace (add_contexts e l) = backtrace e.
Proof.
  induction l as [|c l IH]; intros e; [auto|]. unfold add_contexts in *. cbn [fold_left]. destruct (IH (layer_context e c)) as (-> & ->). destruct c; auto.
Qed.
Lemma context_results : forall A (r : A + error) l,
  fold_left context l r = match r with inl a => inl a | inr e => inr (add_contexts e l) end.
Proof.
  intros A r l. revert r. induction l as [|c l IH]; intros [a|e]; auto; cbn [fold_left]; rewrite IH; reflexivity.
Qed.
(** Adding contexts changes neither success, nor the kind of an error, nor its
    backtrace. *)
Theorem C70_kind : forall A (r : A + error) l,
  match r with
  | inl a => fold_left context l r = inl a
  | inr e0 => forall k f b, first e0 k f b -> exists e, fold_left context l r = inr e /\ kind e = k /\ backtrace e = b
  end.
Proof.
  intros A r l. rewrite context_results. destruct r as [a|e0]; [reflexivity|]. intros k f b H. exists (add_contexts e0 l).
  split; [reflexivity|]. destruct (layers l e0) as (-> & ->). exact (first_kind e0 k f b H).
Qed.
Print Assumptions C70_kind.

Fixpoint texts (e : error) : list string :=
  match e with
  | Dwarf f _ | Io _ f _ | Std f _ => foreign_texts f
  | ContextOwned c s | ContextStatic c s => c :: texts s
  end.
Lemma texts_layers : forall l e, texts (add_contexts e l) = (rev (map cow_text l) ++ texts e)%list.
Proof.
  induction l as [|c l IH]; intros e; [reflexivity|]. unfold add_contexts in *. cbn [fold_left map rev]. rewrite IH, <- app_assoc.
  f_equal. now destruct c.
Qed.
Lemma str_app_nil : forall s, s ++ "" = s.
Proof. induction s as [|a s IH]; cbn; congruence. Qed.
Lemma str_app_assoc : forall a b c, a ++ (b ++ c) = (a ++ b) ++ c.
Proof. induction a as [|x a IH]; intros b c; cbn; congruence. Qed.
Lemma each_cons : forall before t l, each_after before (t :: l) = before ++ t ++ each_after before l.
Proof.
  intros before t l. unfold each_after. cbn [map]. destruct l as [|t' l]; cbn [map String.concat].
  - now rewrite str_app_nil.
  - change ("" ++ ?x) with x. now rewrite <- str_app_assoc.
Qed.
Fixpoint foreign_ind' (P : foreign -> Prop) (H0 : forall t a, P (Foreign t a None)) (H1 : forall t a s, P s -> P (Foreign t a (Some s))) (e : foreign) : P e :=
  match e with
  | Foreign t a None => H0 t a
  | Foreign t a (Some s) => H1 t a s (foreign_ind' P H0 H1 s)
  end.
Lemma no_more : forall fuel before, causes fuel before None = "".
Proof. intros [|fuel] before; reflexivity. Qed.
Definition f_rest (f : foreign) : list string := match f_source f with Some s => foreign_texts s | None => [] end.
Lemma foreign_hd : forall f, foreign_texts f = f_text f :: f_rest f.
Proof. intros [t a s]. reflexivity. Qed.
Lemma causes_foreign : forall f fuel before, (f_depth f <= fuel)%nat -> causes fuel before (Some (AForeign f)) = each_after before (foreign_texts f).
Proof.
  induction f as [t a|t a s IH] using foreign_ind'; intros fuel before H; (destruct fuel as [|fuel]; [cbn in H; lia|]);
    cbn [foreign_texts]; rewrite each_cons; cbn [causes any_text any_source f_display f_text f_source option_map].
  - now rewrite no_more.
  - rewrite IH; [reflexivity|]. cbn [f_depth] in H. lia.
Qed.
Lemma causes_rest : forall f fuel before, (f_depth f <= S fuel)%nat -> causes fuel before (option_map AForeign (f_source f)) = each_after before (f_rest f).
Proof.
  intros [t a [s|]] fuel before H; cbn [f_source option_map]; unfold f_rest; cbn [f_source].
  - apply causes_foreign. cbn [f_depth] in H. lia.
  - apply no_more.
Qed.
Lemma causes_error : forall e fuel before, (depth e <= fuel)%nat -> causes fuel before (Some (AErr e)) = each_after before (texts e).
Proof.
  assert (D : forall f, (0 < f_depth f)%nat) by (intros [t a s]; cbn; lia).
  induction e as [f b|k f b|f b|c s IH|c s IH]; intros fuel before H; cbn [depth] in H;
    (destruct fuel as [|fuel]; [try (specialize (D f)); lia|]); cbn [causes any_text any_source source display_own f_display texts];
    rewrite ?foreign_hd, each_cons, ?causes_rest by lia; try reflexivity; rewrite IH by lia; reflexivity.
Qed.
Definition rest_text (rest : list string) : string :=
  match rest with [] => "" | _ => newline ++ newline ++ "Caused by:" ++ each_after (newline ++ "    ") rest end.
Lemma display_texts : forall e, exists t l, texts e = t :: l /\ display false e = t /\
  display true e = display_own true e ++ each_after ": " l /\
  debug e = "Error: " ++ t ++ rest_text l ++ trace_text (backtrace e).
Proof.
  assert (R : forall f l, f_source f = None <-> f_rest f = [] \/ (l : list string) <> l).
  { intros [t a [[t' a' s']|]] l; unfold f_rest; cbn; split; intuition congruence. }
  assert (F : forall e f, source e = option_map AForeign (f_source f) -> texts e = foreign_texts f -> display_own false e = f_text f -> depth e = f_depth f ->
    exists t l, texts e = t :: l /\ display false e = t /\ display true e = display_own true e ++ each_after ": " l /\
    debug e = "Error: " ++ t ++ rest_text l ++ trace_text (backtrace e)).
  { intros e f Hs Ht Ho Hd. exists (f_text f), (f_rest f). rewrite Ht. split; [apply foreign_hd|]. unfold display, debug. rewrite Ho, Hs, Hd, str_app_nil.
    split; [reflexivity|]. split; [now rewrite causes_rest by lia|]. f_equal. f_equal. f_equal. unfold rest_text.
    destruct (f_source f) as [s|] eqn:Es; cbn [option_map].
    - assert (E := causes_rest f (f_depth f) (newline ++ "    ") ltac:(lia)). rewrite Es in E. cbn [option_map] in E. rewrite E.
      unfold f_rest. rewrite Es, foreign_hd. reflexivity.
    - unfold f_rest. now rewrite Es. }
  intros [f b|k f b|f b|c s|c s]; try (apply (F _ f); reflexivity).
  all: exists c, (texts s); unfold display, debug; cbn [texts display_own source depth]; rewrite str_app_nil.
  all: split; [reflexivity|]; split; [reflexivity|]; rewrite !causes_error by lia; split; [reflexivity|]; f_equal; f_equal; f_equal.
  all: unfold rest_text; destruct (texts s) eqn:E; [|reflexivity]; exfalso; destruct s as [f b|k f b|f b|c' s|c' s]; cbn [texts] in E; try discriminate; rewrite foreign_hd in E; discriminate.
Qed.

(** [{}] shows the context added last, or the error if there is none; [{:#}]
    shows that, the other contexts, the error and its causes, each once and in
    this order, and [{:?}] the same in lines, with the backtrace of the error. *)
Theorem C70_texts : forall e k f b l, first e k f b ->
  forall t rest, (rev (map cow_text l) ++ foreign_texts f)%list = t :: rest ->
  display false (add_contexts e l) = t /\
  (l <> [] \/ f_alternate f = f_text f -> display true (add_contexts e l) = t ++ each_after ": " rest) /\
  debug (add_contexts e l) = "Error: " ++ t ++
    match rest with [] => "" | _ => newline ++ newline ++ "Caused by:" ++ each_after (newline ++ "    ") rest end ++ trace_text b.
Proof.
  intros e k f b l He t rest E. destruct (display_texts (add_contexts e l)) as (t' & l' & E1 & E2 & E3 & E4).
  rewrite texts_layers in E1. assert (Et : texts e = foreign_texts f) by (destruct He; reflexivity).
  rewrite Et, E in E1. injection E1 as <- <-. destruct (layers l e) as (_ & Hb). destruct (first_kind e k f b He) as (_ & Hb').
  rewrite Hb, Hb' in E4. split; [exact E2|]. split; [|exact E4]. intros Hl. rewrite E3. f_equal.
  assert (Dl : l = [] \/ exists l1 c, l = (l1 ++ [c])%list).
  { destruct l as [|c0 l0]; [auto|]. right. destruct (exists_last (l := c0 :: l0)) as (l1 & c & El); [discriminate|]. eauto. }
  destruct Dl as [->|(l1 & c & ->)].
  - destruct Hl as [Hl|Hl]; [congruence|]. cbn [map rev app] in E. rewrite foreign_hd in E. injection E as <- _. cbn [add_contexts fold_left]. unfold add_contexts. cbn [fold_left].
    destruct He; exact Hl.
  - rewrite map_app, rev_app_distr in E. cbn [map rev app] in E. injection E as <- _.
    unfold add_contexts. rewrite fold_left_app. destruct c; reflexivity.
Qed.
Print Assumptions C70_texts.

(** Errors made by the library for missing things have the kind asked for, and
    what is there is left as it is. *)
Theorem C70_made : forall A (o : option A) text b l,
  match o with
  | Some a => forall k, fold_left context l (ok_or_error o k text b) = inl a
  | None =>
      (forall k r, first (Io k (Foreign text text None) b) r (Foreign text text None) b ->
        exists e, fold_left context l (ok_or_error o k text b) = inr e /\ kind e = r /\
          display true e = match rev (map cow_text l ) with [] => text | c :: cs => c ++ each_after ": " (cs ++ [text]) end) /\
      (exists e, ok_or_invalid_data o text b = inr e /\ kind e = EInvalidData) /\
      (exists e, ok_or_invalid_input o text b = inr e /\ kind e = EInvalidInput) /\
      (exists e, ok_or_not_found o text b = inr e /\ kind e = ENotFound) /\
      (exists e, ok_or_unexpected_eof o text b = inr e /\ kind e = EUnexpectedEof)
  end.
Proof.
  intros A [a|] text b l; [intros k; now rewrite context_results|]. split; [|repeat split; eexists; split; reflexivity].
  intros k r H. rewrite context_results. cbn [ok_or_error]. eexists. split; [reflexivity|]. unfold with_io_error. destruct (layers l (Io k (Foreign text text None) b)) as (-> & _).
  destruct (first_kind _ _ _ _ H) as (-> & _). split; [reflexivity|]. assert (T := C70_texts _ _ _ _ l H). cbn [foreign_texts] in T.
  destruct (rev (map cow_text l)) as [|c cs]; cbn [app] in T; destruct (T _ _ eq_refl) as (_ & T1 & _); rewrite T1 by auto; [apply str_app_nil|reflexivity].
Qed.
Print Assumptions C70_made.

(** An error of this library that is boxed and made an error again loses its
    kind, and [{:#}] shows its causes twice. *)
Theorem C70_boxed_refuted : exists e, kind e = ENotFound /\ display true e = "open: no" /\
  kind (from_box (as_foreign e) None) = EOther /\ display true (from_box (as_foreign e) None) = "open: no: no" /\
  display true (from_io IoNotFound (as_foreign e) None) = "open: no: no".
Proof. exists (ContextStatic "open" (with_io_error IoNotFound "no" None)). repeat split. Qed.
Print Assumptions C70_boxed_refuted.

Lemma boxed_texts : forall e fuel, (depth e <= fuel)%nat -> foreign_texts (source_as_foreign (S fuel) (AErr e)) = texts e.
Proof.
  assert (F : forall f fuel, (f_depth f <= fuel)%nat -> foreign_texts (source_as_foreign fuel (AForeign f)) = foreign_texts f).
  { induction f as [t a|t a s IH] using foreign_ind'; intros fuel H; (destruct fuel as [|fuel]; [cbn in H; lia|]); [reflexivity|].
    cbn [source_as_foreign foreign_texts any_text f_display f_text any_source f_source option_map]. rewrite IH; [reflexivity|]. cbn [f_depth] in H. lia. }
  assert (G : forall f fuel, (f_depth f <= S fuel)%nat ->
    match option_map (source_as_foreign fuel) (option_map AForeign (f_source f)) with Some s => foreign_texts s | None => [] end = f_rest f).
  { intros [t a [s|]] fuel H; unfold f_rest; cbn [f_source option_map]; [|reflexivity]. apply F. cbn [f_depth] in H. lia. }
  induction e as [f b|k f b|f b|c s IH|c s IH]; intros fuel H; cbn [depth] in H;
    cbn [source_as_foreign foreign_texts any_text display_own f_display any_source source texts]; rewrite ?foreign_hd, ?G by lia; try reflexivity;
    cbn [option_map]; (destruct fuel as [|fuel]; [lia|]); rewrite IH by lia; reflexivity.
Qed.
(** With a context on top, everything is shown once. *)
Theorem C70_boxed : forall e k f b l c b', first e k f b ->
  display true (layer_context (from_box (as_foreign (add_contexts e l)) b') c) =
  cow_text c ++ each_after ": " (rev (map cow_text l) ++ foreign_texts f).
Proof.
  intros e k f b l c b' H. assert (Et : texts e = foreign_texts f) by (destruct H; reflexivity).
  assert (T := C70_texts (from_box (as_foreign (add_contexts e l)) b') EOther _ b' [c] (FirstStd _ _)). cbn [map rev app] in T.
  destruct (T _ _ eq_refl) as (_ & T1 & _).
  change (add_contexts ?x [c]) with (layer_context x c) in T1. rewrite T1 by (left; discriminate).
  f_equal. f_equal. unfold as_foreign. rewrite boxed_texts by lia. now rewrite texts_layers, Et.
Qed.
Print Assumptions C70_boxed.

Example C70_ex : let e := add_contexts (Io IoNotFound (Foreign "No such file" "No such file" None) (Some "main")) [Borrowed "failed to open"; Owned "failed to symbolize"] in
  display true e = "failed to symbolize: failed to open: No such file" /\ kind e = ENotFound /\
  debug e = ("Error: failed to symbolize" ++ newline ++ newline ++ "Caused by:" ++ newline ++ "    failed to open" ++ newline ++ "    No such file" ++
    newline ++ newline ++ "Stack backtrace:" ++ newline ++ "main").
Proof. repeat split. Qed.
