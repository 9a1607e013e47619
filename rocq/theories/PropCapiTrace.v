(** * C69: lines of traces *)

From Verif Require Import Base Util UtilProofs CapiSpec CapiTrace CapiTraceSpec.
Local Open Scope N_scope.

Lemma until_found : forall x buf l, ~ In 10 x -> read_until 10 buf (x ++ 10 :: l) = (nlen x + 1, buf ++ x ++ [10], l).
Proof.
  induction x as [|b x IH]; intros buf l H; cbn [app read_until].
  - rewrite N.eqb_refl. reflexivity.
  - rewrite (proj2 (N.eqb_neq b 10)) by (intros ->; apply H; now left). rewrite IH by (intros K; apply H; now right).
    rewrite nlen_cons, <- app_assoc. cbn [app]. try reflexivity; repeat f_equal; lia.
Qed.
Lemma until_end : forall x buf, ~ In 10 x -> read_until 10 buf x = (nlen x, buf ++ x, []).
Proof.
  induction x as [|b x IH]; intros buf H; cbn [read_until].
  - now rewrite app_nil_r.
  - rewrite (proj2 (N.eqb_neq b 10)) by (intros ->; apply H; now left). rewrite IH by (intros K; apply H; now right).
    rewrite nlen_cons, <- app_assoc. cbn [app]. try reflexivity; repeat f_equal; lia.
Qed.
Lemma cstr_line : forall l, cstr_from (l ++ [0]) = Ok (c_string l).
Proof.
  induction l as [|b l IH]; [reflexivity|]. cbn [app cstr_from c_string]. destruct (b =? 0); [reflexivity|]. now rewrite IH.
Qed.
Lemma last_line : forall l, last_is 10 (l ++ [10]) = true.
Proof. intros l. unfold last_is. rewrite rev_app_distr. reflexivity. Qed.
Lemma last_none : forall l, ~ In 10 l -> last_is 10 l = false.
Proof.
  intros l H. unfold last_is. destruct (rev l) as [|b r] eqn:E; auto. apply N.eqb_neq. intros ->. apply H.
  apply in_rev. rewrite E. now left.
Qed.
(** A text ends before or behind its first line feed. *)
Lemma first_line : forall l, ~ In 10 l \/ exists x r, l = x ++ 10 :: r /\ ~ In 10 x.
Proof.
  induction l as [|b l IH]; [left; auto|]. destruct (N.eq_dec b 10) as [->|Hb].
  - right. exists [], l. auto.
  - destruct IH as [H|(x & r & -> & H)].
    + left. intros [K|K]; congruence || contradiction.
    + right. exists (b :: x), r. split; auto. intros [K|K]; congruence || contradiction.
Qed.
Lemma split_lines : forall s, exists ls rest, in_lines s ls rest.
Proof.
  intros s. remember (length s) as n eqn:En. revert s En. induction n as [n IH] using lt_wf_ind. intros s ->.
  destruct (first_line s) as [H|(x & r & -> & H)].
  - exists [], s. repeat split; auto.
  - destruct (IH (length r)) with (s := r) as (ls & rest & -> & F & R); [rewrite app_length; cbn; lia|reflexivity|].
    exists ((x ++ [10]) :: ls), rest. split; [|split; auto].
    + cbn [concat]. rewrite <- !app_assoc. reflexivity.
    + constructor; auto. exists x. auto.
Qed.
(** A text has lines in one way only. *)
Lemma split_app : forall (x y r r' : list N), ~ In 10 x -> ~ In 10 y -> x ++ 10 :: r = y ++ 10 :: r' -> x = y /\ r = r'.
Proof.
  induction x as [|b x IH]; intros [|b' y] r r' Hx Hy E; cbn in E.
  - injection E as ->. auto.
  - injection E as <- E. exfalso. apply Hy. now left.
  - injection E as -> E. exfalso. apply Hx. now left.
  - injection E as -> E. destruct (IH y r r') as (-> & ->); auto.
    + intros K. apply Hx. now right.
    + intros K. apply Hy. now right.
Qed.

(** One write takes the whole chunk, and hands out the lines it completes. *)
Lemma loop_ok : forall fuel buf chunk read ls rest, ~ In 10 buf -> (length chunk < fuel)%nat -> in_lines (buf ++ chunk) ls rest ->
  write_loop fuel buf chunk read = Ok (map c_string ls, rest, read + nlen chunk).
Proof.
  induction fuel as [|fuel IH]; intros buf chunk read ls rest Hb Hf (E & F & R); [lia|]. cbn [write_loop].
  destruct (first_line chunk) as [H|(x & r & -> & H)].
  - rewrite until_end by exact H.
    assert (Hn : ~ In 10 (buf ++ chunk)) by (rewrite in_app_iff; tauto).
    assert (ls = [] /\ rest = buf ++ chunk) as (-> & ->).
    { destruct ls as [|l ls]; [rewrite E; auto|]. exfalso. apply Hn. rewrite E. inversion F as [|l' ls' (y & -> & _) _]; subst.
      cbn [concat]. rewrite !in_app_iff. left. left. right. now left. }
    rewrite (last_none _ Hn). destruct (N.eqb_spec (nlen chunk) 0) as [Z|Z]; cbn [map]; [|reflexivity].
    now rewrite Z, N.add_0_r.
  - rewrite until_found by exact H. rewrite (proj2 (N.eqb_neq _ _)) by lia.
    assert (Hl : ~ In 10 (buf ++ x)) by (rewrite in_app_iff; tauto).
    destruct ls as [|l ls].
    { exfalso. apply R. cbn [concat app] in E. rewrite <- E, !in_app_iff. right. right. now left. }
    inversion F as [|l' ls' (y & -> & Hy) F']; subst. cbn [concat] in E.
    rewrite <- !app_assoc in E. cbn [app] in E. rewrite app_assoc in E. destruct (split_app _ _ _ _ Hl Hy E) as (E1 & E2).
    rewrite (app_assoc buf x [10]), last_line, cstr_line. cbn [bind].
    rewrite (IH [] r (read + (nlen x + 1)) ls rest); [| auto | rewrite app_length in Hf; cbn in Hf; lia | split; [exact E2|auto]].
    cbn [bind map]. rewrite E1. f_equal. f_equal. rewrite nlen_app, nlen_cons. lia.
Qed.
Lemma rest_keeps : forall s ls rest, in_lines s ls rest -> ~ In 10 rest.
Proof. intros s ls rest (_ & _ & H). exact H. Qed.
Lemma write_ok : forall buf chunk ls rest, ~ In 10 buf -> in_lines (buf ++ chunk) ls rest ->
  lw_write buf chunk = Ok (map c_string ls, rest, nlen chunk).
Proof. intros buf chunk ls rest Hb H. unfold lw_write. rewrite (loop_ok _ buf chunk 0 ls rest); auto. Qed.
Lemma write_all_ok : forall buf chunk ls rest, ~ In 10 buf -> in_lines (buf ++ chunk) ls rest ->
  lw_write_all (S (length chunk)) buf chunk = Ok (map c_string ls, rest).
Proof.
  intros buf chunk ls rest Hb H. cbn [lw_write_all]. destruct chunk as [|b chunk].
  - rewrite app_nil_r in H. destruct H as (E & F & R). destruct ls as [|l ls]; [cbn in E; now subst|].
    exfalso. apply Hb. rewrite E. inversion F as [|l' ls' (y & -> & _) _]; subst. cbn [concat]. rewrite !in_app_iff. left. left. right. now left.
  - rewrite (write_ok _ _ ls rest Hb H). cbn [bind]. rewrite (proj2 (N.eqb_neq _ _)) by (rewrite nlen_cons; lia).
    rewrite ndrop_skipn. unfold nlen. rewrite Nnat.Nat2N.id, skipn_all. cbn [length lw_write_all bind]. now rewrite app_nil_r.
Qed.
Lemma run_ok : forall chunks buf ls rest, ~ In 10 buf -> in_lines (buf ++ concat chunks) ls rest ->
  lw_run buf chunks = Ok (map c_string ls, rest).
Proof.
  induction chunks as [|c chunks IH]; intros buf ls rest Hb H; cbn [lw_run].
  - cbn [concat] in H. rewrite app_nil_r in H. destruct H as (E & F & R). destruct ls as [|l ls]; [cbn in E; now subst|].
    exfalso. apply Hb. rewrite E. inversion F as [|l' ls' (y & -> & _) _]; subst. cbn [concat]. rewrite !in_app_iff. left. left. right. now left.
  - destruct (split_lines (buf ++ c)) as (ls1 & rest1 & H1). rewrite (write_all_ok buf c ls1 rest1 Hb H1). cbn [bind].
    destruct H1 as (E1 & F1 & R1). destruct (split_lines (rest1 ++ concat chunks)) as (ls2 & rest2 & H2).
    rewrite (IH rest1 ls2 rest2 R1 H2). cbn [bind]. destruct H2 as (E2 & F2 & R2). destruct H as (E & F & R).
    cbn [concat] in E. rewrite app_assoc, E1, <- app_assoc, E2, app_assoc, <- concat_app in E.
    assert (U : forall l1 l2 r1 r2, Forall line l1 -> Forall line l2 -> ~ In 10 r1 -> ~ In 10 r2 -> concat l1 ++ r1 = concat l2 ++ r2 -> l1 = l2 /\ r1 = r2).
    { clear. induction l1 as [|l l1 IHl]; intros [|l' l2] r1 r2 F1 F2 R1 R2 E.
      - auto.
      - exfalso. apply R1. cbn [concat app] in E. rewrite E. inversion F2 as [|a b (y & -> & _) _]; subst. rewrite !in_app_iff. left. left. right. now left.
      - exfalso. apply R2. cbn [concat app] in E. rewrite <- E. inversion F1 as [|a b (y & -> & _) _]; subst. rewrite !in_app_iff. left. left. right. now left.
      - inversion F1 as [|a b (x & -> & Hx) F1']; inversion F2 as [|a' b' (y & -> & Hy) F2']; subst. cbn [concat] in E.
        rewrite <- !app_assoc in E. cbn [app] in E. destruct (split_app _ _ _ _ Hx Hy E) as (-> & E').
        destruct (IHl l2 r1 r2) as (-> & ->); auto. }
    destruct (U (ls1 ++ ls2) ls rest2 rest) as (<- & <-); auto; [now apply Forall_app|]. now rewrite map_app.
Qed.

(** However a text is cut into pieces, the callback gets its complete lines,
    in order, each up to its first zero if it has one; what is behind the last
    line feed is kept. *)
Theorem C69_lines : forall chunks ls rest, in_lines (concat chunks) ls rest -> lw_run [] chunks = Ok (map c_string ls, rest).
Proof. intros chunks ls rest H. apply run_ok; auto. Qed.
Theorem C69_plain : forall chunks ls rest, in_lines (concat chunks) ls rest -> plain (concat chunks) ->
  lw_run [] chunks = Ok (ls, rest).
Proof.
  intros chunks ls rest H P. rewrite (C69_lines chunks ls rest H). f_equal. f_equal. destruct H as (E & _ & _). rewrite E in P. clear E.
  induction ls as [|l ls IH]; [reflexivity|]. cbn [map concat] in *. f_equal.
  - assert (Pl : ~ In 0 l) by (intros K; apply P; rewrite !in_app_iff; auto). clear - Pl.
    induction l as [|b l IH]; [reflexivity|]. cbn [c_string]. rewrite (proj2 (N.eqb_neq b 0)) by (intros ->; apply Pl; now left).
    f_equal. apply IH. intros K. apply Pl. now right.
  - apply IH. intros K. apply P. rewrite in_app_iff in *. destruct K; [left|right; auto]. rewrite in_app_iff. auto.
Qed.
(** Every piece is taken as a whole, so that nothing is written twice. *)
Theorem C69_taken : forall buf chunk, ~ In 10 buf -> exists out buf', lw_write buf chunk = Ok (out, buf', nlen chunk) /\ ~ In 10 buf'.
Proof.
  intros buf chunk Hb. destruct (split_lines (buf ++ chunk)) as (ls & rest & H). exists (map c_string ls), rest.
  split; [now apply write_ok|]. eapply rest_keeps; eauto.
Qed.
(** Events that end in a line feed and have no zeros come out as they were
    written, whatever the pieces. *)
Theorem C69_events : forall events lss, Forall2 (fun e ls => in_lines (concat e) ls [] /\ plain (concat e)) events lss ->
  trace_events events = Ok (concat lss).
Proof.
  intros events lss H. induction H as [|e ls events lss (H1 & H2) H IH]; [reflexivity|]. cbn [trace_events concat].
  rewrite (C69_plain e ls [] H1 H2). cbn [bind]. rewrite IH. reflexivity.
Qed.
(** Lines with a zero in them arrive without the rest of the line, and without
    a line feed. *)
Theorem C69_zero_refuted : exists chunks ls, in_lines (concat chunks) ls [] /\ exists out, lw_run [] chunks = Ok (out, []) /\ out <> ls /\ ~ In 10 (concat out).
Proof.
  exists [[97; 0; 98; 10]], [[97; 0; 98; 10]]. split; [|exists [[97]]; split; [reflexivity|split; [discriminate|intros [K|[]]; discriminate]]].
  split; [reflexivity|]. split; [|auto]. constructor; [|constructor]. exists [97; 0; 98]. split; auto. intros [K|[K|[K|[]]]]; discriminate.
Qed.
(** An event without a line feed at its end is lost. *)
Theorem C69_unfinished_refuted : exists events, concat (concat events) <> [] /\ trace_events events = Ok [].
Proof. exists [[[97; 98]]]. split; [discriminate|reflexivity]. Qed.
Example demo_trace : lw_run [] [[97]; [98; 10; 99]; []; [10; 10; 100]] = Ok ([[97; 98; 10]; [99; 10]; [10]], [100]) /\
  in_lines (concat [[97]; [98; 10; 99]; []; [10; 10; 100]]) [[97; 98; 10]; [99; 10]; [10]] [100].
Proof.
  split; [reflexivity|]. split; [reflexivity|]. split; [|intros [K|[]]; discriminate].
  repeat constructor; [exists [97; 98]|exists [99]|exists []]; split; auto; cbn; intuition discriminate.
Qed.
Print Assumptions C69_lines.
Print Assumptions C69_plain.
Print Assumptions C69_taken.
Print Assumptions C69_events.
Print Assumptions C69_zero_refuted.
Print Assumptions C69_unfinished_refuted.
