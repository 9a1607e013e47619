(** * Proofs about the Gsym model *)

From Verif Require Import Base Util UtilProofs Text Sym Total Gsym.
Local Open Scope N_scope.

(** ** Totality on arbitrary data *)

Ltac tot :=
  repeat first
    [ apply total_ok | apply total_err
    | apply total_bind; [|intros ? ?]
    | apply total_ok_or
    | apply total_of_option
    | apply total_read_slice | apply total_read_le | apply total_align
    | apply total_read_cstr | apply total_read_u64_leb128 | apply total_read_i64_leb128
    | apply total_uadd ].

Lemma total_signed : forall m w z, total m (signed m w z).
Proof. intros. unfold signed. destruct (_ && _); auto. destruct m; auto. split; discriminate. Qed.
Lemma total_pod_slice : forall m a b c d r, total m (read_pod_slice_ref a b c d r).
Proof.
  intros. unfold read_pod_slice_ref. tot. destruct a1. destruct (_ =? 0); auto.
Qed.
Lemma total_get_from : forall m n l, total m (get_from n l).
Proof. intros. unfold get_from. destruct (n <=? nlen l); auto. Qed.
Global Hint Resolve total_signed total_pod_slice total_get_from : core.

Lemma total_parse_header : forall m ptr data, total m (parse_header ptr data).
Proof.
  intros. unfold parse_header. apply total_ok_or. unfold parse_header_impl.
  unfold read_u8, read_u16, read_u32, read_u64.
  apply total_bind; [apply total_read_le|]. intros [magic r] _.
  destruct (negb _); auto.
  apply total_bind; [apply total_read_le|]. intros [version r0] _.
  destruct (negb _); auto.
  repeat (apply total_bind; [first [apply total_read_le | apply total_read_slice
     | apply total_align | apply total_pod_slice | apply total_get_from]|]; intros ? _;
     try match goal with a : _ * _ |- _ => destruct a end); auto.
Qed.

Lemma total_find_addr_impl : forall m g s a, total m (find_addr_impl g s a).
Proof.
  intros. unfold find_addr_impl. apply total_bind; [auto|]. intros [t r] _. apply total_of_option.
Qed.
Lemma total_find_addr : forall m g a, total m (find_addr g a).
Proof.
  intros. unfold find_addr. apply total_bind; [apply total_of_option|]. intros rel _.
  repeat (destruct (_ =? _); [apply total_find_addr_impl|]). auto.
Qed.
Lemma total_addr_at : forall m g i, total m (addr_at g i).
Proof.
  intros. unfold addr_at. apply total_bind; [apply total_of_option|]. intros o _.
  apply total_bind; [auto|]. intros r _. apply total_bind.
  - repeat (destruct (_ =? _); [apply total_read_le|]). auto.
  - intros [a r'] _. apply total_of_option.
Qed.
Lemma total_get_addr_info : forall m g i, total m (get_addr_info g i).
Proof.
  intros. unfold get_addr_info. apply total_bind; [apply total_of_option|]. intros o _.
  apply total_bind; [auto|]. intros r _.
  apply total_bind; [apply total_read_le|]. intros [s r1] _.
  apply total_bind; [apply total_read_le|]. intros [n r2] _. auto.
Qed.
Lemma total_get_str : forall m g o, total m (get_str g o).
Proof.
  intros. unfold get_str. apply total_bind; [auto|]. intros r _.
  apply total_bind; [apply total_read_cstr|]. intros [s r1] _. auto.
Qed.
Lemma total_get_utf8 : forall m g o, total m (get_utf8 g o).
Proof.
  intros. unfold get_utf8. apply total_bind; [apply total_get_str|]. intros s _.
  destruct (utf8_valid s); auto.
Qed.
Global Hint Resolve total_get_str total_get_utf8 : core.
Lemma total_query_frame : forall m g f l, total m (query_frame_code_info g f l).
Proof.
  intros. unfold query_frame_code_info. apply total_bind; [apply total_of_option|]. intros [d n] _.
  apply total_bind; [apply total_ok_or; auto|]. intros dir _.
  apply total_bind; [apply total_ok_or; auto|]. intros file _. auto.
Qed.

(** Line tables *)
Lemma total_run_op : forall m row h r, total m (run_op m row h r).
Proof.
  intros. unfold run_op. apply total_bind; [apply total_read_le|]. intros [op ops] _.
  destruct (op =? 0); auto.
  destruct (op =? 1). { apply total_bind; [apply total_read_u64_leb128|]. intros [] _; auto. }
  destruct (op =? 2).
  { apply total_bind; [apply total_read_u64_leb128|]. intros [] _.
    apply total_bind; [apply total_uadd|]. auto. }
  destruct (op =? 3).
  { apply total_bind; [apply total_read_i64_leb128|]. intros [] _.
    apply total_bind; [auto|]. auto. }
  apply total_bind; [auto|]. intros d _. apply total_bind; [auto|]. intros range _.
  destruct (range =? 0)%Z; auto.
  apply total_bind; [auto|]. intros ld _. apply total_bind; [auto|]. intros fl _.
  apply total_bind; [apply total_uadd|]. auto.
Qed.
Lemma run_op_shorter : forall m row h r rr row' r',
  run_op m row h r = Ok (rr, row', r') -> (length r' < length r)%nat.
Proof.
  intros m row h r rr row' r' H. unfold run_op in H. ib H [op ops] E.
  apply read_le_shorter in E. unfold nlen in E.
  destruct (op =? 0). { injection H as <- <- <-. lia. }
  destruct (op =? 1). { ib H [f o] E1. injection H as <- <- <-. apply uleb_shorter in E1. lia. }
  destruct (op =? 2).
  { ib H [f o] E1. ib H x E2. injection H as <- <- <-. apply uleb_shorter in E1. lia. }
  destruct (op =? 3).
  { ib H [f o] E1. ib H x E2. injection H as <- <- <-. apply sleb_shorter in E1. lia. }
  ib H d E1. ib H range E2. destruct (range =? 0)%Z; [discriminate|].
  ib H ld E3. ib H fl E4. ib H a E5. injection H as <- <- <-. lia.
Qed.
Lemma total_line_tab_loop : forall fuel m h addr row last seen r,
  (length r < fuel)%nat -> total m (line_tab_loop fuel m h addr row last seen r).
Proof.
  induction fuel as [|f IH]; intros m h addr row last seen r Hf; [lia|].
  cbn [line_tab_loop]. destruct r as [|b r]; auto.
  pose proof (total_run_op m row h (b :: r)) as Ht.
  destruct (run_op m row h (b :: r)) as [[[rr row'] r']|k| |] eqn:E; auto.
  - apply run_op_shorter in E. assert (length r' < f)%nat by lia.
    destruct rr; auto. destruct (addr <? lr_addr row'); auto. destruct seen; auto.
  - split; [discriminate|]. intros Hm. now apply Ht in Hm.
  - now destruct Ht.
Qed.
Lemma total_parse_line_tab_info : forall m d s a, total m (parse_line_tab_info m d s a).
Proof.
  intros. unfold parse_line_tab_info. apply total_bind.
  - apply total_ok_or. unfold parse_lt_header.
    apply total_bind; [apply total_read_i64_leb128|]. intros [] _.
    apply total_bind; [apply total_read_i64_leb128|]. intros [] _.
    apply total_bind; [apply total_read_u64_leb128|]. intros [] _. auto.
  - intros [h r] _. apply total_line_tab_loop. lia.
Qed.

(** Inline information *)
Lemma while_shorter : forall St (step : reader -> St -> res (bool * reader * St)),
  (forall r s b r' s', step r s = Ok (b, r', s') -> (length r' < length r)%nat) ->
  forall fuel r s r' s', while_more step fuel r s = Ok (r', s') ->
    (length r' < length r)%nat.
Proof.
  intros St step Hsh. induction fuel as [|f IH]; intros r s r' s' H; [discriminate|].
  cbn [while_more] in H.
  ib H [[more r1] s1] E. apply Hsh in E. destruct more.
  - apply IH in H. lia.
  - injection H as <- <-. lia.
Qed.
Section WhileTotal.
  Context {St : Type}.
  Variable step : reader -> St -> res (bool * reader * St).
  Variable m : mode.
  Variable n : nat.
  Hypothesis Htot : forall r s, (length r < n)%nat -> total m (step r s).
  Hypothesis Hsh : forall r s b r' s', step r s = Ok (b, r', s') -> (length r' < length r)%nat.
  Lemma while_total : forall fuel r s, (length r < fuel)%nat -> (length r < n)%nat ->
    total m (while_more step fuel r s).
  Proof using Htot Hsh.
    induction fuel as [|f IH]; intros r s Hf Hn; [lia|]. cbn [while_more].
    apply total_bind; [auto|]. intros [[more r'] s'] E. apply Hsh in E.
    destruct more; auto. apply IH; lia.
  Qed.
End WhileTotal.

Lemma skip_ranges_total : forall fuel m cnt r, (length r < fuel)%nat ->
  total m (skip_ranges fuel m cnt r).
Proof.
  induction fuel as [|f IH]; intros m cnt r Hf; [lia|]. cbn [skip_ranges].
  destruct (cnt =? 0); auto.
  apply total_bind; [apply total_ok_or, total_read_u64_leb128|]. intros [v r1] E1.
  apply ok_or_ok_inv, uleb_shorter in E1.
  apply total_bind; [apply total_ok_or, total_read_u64_leb128|]. intros [v2 r2] E2.
  apply ok_or_ok_inv, uleb_shorter in E2. apply IH. lia.
Qed.
Lemma skip_ranges_shorter : forall fuel m cnt r r', skip_ranges fuel m cnt r = Ok r' ->
  (length r' <= length r)%nat.
Proof.
  induction fuel as [|f IH]; intros m cnt r r' H; [discriminate|]. cbn [skip_ranges] in H.
  destruct (cnt =? 0); [injection H as <-; lia|].
  ib H [v r1] E1. ib H [v2 r2] E2.
  apply ok_or_ok_inv, uleb_shorter in E1. apply ok_or_ok_inv, uleb_shorter in E2.
  apply IH in H. lia.
Qed.
Lemma skip_shorter : forall fuel m r u b r' u', skip fuel m r u = Ok (b, r', u') ->
  (length r' < length r)%nat.
Proof.
  induction fuel as [|f IH]; intros m r u b r' u' H; [discriminate|]. cbn [skip] in H.
  ib H [cnt r1] E1. apply ok_or_ok_inv, uleb_shorter in E1.
  destruct (cnt =? 0); [injection H as <- <- <-; lia|].
  ib H r2 E2. apply skip_ranges_shorter in E2.
  ib H [cc r3] E3. apply ok_or_ok_inv, read_le_shorter in E3. unfold nlen in E3.
  ib H [nm r4] E4. apply ok_or_ok_inv, read_le_shorter in E4. unfold nlen in E4.
  ib H [cf r5] E5. apply ok_or_ok_inv, uleb_shorter in E5.
  ib H [cl r6] E6. apply ok_or_ok_inv, uleb_shorter in E6.
  destruct (negb (cc =? 0)).
  - ib H [r7 w] E7. injection H as <- <- <-. eapply while_shorter in E7; [lia|].
    intros. eapply IH; eauto.
  - injection H as <- <- <-. lia.
Qed.
Lemma skip_total : forall fuel m r u, (length r < fuel)%nat -> total m (skip fuel m r u).
Proof.
  induction fuel as [|f IH]; intros m r u Hf; [lia|]. cbn [skip].
  apply total_bind; [apply total_ok_or, total_read_u64_leb128|]. intros [cnt r1] E1.
  apply ok_or_ok_inv, uleb_shorter in E1. destruct (cnt =? 0); auto.
  apply total_bind; [apply skip_ranges_total; lia|]. intros r2 E2. apply skip_ranges_shorter in E2.
  apply total_bind; [apply total_ok_or, total_read_le|]. intros [cc r3] E3.
  apply ok_or_ok_inv, read_le_shorter in E3. unfold nlen in E3.
  apply total_bind; [apply total_ok_or, total_read_le|]. intros [nm r4] E4.
  apply ok_or_ok_inv, read_le_shorter in E4. unfold nlen in E4.
  apply total_bind; [apply total_ok_or, total_read_u64_leb128|]. intros [cf r5] E5.
  apply ok_or_ok_inv, uleb_shorter in E5.
  apply total_bind; [apply total_ok_or, total_read_u64_leb128|]. intros [cl r6] E6.
  apply ok_or_ok_inv, uleb_shorter in E6.
  destruct (negb (cc =? 0)); auto.
  apply total_bind.
  - apply while_total with (n := f); auto; [|lia|lia]. intros. eapply skip_shorter; eauto.
  - intros [r7 w] _. auto.
Qed.

Lemma parse_ranges_total : forall fuel m base addr i cnt mt cb r, (length r < fuel)%nat ->
  total m (parse_ranges fuel m base addr i cnt mt cb r).
Proof.
  induction fuel as [|f IH]; intros m base addr i cnt mt cb r Hf; [lia|]. cbn [parse_ranges].
  destruct (cnt =? i); auto.
  apply total_bind; [apply total_ok_or, total_read_u64_leb128|]. intros [v r1] E1.
  apply ok_or_ok_inv, uleb_shorter in E1.
  apply total_bind; [apply total_ok_or, total_read_u64_leb128|]. intros [v2 r2] E2.
  apply ok_or_ok_inv, uleb_shorter in E2.
  apply total_bind; [apply total_of_option|]. intros st _.
  apply total_bind; [apply total_of_option|]. intros en _. apply IH. lia.
Qed.
Lemma parse_ranges_shorter : forall fuel m base addr i cnt mt cb r mt' cb' r',
  parse_ranges fuel m base addr i cnt mt cb r = Ok (mt', cb', r') ->
  (length r' <= length r)%nat.
Proof.
  induction fuel as [|f IH]; intros m base addr i cnt mt cb r mt' cb' r' H; [discriminate|].
  cbn [parse_ranges] in H. destruct (cnt =? i); [injection H as <- <- <-; lia|].
  ib H [v r1] E1. ib H [v2 r2] E2. ib H st E3. ib H en E4.
  apply ok_or_ok_inv, uleb_shorter in E1. apply ok_or_ok_inv, uleb_shorter in E2.
  apply IH in H. lia.
Qed.
Lemma stack_shorter : forall fuel m base addr r s b r' s',
  parse_into_stack fuel m base addr r s = Ok (b, r', s') -> (length r' < length r)%nat.
Proof.
  induction fuel as [|f IH]; intros m base addr r s b r' s' H; [discriminate|].
  cbn [parse_into_stack] in H.
  ib H [cnt r1] E1. apply ok_or_ok_inv, uleb_shorter in E1.
  destruct (cnt =? 0); [injection H as <- <- <-; lia|].
  ib H [[mt cb] r2] E2. apply parse_ranges_shorter in E2.
  ib H [cc r3] E3. apply ok_or_ok_inv, read_le_shorter in E3. unfold nlen in E3.
  ib H [nm r4] E4. apply ok_or_ok_inv, read_le_shorter in E4. unfold nlen in E4.
  ib H [cf r5] E5. apply ok_or_ok_inv, uleb_shorter in E5.
  destruct (negb (cf <? two32)); [discriminate|].
  ib H [cl r6] E6. apply ok_or_ok_inv, uleb_shorter in E6.
  destruct mt.
  - destruct (negb (cc =? 0)).
    + ib H [r7 w] E7. injection H as <- <- <-. eapply while_shorter in E7; [lia|].
      intros. eapply IH; eauto.
    + injection H as <- <- <-. lia.
  - destruct (negb (cc =? 0)).
    + ib H [r7 w] E7. injection H as <- <- <-. eapply while_shorter in E7; [lia|].
      intros. eapply skip_shorter; eauto.
    + injection H as <- <- <-. lia.
Qed.
Lemma stack_total : forall fuel m base addr r s, (length r < fuel)%nat ->
  total m (parse_into_stack fuel m base addr r s).
Proof.
  induction fuel as [|f IH]; intros m base addr r s Hf; [lia|]. cbn [parse_into_stack].
  apply total_bind; [apply total_ok_or, total_read_u64_leb128|]. intros [cnt r1] E1.
  apply ok_or_ok_inv, uleb_shorter in E1. destruct (cnt =? 0); auto.
  apply total_bind; [apply parse_ranges_total; lia|]. intros [[mt cb] r2] E2.
  apply parse_ranges_shorter in E2.
  apply total_bind; [apply total_ok_or, total_read_le|]. intros [cc r3] E3.
  apply ok_or_ok_inv, read_le_shorter in E3. unfold nlen in E3.
  apply total_bind; [apply total_ok_or, total_read_le|]. intros [nm r4] E4.
  apply ok_or_ok_inv, read_le_shorter in E4. unfold nlen in E4.
  apply total_bind; [apply total_ok_or, total_read_u64_leb128|]. intros [cf r5] E5.
  apply ok_or_ok_inv, uleb_shorter in E5. destruct (negb (cf <? two32)); auto.
  apply total_bind; [apply total_ok_or, total_read_u64_leb128|]. intros [cl r6] E6.
  apply ok_or_ok_inv, uleb_shorter in E6.
  destruct mt; destruct (negb (cc =? 0)); auto.
  - apply total_bind; [|intros [] _; auto].
    apply while_total with (n := f); auto; [|lia|lia]. intros. eapply stack_shorter; eauto.
  - apply total_bind; [|intros [] _; auto].
    apply while_total with (n := f); auto; [|intros; eapply skip_shorter; eauto|lia|lia].
    intros. now apply skip_total.
Qed.

Lemma total_scan_data : forall m opts sa addr ents line stack,
  total m (scan_data m opts sa addr ents line stack).
Proof.
  induction ents as [|[typ d] ents IH]; intros line stack; cbn [scan_data]; auto.
  destruct (typ =? 1).
  - destruct line; auto. apply total_bind; [apply total_parse_line_tab_info|]. auto.
  - destruct ((typ =? 2) && inlined_fns_opt opts); auto. destruct stack; auto.
    apply total_bind; [|auto]. unfold parse_inline_stack.
    apply total_bind; [apply stack_total; lia|]. intros [[] ?] _. auto.
Qed.
Lemma total_add_frames : forall m g frames li inl, total m (add_frames g frames li inl).
Proof.
  induction frames as [|fr frames IH]; intros; cbn [add_frames]; auto.
  apply total_bind; [apply total_ok_or; auto|]. intros name _.
  apply total_bind; [apply total_query_frame|]. intros ci _. destruct (last_code inl); auto.
Qed.
Lemma total_fill : forall m g sym addr opts sa info, total m (fill_code_info m g sym addr opts sa info).
Proof.
  intros. unfold fill_code_info. destruct (negb _); auto.
  apply total_bind; [apply total_scan_data|]. intros [line stack] _. destruct line as [row|]; auto.
  apply total_bind; [apply total_query_frame|]. intros li _. destruct stack; auto.
  apply total_bind; [apply total_ok_or; auto|]. intros name _.
  apply total_bind; [apply total_add_frames|]. intros [] _. auto.
Qed.
Lemma total_find_sym : forall m g addr opts, total m (find_sym m g addr opts).
Proof.
  intros. unfold find_sym. pose proof (total_find_addr m g addr) as Ht.
  destruct (find_addr g addr) as [idx|k| |] eqn:E; auto.
  - apply total_bind; [apply total_ok_or, total_addr_at|]. intros sa _.
    destruct (addr <? sa); auto.
    apply total_bind; [apply total_ok_or, total_get_addr_info|]. intros info _.
    apply total_bind.
    { destruct (0 <? ai_size info); auto. apply total_bind; [apply total_uadd|auto]. }
    intros [] _; auto.
    apply total_bind; [apply total_ok_or; auto|]. intros name _.
    apply total_bind; [apply total_fill|]. auto.
  - split; [discriminate|]. intros Hm. now apply Ht in Hm.
  - now destruct Ht.
Qed.
Lemma total_gsym_lookup : forall m ptr data addr opts, total m (gsym_lookup m ptr data addr opts).
Proof.
  intros. unfold gsym_lookup. apply total_bind; [apply total_parse_header|].
  intros. apply total_find_sym.
Qed.
