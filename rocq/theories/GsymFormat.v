(** * The Gsym model reads what a Gsym file says *)

From Verif Require Import Base Util UtilProofs Text Sym Frames Total Gsym GsymProofs GsymSpec.
Local Open Scope N_scope.

(** ** Reading encoded values *)
Lemma holds_at_drop : forall data off bs, holds_at data off bs ->
  ndrop off data = bs ++ ndrop (off + nlen bs) data /\ off + nlen bs <= nlen data.
Proof.
  intros data off bs (pre & post & -> & <-). split.
  - rewrite ndrop_app_exact by reflexivity. f_equal.
    rewrite app_assoc. rewrite ndrop_app_exact; [reflexivity|]. now rewrite nlen_app.
  - rewrite !nlen_app. lia.
Qed.
Lemma get_from_holds : forall data off bs, holds_at data off bs ->
  exists rest, get_from off data = Ok (bs ++ rest).
Proof.
  intros data off bs H. apply holds_at_drop in H. destruct H as [H Hl].
  exists (ndrop (off + nlen bs) data). unfold get_from.
  destruct (N.leb_spec off (nlen data)); [now rewrite <- H|lia].
Qed.
Lemma read_uleb : forall m v b rest, is_uleb v b -> read_u64_leb128 m (b ++ rest) = Ok (v, rest).
Proof.
  intros m v b rest (k & Hk & Hv & Hv' & ->). apply read_u64_leb128_enc; auto.
Qed.
Lemma read_sleb : forall m v b rest, is_sleb v b -> read_i64_leb128 m (b ++ rest) = Ok (v, rest).
Proof.
  intros m v b rest (k & Hk & Hv & Hv' & ->). apply read_i64_leb128_enc; auto.
Qed.
Lemma uleb_lt : forall v b, is_uleb v b -> v < two64.
Proof. intros v b (k & _ & H & _). exact H. Qed.
Lemma read_u32_le : forall v rest, v < two32 -> read_u32 (le_bytes 4 v ++ rest) = Ok (v, rest).
Proof. intros. unfold read_u32. apply (read_le_bytes 4). exact H. Qed.
Lemma read_u16_le : forall v rest, v < 2 ^ 16 -> read_u16 (le_bytes 2 v ++ rest) = Ok (v, rest).
Proof. intros. unfold read_u16. apply (read_le_bytes 2). exact H. Qed.
Lemma read_u64_le : forall v rest, v < two64 -> read_u64 (le_bytes 8 v ++ rest) = Ok (v, rest).
Proof. intros. unfold read_u64. apply (read_le_bytes 8). exact H. Qed.
Lemma read_u8_cons : forall v rest, read_u8 (v :: rest) = Ok (v, rest).
Proof.
  intros. unfold read_u8, read_le, read_slice. rewrite nlen_cons.
  destruct (N.ltb_spec (nlen rest + 1) 1); [lia|]. cbn [ntake ndrop].
  change (1 =? 0) with false. cbn [bind]. change (1 - 1) with 0.
  assert (E : ntake 0 rest = []) by (now destruct rest).
  assert (E' : ndrop 0 rest = rest) by (now destruct rest).
  rewrite E, E'. cbn [le_val]. f_equal. f_equal. lia.
Qed.
Arguments read_u8 : simpl never.

(** ** Line tables *)
Definition to_row (s : lstate) : lt_row := LtRow (ls_addr s) (ls_file s) (Z.to_N (ls_line s)).

Lemma signed_fits : forall m w z, (- (w / 2) <= z < w / 2)%Z -> signed m w z = Ok z.
Proof.
  intros m w z H. unfold signed.
  destruct (Z.leb_spec (- (w / 2)) z); [|lia]. destruct (Z.ltb_spec z (w / 2)); [reflexivity|lia].
Qed.
Lemma as_u32_fits : forall z, (0 <= z < 2 ^ 32)%Z -> as_u32 z = Z.to_N z.
Proof. intros. unfold as_u32. now rewrite Z.mod_small. Qed.
Lemma as_u64_fits : forall z, (0 <= z < 2 ^ 64)%Z -> as_u64 z = Z.to_N z.
Proof. intros. unfold as_u64. now rewrite Z.mod_small. Qed.
Lemma as_i32_fits : forall z, (- 2 ^ 31 <= z < 2 ^ 31)%Z -> as_i32 z = z.
Proof.
  intros z H. unfold as_i32, to_signed, i32w. change (2 ^ 32 / 2)%Z with (2 ^ 31)%Z.
  rewrite Z.mod_small; [lia|]. change (2 ^ 32)%Z with (2 * 2 ^ 31)%Z. lia.
Qed.

Definition conv_header (h : lheader) : lt_header := LtHeader (h_min h) (h_max h) (h_first h).

Lemma run_op_enc : forall m h s o b rest,
  enc_op o b -> header_fits h -> ls_addr s < 2 ^ 64 -> (0 <= ls_line s < 2 ^ 31)%Z ->
  ls_addr (step_op h s o) < 2 ^ 64 -> (0 <= ls_line (step_op h s o) < 2 ^ 31)%Z ->
  run_op m (to_row s) (conv_header h) (b ++ rest)
  = Ok (if emits o then RunNewRow else RunOk, to_row (step_op h s o), rest).
Proof.
  intros m h s o b rest He Hh Ha Hl Ha' Hl'. unfold run_op. destruct He as [f b Hf Hb|d b Hb|d b Hb|a Hadj].
  - cbn [app]. rewrite read_u8_cons. cbn [bind]. change (1 =? 0) with false. change (1 =? 1) with true.
    cbn [bind]. rewrite (read_uleb m f) by auto. cbn [bind emits step_op to_row].
    unfold two32. rewrite N.mod_small by auto. reflexivity.
  - cbn [app]. rewrite read_u8_cons. cbn [bind]. change (2 =? 0) with false. change (2 =? 1) with false.
    change (2 =? 2) with true. cbn [bind]. rewrite (read_uleb m d) by auto. cbn [bind emits step_op to_row lr_addr].
    cbn [step_op ls_addr] in Ha'. unfold add64. rewrite uadd_small by (exact Ha'). reflexivity.
  - cbn [app]. rewrite read_u8_cons. cbn [bind]. change (3 =? 0) with false. change (3 =? 1) with false.
    change (3 =? 2) with false. change (3 =? 3) with true. cbn [bind].
    rewrite (read_sleb m d) by auto. cbn [bind emits step_op to_row lr_line lr_addr lr_file].
    cbn [step_op ls_line] in Hl'.
    rewrite Z2N.id by lia. rewrite signed_fits by (change (i64w / 2)%Z with (2 ^ 63)%Z; lia).
    cbn [bind]. rewrite as_u32_fits by lia. reflexivity.
  - cbn [app]. rewrite read_u8_cons. cbn [bind].
    destruct (N.eqb_spec (4 + a) 0); [lia|]. destruct (N.eqb_spec (4 + a) 1); [lia|].
    destruct (N.eqb_spec (4 + a) 2); [lia|]. destruct (N.eqb_spec (4 + a) 3); [lia|].
    replace (4 + a - 4) with a by lia.
    unfold header_fits in Hh. cbn [conv_header lh_min lh_max].
    change (signed m i64w) with (signed m (2 ^ 64)%Z).
    assert (Hw : (2 ^ 64 / 2 = 2 ^ 63)%Z) by reflexivity.
    rewrite signed_fits by (rewrite Hw; lia). cbn [bind].
    rewrite signed_fits by (rewrite Hw; lia). cbn [bind].
    set (range := (h_max h - h_min h + 1)%Z) in *.
    assert (Hr : (0 < range)%Z) by (unfold range; lia).
    destruct (Z.eqb_spec range 0); [lia|].
    rewrite Z.rem_mod_nonneg by lia. rewrite Z.quot_div_nonneg by lia.
    assert (Hm : (0 <= Z.of_N a mod range < range)%Z) by (apply Z.mod_pos_bound; lia).
    assert (Hq : (0 <= Z.of_N a / range < 2 ^ 64)%Z).
    { split; [apply Z.div_pos; lia|].
      assert (Z.of_N a / range <= Z.of_N a)%Z by (apply Z.div_le_upper_bound; [lia|]; nia).
      assert (252 < 2 ^ 64)%Z by reflexivity. lia. }
    assert (Hup : (h_min h + Z.of_N a mod range <= h_max h)%Z) by (unfold range in *; lia).
    rewrite signed_fits by (rewrite Hw; lia). cbn [bind to_row lr_line lr_addr lr_file].
    cbn [step_op ls_line ls_addr] in Hl', Ha'. fold range in Hl', Ha'.
    rewrite Z2N.id by lia. rewrite (as_i32_fits (ls_line s)) by lia.
    rewrite as_i32_fits by lia.
    rewrite signed_fits by (change (i32w / 2)%Z with (2 ^ 31)%Z; lia).
    cbn [bind]. rewrite as_u64_fits by lia.
    unfold add64. rewrite uadd_small by (exact Ha'). cbn [bind emits step_op to_row ls_addr ls_file ls_line].
    fold range. rewrite as_u32_fits by lia. rewrite Z.add_assoc. reflexivity.
Qed.

(** What the loop computes. *)
Fixpoint eff (addr : N) (rs : list lstate) (acc : option lstate) : option lstate :=
  match rs with
  | [] => acc
  | r :: rs => if addr <? ls_addr r then acc else eff addr rs (Some r)
  end.

Lemma enc_op_nonempty : forall o b, enc_op o b -> exists x b', b = x :: b'.
Proof. intros o b []; eauto. Qed.

Lemma line_loop_enc : forall m h addr ops bytes, enc_ops ops bytes -> header_fits h ->
  forall fuel s last seen tail,
  states_fit h s ops -> (length (bytes ++ tail) < fuel)%nat ->
  (tail = [] \/ exists junk, tail = 0 :: junk) ->
  (ops = [] -> seen = true -> s = last) ->
  (forall ops' o, ops = ops' ++ [o] -> emits o = true) ->
  line_tab_loop fuel m (conv_header h) addr (to_row s) (to_row last) seen (bytes ++ tail)
  = Ok (option_map to_row (eff addr (rows h s ops) (if seen then Some last else None))).
Proof.
  intros m h addr ops bytes Henc Hh.
  induction Henc as [|o ops b bs Ho Hops IH]; intros fuel s last seen tail Hfit Hfuel Htail Hlast Hend.
  - destruct fuel as [|f]; [lia|]. cbn [app rows eff].
    destruct Htail as [->|[junk ->]].
    + cbn [line_tab_loop]. destruct seen; cbn; [|reflexivity]. now rewrite Hlast.
    + cbn [line_tab_loop]. unfold run_op. rewrite read_u8_cons. cbn [bind].
      change (0 =? 0) with true. cbn [bind]. destruct seen; cbn; [|reflexivity]. now rewrite Hlast.
  - destruct fuel as [|f]; [lia|]. destruct (enc_op_nonempty _ _ Ho) as (x & b' & Eb).
    assert (Hlen : (length (bs ++ tail) < f)%nat).
    { rewrite Eb in Hfuel. rewrite <- app_assoc in Hfuel. simpl in Hfuel.
      rewrite !app_length in *. lia. }
    cbn [states_fit] in Hfit. destruct Hfit as (Ha & Hl & Hfit).
    assert (Hs1 : ls_addr (step_op h s o) < 2 ^ 64 /\ (0 <= ls_line (step_op h s o) < 2 ^ 31)%Z)
      by (destruct ops; cbn [states_fit] in Hfit; tauto).
    pose proof (run_op_enc m h s o b (bs ++ tail) Ho Hh Ha Hl (proj1 Hs1) (proj2 Hs1)) as Hrun.
    rewrite <- app_assoc. cbn [line_tab_loop]. rewrite Hrun.
    assert (Hne : exists y ys, b ++ bs ++ tail = y :: ys) by (rewrite Eb; simpl; eauto).
    destruct Hne as (y & ys & ->).
    assert (Hend' : forall ops' o', ops = ops' ++ [o'] -> emits o' = true).
    { intros ops' o' ->. apply (Hend (o :: ops')). reflexivity. }
    cbn [rows]. destruct (emits o) eqn:Eo.
    + cbn [eff]. change (lr_addr (to_row (step_op h s o))) with (ls_addr (step_op h s o)).
      destruct (addr <? ls_addr (step_op h s o)).
      * destruct seen; reflexivity.
      * rewrite IH with (tail := tail); auto.
    + rewrite IH with (tail := tail); auto.
      intros -> _. exfalso. specialize (Hend [] o eq_refl). congruence.
Qed.

Lemma eff_app_none : forall addr rs acc, Forall (fun r => addr < ls_addr r) rs -> eff addr rs acc = acc.
Proof.
  intros addr rs acc H. destruct H as [|r rs Hr H]; [reflexivity|]. cbn [eff].
  destruct (N.ltb_spec addr (ls_addr r)); [reflexivity|lia].
Qed.
Lemma eff_spec : forall addr rs acc, monotone rs ->
  (eff addr rs acc = acc /\ Forall (fun r => addr < ls_addr r) rs) \/
  (exists r, eff addr rs acc = Some r /\ in_effect rs addr r).
Proof.
  intros addr rs. induction rs as [|r rs IH]; intros acc Hm; [left; split; auto|].
  inversion Hm as [|? ? Hm' Hall]; subst. cbn [eff].
  destruct (N.ltb_spec addr (ls_addr r)) as [H|H].
  - left. split; auto. constructor; auto. rewrite Forall_forall in *. intros x Hx.
    specialize (Hall x Hx). lia.
  - right. destruct (IH (Some r) Hm') as [[E F]|(r' & E & (i & Hi & Hle & Hj))].
    + exists r. split; auto. exists 0%nat. split; [reflexivity|]. split; auto.
      intros [|j] r' Hlt Hn; [lia|]. simpl in Hn. rewrite Forall_forall in F. apply F.
      eapply nth_error_In; eauto.
    + exists r'. split; auto. exists (S i). split; auto. split; auto.
      intros [|j] x Hlt Hn; [lia|]. simpl in Hn. apply (Hj j); auto. lia.
Qed.
Lemma in_effect_unique : forall rs addr r r', in_effect rs addr r -> in_effect rs addr r' -> r = r'.
Proof.
  intros rs addr r r' (i & Hi & Hle & Hj) (i' & Hi' & Hle' & Hj').
  destruct (lt_eq_lt_dec i i') as [[H|H]|H].
  - specialize (Hj _ _ H Hi'). lia.
  - congruence.
  - specialize (Hj' _ _ H Hi). lia.
Qed.

Definition line_fits (h : lheader) (symaddr : N) (ops : list lop) : Prop :=
  header_fits h /\ states_fit h (initial h symaddr) ops.

Lemma parse_line_tab_enc : forall m h ops bytes symaddr addr,
  enc_line_table h ops bytes -> line_fits h symaddr ops -> ends_with_row ops ->
  parse_line_tab_info m bytes symaddr addr
  = Ok (option_map to_row (eff addr (table_rows h symaddr ops) None)).
Proof.
  intros m h ops bytes symaddr addr (b1 & b2 & b3 & b4 & tail & H1 & H2 & H3 & H4 & Ht & ->) [Hh Hf] Hend.
  unfold parse_line_tab_info, parse_lt_header.
  rewrite (read_sleb m (h_min h)) by auto. cbn [bind]. rewrite (read_sleb m (h_max h)) by auto. cbn [bind].
  rewrite (read_uleb m (h_first h)) by auto. cbn [bind ok_or].
  assert (Hfirst : h_first h < 2 ^ 31).
  { destruct ops; cbn [states_fit initial ls_line] in Hf; lia. }
  assert (E : h_first h mod two32 = h_first h).
  { apply N.mod_small. unfold two32. assert (2 ^ 31 < 2 ^ 32) by reflexivity. lia. }
  rewrite E. fold (conv_header h). cbn [conv_header lh_first].
  replace (LtRow symaddr 1 (h_first h)) with (to_row (initial h symaddr))
    by (unfold to_row, initial; cbn; f_equal; lia).
  change (LtHeader (h_min h) (h_max h) (h_first h)) with (conv_header h).
  rewrite (line_loop_enc m h addr ops b4 H4 Hh); auto.
  - intros ops' o ->. destruct Hend as [Hend|(ops2 & o2 & Hend & He)].
    + destruct ops'; discriminate.
    + apply app_inj_tail in Hend. destruct Hend as [_ ->]. auto.
Qed.

(** ** Inline trees *)
Scheme itree_mind := Induction for itree Sort Prop
  with iforest_mind := Induction for iforest Sort Prop.
Scheme enc_tree_mind := Induction for enc_tree Sort Prop
  with enc_forest_mind := Induction for enc_forest Sort Prop.
Combined Scheme enc_mind from enc_tree_mind, enc_forest_mind.

Lemma is_uleb_nonempty : forall v b, is_uleb v b -> (0 < length b)%nat.
Proof. intros v b (k & _ & _ & _ & ->). destruct k; simpl; lia. Qed.
Lemma enc_ranges_length : forall l b, enc_ranges l b -> (length l <= length b)%nat.
Proof.
  induction 1 as [|o s l b1 b2 b3 H1 H2 H3 IH]; simpl; [lia|].
  apply is_uleb_nonempty in H1. rewrite !app_length. lia.
Qed.

Lemma skip_ranges_enc : forall m l b, enc_ranges l b -> forall fuel rest,
  (length l < fuel)%nat -> skip_ranges fuel m (nlen l) (b ++ rest) = Ok rest.
Proof.
  intros m l b H. induction H as [|o s l b1 b2 b3 H1 H2 H3 IH]; intros fuel rest Hf;
    (destruct fuel as [|f]; [lia|]); cbn [skip_ranges].
  - reflexivity.
  - rewrite nlen_cons. destruct (N.eqb_spec (nlen l + 1) 0); [lia|].
    rewrite <- !app_assoc. rewrite (read_uleb m o) by auto. cbn [bind ok_or].
    rewrite (read_uleb m s) by auto. cbn [bind ok_or].
    replace (nlen l + 1 - 1) with (nlen l) by lia. apply IH. simpl in Hf. lia.
Qed.
Lemma parse_ranges_enc : forall m base addr l b, enc_ranges l b ->
  Forall (fun '(o, s) => base + o + s < 2 ^ 64) l ->
  forall fuel rest i cnt mt cb, cnt = i + nlen l ->
  (length l < fuel)%nat ->
  parse_ranges fuel m base addr i cnt mt cb (b ++ rest)
  = Ok (covered base addr l || mt,
        if i =? 0 then match l with [] => cb | _ => first_start base l end else cb, rest).
Proof.
  intros m base addr l b H. induction H as [|o s l b1 b2 b3 H1 H2 H3 IH]; intros HF fuel rest i cnt mt cb Hc Hf;
    (destruct fuel as [|f]; [lia|]); cbn [parse_ranges].
  - change (nlen (@nil (N * N))) with 0 in Hc. destruct (N.eqb_spec cnt i); [|lia]. cbn. destruct (i =? 0); reflexivity.
  - rewrite nlen_cons in Hc. destruct (N.eqb_spec cnt i); [lia|].
    inversion HF as [|? ? Hx HF']; subst.
    rewrite <- !app_assoc. rewrite (read_uleb m o) by auto. cbn [bind ok_or].
    rewrite (read_uleb m s) by auto. cbn [bind ok_or].
    unfold chk_add. fold (2 ^ 64). change two64 with (2 ^ 64).
    destruct (N.ltb_spec (base + o) (2 ^ 64)); [|lia]. cbn [bind of_option].
    destruct (N.ltb_spec (base + o + s) (2 ^ 64)); [|lia]. cbn [bind of_option].
    rewrite IH; auto; [|lia|simpl in Hf; lia].
    destruct (N.eqb_spec (i + 1) 0); [lia|].
    cbn [covered existsb first_start].
    destruct ((base + o <=? addr) && (addr <? base + o + s)); cbn [orb].
    + rewrite orb_true_r. destruct (i =? 0); reflexivity.
    + destruct (i =? 0); reflexivity.
Qed.

(** One level of fuel per node is enough. *)
Lemma node_head : forall m ranges name file line b1 b2 flag b3 b4 rest,
  ranges <> [] -> is_uleb (nlen ranges) b1 -> enc_ranges ranges b2 ->
  name < 2 ^ 32 -> is_uleb file b3 -> is_uleb line b4 ->
  forall fuel,
  skip (S fuel) m (b1 ++ b2 ++ flag :: le_bytes 4 name ++ b3 ++ b4 ++ rest) tt
  = if negb (flag =? 0)
    then let* '(r, _) := while_more (skip fuel m) fuel rest tt in Ok (true, r, tt)
    else Ok (true, rest, tt).
Proof.
  intros m ranges name file line b1 b2 flag b3 b4 rest Hne H1 H2 Hn H3 H4 fuel.
  cbn [skip]. rewrite (read_uleb m (nlen ranges)) by auto. cbn [bind ok_or].
  destruct (N.eqb_spec (nlen ranges) 0) as [E|_].
  { destruct ranges; [congruence|]. rewrite nlen_cons in E. lia. }
  rewrite (skip_ranges_enc m ranges b2); auto.
  2:{ apply enc_ranges_length in H2. rewrite app_length. lia. }
  cbn [bind]. rewrite read_u8_cons. cbn [bind ok_or].
  rewrite read_u32_le by (exact Hn). cbn [bind ok_or].
  rewrite (read_uleb m file) by auto. cbn [bind ok_or].
  rewrite (read_uleb m line) by auto. reflexivity.
Qed.
Lemma skip_enc : forall m,
  (forall t b, enc_tree t b -> forall fuel rest, (length b < fuel)%nat ->
     skip fuel m (b ++ rest) tt = Ok (true, rest, tt)) /\
  (forall f b, enc_forest f b -> forall fuel fuel2 rest, (length b < fuel)%nat -> (length b < fuel2)%nat ->
     while_more (skip fuel m) fuel2 (b ++ rest) tt = Ok (rest, tt)).
Proof.
  intros m. apply enc_mind.
  - intros ranges name file line b1 b2 b3 b4 Hne H1 H2 Hn Hfile Hline H3 H4 fuel rest Hf.
    destruct fuel as [|f]; [lia|]. rewrite <- !app_assoc. cbn [app].
    rewrite (node_head m ranges name file line); auto.
  - intros ranges name file line kids b1 b2 flag b3 b4 b5 Hne H1 H2 Hflag Hn Hfile Hline H3 H4 H5 IH fuel rest Hf.
    destruct fuel as [|f]; [lia|]. rewrite <- !app_assoc. cbn [app].
    rewrite (node_head m ranges name file line); auto.
    destruct (N.eqb_spec flag 0); [lia|]. cbn [negb].
    pose proof (is_uleb_nonempty _ _ H1) as Hb1. rewrite !app_length in Hf.
    rewrite IH by lia. reflexivity.
  - intros b Hb fuel fuel2 rest Hf Hf2.
    destruct fuel2 as [|f2]; [lia|]. destruct fuel as [|f]; [lia|]. cbn [while_more skip].
    rewrite (read_uleb m 0) by auto. reflexivity.
  - intros t f b bs Ht IHt Hfo IHf fuel fuel2 rest Hf Hf2. rewrite app_length in *.
    destruct fuel2 as [|f2]; [lia|]. cbn [while_more]. rewrite <- app_assoc.
    rewrite IHt by lia. cbn [bind].
    assert (0 < length b)%nat.
    { destruct Ht as [? ? ? ? b1 ? ? ? ? H1|? ? ? ? ? b1 ? ? ? ? ? ? H1];
        apply is_uleb_nonempty in H1; rewrite app_length; lia. }
    rewrite IHf by lia. reflexivity.
Qed.

Definition to_frame (c : call) : inline_frame := InlineFrame (c_name c) (c_file c) (c_line c).

Lemma stack_head : forall m base addr ranges name file line b1 b2 flag b3 b4 rest stack,
  ranges <> [] -> is_uleb (nlen ranges) b1 -> enc_ranges ranges b2 ->
  Forall (fun '(o, s) => base + o + s < 2 ^ 64) ranges ->
  name < 2 ^ 32 -> file < 2 ^ 32 -> line < 2 ^ 32 -> is_uleb file b3 -> is_uleb line b4 ->
  forall fuel,
  parse_into_stack (S fuel) m base addr (b1 ++ b2 ++ flag :: le_bytes 4 name ++ b3 ++ b4 ++ rest) stack
  = if covered base addr ranges then
      let stack := stack ++ (if name =? 0 then [] else [InlineFrame name file line]) in
      if negb (flag =? 0) then
        let* '(r, stack) := while_more (parse_into_stack fuel m (first_start base ranges) addr) fuel rest stack in
        Ok (true, r, stack)
      else Ok (true, rest, stack)
    else if negb (flag =? 0) then
      let* '(r, _) := while_more (skip fuel m) fuel rest tt in Ok (true, r, stack)
    else Ok (true, rest, stack).
Proof.
  intros m base addr ranges name file line b1 b2 flag b3 b4 rest stack Hne H1 H2 HF Hn Hfi Hli H3 H4 fuel.
  cbn [parse_into_stack]. rewrite (read_uleb m (nlen ranges)) by auto. cbn [bind ok_or].
  destruct (N.eqb_spec (nlen ranges) 0) as [E|_].
  { destruct ranges; [congruence|]. rewrite nlen_cons in E. lia. }
  rewrite (parse_ranges_enc m base addr ranges b2); auto.
  2:{ apply enc_ranges_length in H2. rewrite app_length. lia. }
  change (0 =? 0) with true. cbn [bind]. rewrite read_u8_cons. cbn [bind ok_or].
  rewrite read_u32_le by (exact Hn). cbn [bind ok_or].
  rewrite (read_uleb m file) by auto. cbn [bind ok_or].
  change two32 with (2 ^ 32). destruct (N.ltb_spec file (2 ^ 32)); [|lia]. cbn [negb].
  rewrite (read_uleb m line) by auto. cbn [bind ok_or].
  destruct (N.ltb_spec line (2 ^ 32)); [|lia]. rewrite orb_false_r.
  assert (Ecb : match ranges with [] => 0 | _ :: _ => first_start base ranges end = first_start base ranges)
    by (destruct ranges; [congruence|reflexivity]).
  rewrite Ecb. destruct (covered base addr ranges); [|reflexivity].
  destruct (N.eqb_spec name 0) as [->|Hn0].
  - change (0 <? 0) with false. rewrite app_nil_r. reflexivity.
  - destruct (N.ltb_spec 0 name); [reflexivity|lia].
Qed.

Lemma stack_enc : forall m addr,
  (forall t b, enc_tree t b -> forall base fuel rest stack, (length b < fuel)%nat ->
     tree_fits base t ->
     parse_into_stack fuel m base addr (b ++ rest) stack
     = Ok (true, rest, stack ++ map to_frame (tree_chain base addr t))) /\
  (forall f b, enc_forest f b -> forall base fuel fuel2 rest stack, (length b < fuel)%nat -> (length b < fuel2)%nat ->
     forest_fits base f ->
     while_more (parse_into_stack fuel m base addr) fuel2 (b ++ rest) stack
     = Ok (rest, stack ++ map to_frame (forest_chain base addr f))).
Proof.
  intros m addr. apply enc_mind.
  - intros ranges name file line b1 b2 b3 b4 Hne H1 H2 Hn Hfile Hline H3 H4 base fuel rest stack Hf [HF _].
    destruct fuel as [|f]; [lia|]. rewrite <- !app_assoc. cbn [app].
    rewrite (stack_head m base addr ranges name file line); auto.
    change (0 =? 0) with true. cbn [negb]. cbn [tree_chain forest_chain].
    destruct (covered base addr ranges).
    + rewrite app_nil_r. destruct (name =? 0); reflexivity.
    + cbn [map]. now rewrite app_nil_r.
  - intros ranges name file line kids b1 b2 flag b3 b4 b5 Hne H1 H2 Hflag Hn Hfile Hline H3 H4 H5 IH
      base fuel rest stack Hf [HF HK].
    destruct fuel as [|f]; [lia|]. rewrite <- !app_assoc. cbn [app].
    rewrite (stack_head m base addr ranges name file line); auto.
    destruct (N.eqb_spec flag 0); [lia|]. cbn [negb].
    pose proof (is_uleb_nonempty _ _ H1) as Hb1. rewrite !app_length in Hf.
    cbn [tree_chain]. destruct (covered base addr ranges).
    + cbv zeta. rewrite IH by (auto; lia). cbn [bind]. rewrite <- app_assoc. f_equal. f_equal.
      rewrite map_app. f_equal. destruct (name =? 0); reflexivity.
    + rewrite (proj2 (skip_enc m) kids b5) by (auto; lia). cbn [bind map]. now rewrite app_nil_r.
  - intros b Hb base fuel fuel2 rest stack Hf Hf2 _.
    destruct fuel2 as [|f2]; [lia|]. destruct fuel as [|f]; [lia|]. cbn [while_more parse_into_stack].
    rewrite (read_uleb m 0) by auto. cbn. now rewrite app_nil_r.
  - intros t f b bs Ht IHt Hfo IHf base fuel fuel2 rest stack Hf Hf2 [Hft Hff]. rewrite app_length in *.
    destruct fuel2 as [|f2]; [lia|]. cbn [while_more]. rewrite <- app_assoc.
    rewrite IHt by (auto; lia). cbn [bind].
    assert (0 < length b)%nat.
    { destruct Ht as [? ? ? ? b1 ? ? ? ? H1|? ? ? ? ? b1 ? ? ? ? ? ? H1];
        apply is_uleb_nonempty in H1; rewrite app_length; lia. }
    rewrite IHf by (auto; lia). cbn [forest_chain]. rewrite map_app, app_assoc. reflexivity.
Qed.

Lemma parse_inline_enc : forall m t b j base addr, enc_tree t b -> tree_fits base t ->
  parse_inline_stack m (b ++ j) base addr [] = Ok (map to_frame (tree_chain base addr t)).
Proof.
  intros m t b j base addr H Hf. unfold parse_inline_stack.
  rewrite (proj1 (stack_enc m addr) t b H); auto. rewrite app_length. lia.
Qed.

(** ** Whole files *)
Lemma chunks_flat : forall A (enc : A -> list N) size l fuel,
  0 < size -> (forall x, In x l -> nlen (enc x) = size) ->
  (length (flat_map enc l) <= fuel)%nat -> chunks fuel size (flat_map enc l) = map enc l.
Proof.
  intros A enc size. induction l as [|x l IH]; intros fuel Hs Hx Hf; cbn [flat_map map].
  - now destruct fuel.
  - assert (Hl : nlen (enc x) = size) by (apply Hx; left; reflexivity).
    cbn [flat_map] in Hf. rewrite app_length in Hf. unfold nlen in Hl.
    destruct fuel as [|f]; [lia|]. cbn [chunks].
    destruct (enc x ++ flat_map enc l) as [|y ys] eqn:E.
    + apply app_eq_nil in E. destruct E as [E _]. rewrite E in Hl. simpl in Hl. lia.
    + rewrite <- E. rewrite ntake_app_exact by (unfold nlen; lia).
      rewrite ndrop_app_exact by (unfold nlen; lia). rewrite IH; auto.
      * intros z Hz. apply Hx. now right.
      * lia.
Qed.
Lemma nlen_flat : forall A (enc : A -> list N) size l, (forall x, In x l -> nlen (enc x) = size) ->
  nlen (flat_map enc l) = nlen l * size.
Proof.
  intros A enc size. induction l as [|x l IH]; intros Hx; cbn [flat_map]; [reflexivity|].
  rewrite nlen_app, nlen_cons, IH by (intros; apply Hx; now right).
  rewrite (Hx x) by (now left). lia.
Qed.
Lemma read_pods : forall A (enc : A -> list N) size al pos l rest,
  0 < size -> size < 2 ^ 32 -> nlen l < 2 ^ 32 ->
  (forall x, In x l -> nlen (enc x) = size) -> pos mod al = 0 ->
  read_pod_slice_ref size al pos (nlen l) (flat_map enc l ++ rest) = Ok (map enc l, rest).
Proof.
  intros A enc size al pos l rest Hs Hs2 Hl Hx Hp. unfold read_pod_slice_ref, chk_mul.
  assert (Hm : size * nlen l < two64).
  { unfold two64. replace (2 ^ 64) with (2 ^ 32 * 2 ^ 32) by reflexivity.
    apply N.mul_lt_mono; auto. }
  destruct (N.ltb_spec (size * nlen l) two64); [|lia]. cbn [bind of_option].
  rewrite read_slice_app by (rewrite (nlen_flat _ _ size) by auto; lia).
  cbn [bind]. rewrite Hp. change (0 =? 0) with true. rewrite chunks_flat; auto.
Qed.

Definition gsym_of (ptr : N) (data : list N) (d : gfile) : gsym :=
  Gsym (gf_width d) (gf_base d) (nlen (gf_funcs d))
    (flat_map (fun f => le_bytes (N.to_nat (gf_width d)) (f_start f)) (gf_funcs d))
    (ptr + 48) (map f_off (gf_funcs d)) (gf_files d) (gf_strs d) data.

Lemma width_cases : forall d, In (gf_width d) [1; 2; 4; 8] ->
  gf_width d = 1 \/ gf_width d = 2 \/ gf_width d = 4 \/ gf_width d = 8.
Proof. intros d H. simpl in H. intuition. Qed.

Lemma align_to : forall ptr data a b p,
  ptr mod 8 = 0 -> p mod 4 = 0 -> data = a ++ b -> nlen a <= p < nlen a + 4 -> p <= nlen data ->
  align (ptr + (nlen data - nlen b)) 4 b = Ok (ndrop p data).
Proof.
  intros ptr data a b p Hptr Hp -> Ha Hl. unfold align, advance, align_offset.
  rewrite nlen_app in *. replace (nlen a + nlen b - nlen b) with (nlen a) by lia.
  assert (E : (4 - (ptr + nlen a) mod 4) mod 4 = p - nlen a).
  { assert (H4 : exists q, ptr = 4 * q).
    { exists (2 * (ptr / 8)). pose proof (N.div_mod ptr 8 ltac:(lia)). lia. }
    destruct H4 as [q ->]. assert (Hp' : exists k, p = 4 * k).
    { exists (p / 4). pose proof (N.div_mod p 4 ltac:(lia)). lia. }
    destruct Hp' as [k ->].
    destruct (N.eq_dec (nlen a) (4 * k)) as [E|E].
    - rewrite E. replace (4 * q + 4 * k) with ((q + k) * 4) by lia. rewrite N.mod_mul by lia.
      rewrite N.sub_diag. reflexivity.
    - assert (Hmod : (4 * q + nlen a) mod 4 = nlen a - 4 * (k - 1)).
      { symmetry. apply N.mod_unique with (q + (k - 1)); lia. }
      rewrite Hmod. rewrite N.mod_small by lia. lia. }
  rewrite E. unfold read_slice. destruct (N.ltb_spec (nlen b) (p - nlen a)); [lia|].
  cbn [bind]. f_equal. rewrite !ndrop_skipn. rewrite skipn_app.
  rewrite (skipn_all2 a) by (unfold nlen in *; lia). cbn [app]. f_equal. unfold nlen in *. lia.
Qed.

Lemma parse_header_enc : forall ptr data d, is_gsym data d -> ptr mod 8 = 0 ->
  parse_header ptr data = Ok (gsym_of ptr data d).
Proof.
  intros ptr data d (Hw & Hbase & Hnf & Hnfi & Hns & Hso & HF & HFi & (us & uuid & Hus & Huu & Hhd) &
                     (p & Hp & Hp4 & Htab) & Hstr & Hinf) Hptr.
  destruct Hhd as (pre & rest & Hhd & Hpre).
  destruct pre; [|rewrite nlen_cons in Hpre; lia]. rewrite app_nil_l in Hhd. clear Hpre.
  assert (Hwn : forall x, In x (gf_funcs d) ->
     nlen (le_bytes (N.to_nat (gf_width d)) (f_start x)) = gf_width d).
  { intros. rewrite le_bytes_nlen. lia. }
  assert (Hw8 : gf_width d <= 8) by (apply width_cases in Hw; lia).
  unfold parse_header, parse_header_impl.
  set (tab := flat_map (fun f => le_bytes (N.to_nat (gf_width d)) (f_start f)) (gf_funcs d)) in *.
  assert (Htl : nlen tab = nlen (gf_funcs d) * gf_width d) by (apply nlen_flat; auto).
  match type of Hhd with data = ?h ++ rest => set (hd := h) in * end.
  pose proof Hhd as Hdata.
  assert (Hhdlen : nlen hd = 48 + nlen (gf_funcs d) * gf_width d).
  { unfold hd. rewrite !nlen_app, !le_bytes_nlen, Huu, Htl. rewrite ?nlen_cons, ?nlen_nil. lia. }
  unfold hd in Hhd. rewrite <- !app_assoc in Hhd.
  (* evaluate the reads one after another *)
  remember (nlen data) as L eqn:EL.
  rewrite Hhd at 1.
  rewrite read_u32_le by reflexivity. cbn [bind].
  change (negb (1196644685 =? GSYM_MAGIC)) with false. cbn iota.
  rewrite read_u16_le by reflexivity. cbn [bind].
  change (negb (1 =? GSYM_VERSION)) with false. cbn iota. cbn [app].
  rewrite read_u8_cons. cbn [bind]. rewrite read_u8_cons. cbn [bind].
  rewrite read_u64_le by exact Hbase. cbn [bind].
  rewrite read_u32_le by exact Hnf. cbn [bind].
  rewrite read_u32_le by exact Hso. cbn [bind].
  rewrite read_u32_le by exact Hns. cbn [bind].
  rewrite read_slice_app by exact Huu. cbn [bind].
  assert (Hpos : L - nlen (tab ++ rest) = 48).
  { pose proof (f_equal nlen Hdata) as HL. rewrite nlen_app, Hhdlen in HL.
    rewrite EL, nlen_app, Htl. lia. }
  rewrite Hpos. rewrite read_slice_app by exact Htl. cbn [bind].
  apply holds_at_drop in Htab. destruct Htab as [Htab Htabl].
  rewrite EL. rewrite (align_to ptr data hd rest p); auto; [|lia|lia].
  cbn [bind]. match type of Htab with _ = _ ++ ?x => remember x as after eqn:Eafter end.
  rewrite <- !app_assoc in Htab.
  assert (Hpl : nlen (ndrop p data) = nlen data - p) by apply nlen_ndrop.
  assert (Hptr4 : forall x, x mod 4 = 0 -> (ptr + x) mod 4 = 0).
  { intros x Hx. pose proof (N.div_mod ptr 8 ltac:(lia)). pose proof (N.div_mod x 4 ltac:(lia)).
    symmetry. apply N.mod_unique with (2 * (ptr / 8) + x / 4); lia. }
  rewrite Hpl. replace (nlen data - (nlen data - p)) with p by lia. rewrite Htab.
  rewrite (read_pods _ (fun f => le_bytes 4 (f_off f)))
    by (first [assumption | reflexivity | intros; apply le_bytes_nlen | apply Hptr4; assumption]).
  cbn [bind]. rewrite read_u32_le by exact Hnfi. cbn [bind].
  set (fbytes := flat_map (fun '(a, b) => le_bytes 4 a ++ le_bytes 4 b) (gf_files d)) in *.
  assert (Hfl : nlen (flat_map (fun f => le_bytes 4 (f_off f)) (gf_funcs d)) = nlen (gf_funcs d) * 4).
  { apply nlen_flat. intros; apply le_bytes_nlen. }
  set (p2 := p + nlen (gf_funcs d) * 4 + 4).
  assert (Hp2 : p2 mod 4 = 0).
  { unfold p2. pose proof (N.div_mod p 4 ltac:(lia)). symmetry.
    apply N.mod_unique with (p / 4 + nlen (gf_funcs d) + 1); lia. }
  assert (Hp2len : nlen (fbytes ++ after) = nlen data - p2 /\ p2 <= nlen data).
  { rewrite nlen_app, Eafter, nlen_ndrop. rewrite !nlen_app, Hfl, le_bytes_nlen in *.
    unfold p2. lia. }
  assert (Hal : align (ptr + (nlen data - nlen (fbytes ++ after))) 4 (fbytes ++ after) = Ok (fbytes ++ after)).
  { unfold align, advance, align_offset. destruct Hp2len as [-> ?].
    replace (nlen data - (nlen data - p2)) with p2 by lia. rewrite Hptr4 by auto.
    change ((4 - 0) mod 4) with 0. unfold read_slice.
    destruct (N.ltb_spec (nlen (fbytes ++ after)) 0); [lia|]. cbn [bind].
    now destruct (fbytes ++ after). }
  rewrite Hal. cbn [bind]. unfold fbytes.
  rewrite (read_pods _ (fun '(a, b) => le_bytes 4 a ++ le_bytes 4 b)).
  2,3: reflexivity. 2: assumption.
  2:{ intros [a b] _. rewrite nlen_app, !le_bytes_nlen. reflexivity. }
  2:{ fold fbytes. destruct Hp2len as [-> ?]. replace (nlen data - (nlen data - p2)) with p2 by lia. auto. }
  cbn [bind]. destruct (get_from_holds _ _ _ Hstr) as [r2 ->]. cbn [bind].
  rewrite read_slice_app by reflexivity. cbn [bind ok_or]. unfold gsym_of. fold tab. f_equal. f_equal.
  - rewrite map_map. apply map_ext_in. intros f Hf. rewrite Forall_forall in HF.
    apply le_val_bytes. now apply HF.
  - rewrite map_map. rewrite <- (map_id (gf_files d)) at 2. apply map_ext_in. intros [a b] Hf.
    rewrite Forall_forall in HFi. specialize (HFi _ Hf). cbn in HFi.
    rewrite ntake_app_exact by (now rewrite le_bytes_nlen).
    rewrite ndrop_app_exact by (now rewrite le_bytes_nlen).
    rewrite !le_val_bytes by (apply HFi). reflexivity.
Qed.

(** ** Lookups in a whole file *)
Lemma nth_error_map_some : forall A B (f : A -> B) l i y, nth_error (map f l) i = Some y ->
  exists x, nth_error l i = Some x /\ y = f x.
Proof.
  intros A B f l i y H. rewrite nth_error_map in H. destruct (nth_error l i) as [x|]; [|discriminate].
  injection H as <-. eauto.
Qed.

Section File.
  Variables (m : mode) (ptr : N) (data : list N) (d : gfile).
  Hypothesis Hg : is_gsym data d.
  Hypothesis Hptr : ptr mod 8 = 0.
  Hypothesis Hsorted : sorted_funcs d.
  Hypothesis Hfits : no_wrap d.
  Let g := gsym_of ptr data d.

  Lemma file_funcs : forall f, In f (gf_funcs d) ->
    f_start f < 256 ^ gf_width d /\ f_size f < 2 ^ 32 /\ f_name f < 2 ^ 32 /\ f_off f < 2 ^ 32 /\
    gf_base d + f_start f + f_size f < 2 ^ 64.
  Proof using Hg Hfits Hptr.
    intros f Hf. destruct Hg as (_ & _ & _ & _ & _ & _ & HF & _).
    rewrite Forall_forall in HF. pose proof (HF f Hf). unfold no_wrap in Hfits.
    rewrite Forall_forall in Hfits. pose proof (Hfits f Hf). intuition.
  Qed.

  Lemma file_find_impl : forall rel,
    find_addr_impl g (gf_width d) rel
    = of_option ENone (find_match_or_lower_bound_by_key
        (map (fun f => le_bytes (N.to_nat (gf_width d)) (f_start f)) (gf_funcs d)) rel le_val).
  Proof using Hg Hptr.
    intros rel. unfold find_addr_impl, g, gsym_of.
    cbn [g_addr_tab_pos g_num_addrs g_addr_tab].
    destruct Hg as (Hw & _ & Hn & _). apply width_cases in Hw.
    rewrite <- (app_nil_r (flat_map _ _)).
    rewrite (read_pods _ (fun f => le_bytes (N.to_nat (gf_width d)) (f_start f))).
    - reflexivity.
    - lia.
    - assert (8 < 2 ^ 32) by reflexivity. lia.
    - auto.
    - intros. rewrite le_bytes_nlen. lia.
    - pose proof (N.div_mod ptr 8 ltac:(lia)) as Hd. rewrite Hptr in Hd.
      destruct Hw as [ -> | [ -> | [ -> | -> ]]].
      + apply N.mod_1_r.
      + symmetry. apply N.mod_unique with (4 * (ptr / 8) + 24); lia.
      + symmetry. apply N.mod_unique with (2 * (ptr / 8) + 12); lia.
      + symmetry. apply N.mod_unique with (ptr / 8 + 6); lia.
  Qed.

  Lemma file_find_addr : forall addr,
    (exists i f, find_addr g addr = Ok i /\ nth_error (gf_funcs d) i = Some f /\ nearest d addr f) \/
    (find_addr g addr = Err ENone /\ forall f, In f (gf_funcs d) -> addr < gf_base d + f_start f).
  Proof using Hg Hptr Hsorted Hfits.
    intros addr. unfold find_addr. change (g_base_address g) with (gf_base d). unfold chk_sub.
    destruct (N.leb_spec (gf_base d) addr) as [Hb|Hb].
    2:{ right. cbn [bind of_option]. split; auto. intros. lia. }
    cbn [bind of_option]. change (g_addr_off_size g) with (gf_width d).
    assert (E : (if gf_width d =? 1 then find_addr_impl g 1 (addr - gf_base d)
      else if gf_width d =? 2 then find_addr_impl g 2 (addr - gf_base d)
      else if gf_width d =? 4 then find_addr_impl g 4 (addr - gf_base d)
      else if gf_width d =? 8 then find_addr_impl g 8 (addr - gf_base d) else Err ENone)
      = find_addr_impl g (gf_width d) (addr - gf_base d)).
    { destruct Hg as (Hw & _). apply width_cases in Hw.
      destruct Hw as [ -> | [ -> | [ -> | -> ]]]; reflexivity. }
    rewrite E, file_find_impl.
    set (enc := fun f => le_bytes (N.to_nat (gf_width d)) (f_start f)).
    assert (Hval : forall f, In f (gf_funcs d) -> le_val (enc f) = f_start f).
    { intros f Hf. apply le_val_bytes. rewrite N2Nat.id. now apply file_funcs. }
    assert (Hks : StronglySorted (fun a b => le_val a <= le_val b) (map enc (gf_funcs d))).
    { unfold sorted_funcs in Hsorted. revert Hval. induction Hsorted as [|f l Hs IH HF]; intros Hval; simpl; constructor.
      - apply IH; auto. intros. apply Hval. now right.
      - rewrite Forall_map. rewrite Forall_forall in *. intros x Hx.
        rewrite !Hval by (simpl; auto). apply HF in Hx. lia. }
    apply StronglySorted_ksorted in Hks.
    destruct (flb_cases le_val (map enc (gf_funcs d)) (addr - gf_base d) Hks)
      as [[H1 H2]|[(i & e & H1 & H2 & H3 & _)|(i & e & H1 & H2 & H3 & H4 & _)]].
    - right. rewrite H1. split; auto. intros f Hf. specialize (H2 (enc f) (in_map _ _ _ Hf)).
      rewrite Hval in H2 by auto. lia.
    - left. apply nth_error_map_some in H2. destruct H2 as (f & Hf & ->). exists i, f.
      pose proof (nth_error_In _ _ Hf) as Hin. rewrite Hval in H3 by auto. rewrite H1.
      split; auto. split; auto. repeat split; auto; [lia|]. intros. lia.
    - left. apply nth_error_map_some in H2. destruct H2 as (f & Hf & ->). exists i, f.
      pose proof (nth_error_In _ _ Hf) as Hin. rewrite Hval in H3 by auto. rewrite H1.
      split; auto. split; auto. repeat split; auto; [lia|]. intros f' Hf' Hle.
      specialize (H4 (enc f') (in_map _ _ _ Hf')). rewrite !Hval in H4 by auto. apply H4. lia.
  Qed.

  Lemma file_addr_at : forall i f, nth_error (gf_funcs d) i = Some f ->
    addr_at g i = Ok (gf_base d + f_start f).
  Proof using Hg Hfits Hptr.
    intros i f Hf. pose proof (nth_error_In _ _ Hf) as Hin.
    destruct (file_funcs f Hin) as (Hst & _ & _ & _ & Hfit).
    assert (Hw : In (gf_width d) [1; 2; 4; 8]) by apply Hg.
    assert (Hn : nlen (gf_funcs d) < 2 ^ 32) by apply Hg.
    assert (Hi : N.of_nat i < nlen (gf_funcs d)) by (apply nth_error_lt in Hf; unfold nlen; lia).
    apply width_cases in Hw. unfold addr_at.
    change (g_addr_off_size g) with (gf_width d). change (g_base_address g) with (gf_base d).
    unfold chk_mul, chk_add. assert (N.of_nat i * gf_width d < two64).
    { assert (N.of_nat i * gf_width d <= nlen (gf_funcs d) * 8) by (apply N.mul_le_mono; lia).
      assert (2 ^ 32 * 8 < two64) by reflexivity. lia. }
    destruct (N.ltb_spec (N.of_nat i * gf_width d) two64); [|lia]. cbn [bind of_option].
    destruct (nth_error_split _ _ Hf) as (l1 & l2 & El & Hlen).
    set (enc := fun f => le_bytes (N.to_nat (gf_width d)) (f_start f)).
    assert (Hwn : forall l x, In x l -> nlen (enc x) = gf_width d).
    { intros. unfold enc. rewrite le_bytes_nlen. lia. }
    assert (Hget : get_from (N.of_nat i * gf_width d) (g_addr_tab g) = Ok (enc f ++ flat_map enc l2)).
    { unfold g, gsym_of. cbn [g_addr_tab]. fold enc. rewrite El, flat_map_app. cbn [flat_map].
      unfold get_from. rewrite nlen_app, (nlen_flat _ enc (gf_width d) l1) by (apply Hwn).
      unfold nlen at 1. rewrite Hlen.
      destruct (N.leb_spec (N.of_nat i * gf_width d) (N.of_nat i * gf_width d + nlen (enc f ++ flat_map enc l2))); [|lia].
      rewrite ndrop_app_exact; [reflexivity|]. rewrite (nlen_flat _ enc (gf_width d) l1) by (apply Hwn).
      unfold nlen. now rewrite Hlen. }
    rewrite Hget. cbn [bind].
    assert (Hread : (if gf_width d =? 1 then read_u8 (enc f ++ flat_map enc l2)
      else if gf_width d =? 2 then read_u16 (enc f ++ flat_map enc l2)
      else if gf_width d =? 4 then read_u32 (enc f ++ flat_map enc l2)
      else if gf_width d =? 8 then read_u64 (enc f ++ flat_map enc l2) else Err ENone)
      = Ok (f_start f, flat_map enc l2)).
    { unfold enc at 1 3 5 7. unfold read_u8, read_u16, read_u32, read_u64.
      destruct Hw as [Ew|[Ew|[Ew|Ew]]]; rewrite Ew in *;
        [change (1 =? 1) with true|change (2 =? 1) with false; change (2 =? 2) with true
        |change (4 =? 1) with false; change (4 =? 2) with false; change (4 =? 4) with true
        |change (8 =? 1) with false; change (8 =? 2) with false; change (8 =? 4) with false;
         change (8 =? 8) with true]; cbn iota.
      - apply (read_le_bytes 1). exact Hst.
      - apply (read_le_bytes 2). exact Hst.
      - apply (read_le_bytes 4). exact Hst.
      - apply (read_le_bytes 8). exact Hst. }
    rewrite Hread. cbn [bind].
    destruct (N.ltb_spec (gf_base d + f_start f) two64); [reflexivity|]. unfold two64 in *. lia.
  Qed.

  Lemma file_addr_info : forall i f, nth_error (gf_funcs d) i = Some f ->
    exists b rest, enc_infos (f_infos f) b /\
      get_addr_info g i = Ok (AddrInfo (f_size f) (f_name f) (b ++ rest)).
  Proof using Hg Hfits Hptr.
    intros i f Hf. pose proof (nth_error_In _ _ Hf) as Hin.
    destruct (file_funcs f Hin) as (_ & Hsz & Hnm & _).
    assert (HI : Forall (fun f => exists b, enc_infos (f_infos f) b /\
            holds_at data (f_off f) (le_bytes 4 (f_size f) ++ le_bytes 4 (f_name f) ++ b)) (gf_funcs d)) by apply Hg.
    rewrite Forall_forall in HI. destruct (HI f Hin) as (b & Hb & Hat).
    unfold get_addr_info. change (g_addr_data_off_tab g) with (map f_off (gf_funcs d)).
    rewrite nth_error_map, Hf. cbn [option_map of_option bind].
    change (g_raw_data g) with data. destruct (get_from_holds _ _ _ Hat) as [rest ->].
    exists b, rest. split; auto. cbn [bind]. rewrite <- !app_assoc.
    rewrite read_u32_le by exact Hsz. cbn [bind]. rewrite read_u32_le by exact Hnm. reflexivity.
  Qed.

  Lemma file_get_str : forall off s, str_at d off s -> get_str g off = Ok s.
  Proof using.
    intros off s [Hat Hnz]. unfold get_str. change (g_str_tab g) with (gf_strs d).
    destruct (get_from_holds _ _ _ Hat) as [rest ->]. cbn [bind]. unfold read_cstr.
    rewrite <- app_assoc. cbn [app]. rewrite split_once_app; [reflexivity| |reflexivity].
    eapply Forall_impl; [|exact Hnz]. intros b Hb. cbn. now apply N.eqb_neq.
  Qed.
  Lemma file_get_utf8 : forall off s, name_at d off s -> get_utf8 g off = Ok s.
  Proof using.
    intros off s [Hs Hu]. unfold get_utf8. rewrite (file_get_str off s) by auto. cbn [bind].
    apply utf8_valid_iff in Hu. now rewrite Hu.
  Qed.
  Lemma file_query : forall file line ci, loc_at d file line ci ->
    query_frame_code_info g file line = Ok ci.
  Proof using.
    intros file line ci (a & b & dir & name & Hn & Ha & Hb & ->). unfold query_frame_code_info.
    change (g_file_tab g) with (gf_files d). rewrite Hn. cbn [of_option bind].
    rewrite (file_get_str a dir) by auto. cbn [bind ok_or].
    rewrite (file_get_str b name) by auto. reflexivity.
  Qed.
End File.

(** ** Address data *)
Inductive item : info -> N * list N -> Prop :=
| ItemLine : forall h ops b, enc_line_table h ops b -> item (LineInfo h ops) (1, b)
| ItemInline : forall t b j, enc_tree t b -> item (InlineInfo t) (2, b ++ j)
| ItemOther : forall typ b, 2 < typ -> item (OtherInfo typ b) (typ, b).

Lemma address_data_enc : forall infos b, enc_infos infos b -> forall fuel rest,
  (length infos < fuel)%nat -> Forall2 item infos (address_data fuel (b ++ rest)).
Proof.
  intros infos b H. induction H as [|i l b bs Hi Hl IH]; intros fuel rest Hf;
    (destruct fuel as [|f]; [lia|]); cbn [address_data].
  - rewrite read_u32_le by reflexivity. constructor.
  - simpl in Hf. assert (Hf' : (length l < f)%nat) by lia. specialize (IH f rest Hf').
    destruct Hi as [h ops b Hb Hn|t b j Hb Hn|typ b Ht Hn]; rewrite <- !app_assoc.
    + rewrite read_u32_le by reflexivity. change (1 =? 0) with false. cbn iota.
      rewrite read_u32_le by exact Hn. rewrite read_slice_app by reflexivity.
      constructor; auto. now constructor.
    + rewrite read_u32_le by reflexivity. change (2 =? 0) with false. cbn iota.
      rewrite read_u32_le by exact Hn. rewrite (app_assoc b j). rewrite read_slice_app by reflexivity.
      constructor; auto. now constructor.
    + rewrite read_u32_le by (apply Ht). destruct (N.eqb_spec typ 0); [lia|].
      rewrite read_u32_le by exact Hn. rewrite read_slice_app by reflexivity.
      constructor; auto. constructor. lia.
Qed.
Lemma enc_infos_length : forall infos b, enc_infos infos b -> (length infos < length b)%nat.
Proof.
  induction 1 as [|i l b bs Hi Hl IH]; simpl; [lia|]. rewrite app_length.
  assert (0 < length b)%nat by (destruct Hi; rewrite !app_length, le_bytes_length; lia). lia.
Qed.

(** The row the scan finds. *)
Fixpoint scan_row (sa addr : N) (infos : list info) (acc : option lstate) : option lstate :=
  match infos with
  | [] => acc
  | LineInfo h ops :: l =>
      scan_row sa addr l
        (match acc with Some _ => acc | None => eff addr (table_rows h sa ops) None end)
  | _ :: l => scan_row sa addr l acc
  end.
Fixpoint scan_chain (sa addr : N) (infos : list info) (acc : list call) : list call :=
  match infos with
  | [] => acc
  | InlineInfo t :: l =>
      scan_chain sa addr l (match acc with [] => tree_chain sa addr t | _ => acc end)
  | _ :: l => scan_chain sa addr l acc
  end.
Lemma scan_data_enc : forall m opts sa addr infos ents, Forall2 item infos ents ->
  Forall (info_ok sa) infos -> forall row chain,
  scan_data m opts sa addr ents (option_map to_row row) (map to_frame chain)
  = Ok (option_map to_row (scan_row sa addr infos row),
        map to_frame (if inlined_fns_opt opts then scan_chain sa addr infos chain else chain)).
Proof.
  intros m opts sa addr infos ents H. induction H as [|i e infos ents Hi H IH]; intros Hok row chain.
  - cbn. now destruct (inlined_fns_opt opts).
  - inversion Hok as [|? ? Hi1 Hok']; subst. specialize (IH Hok').
    destruct Hi as [h ops b Hb|t b j Hb|typ b Ht]; cbn [scan_data scan_row scan_chain].
    + change (1 =? 1) with true. cbn iota. destruct row as [r|]; cbn [option_map].
      * now rewrite <- IH.
      * destruct Hi1 as (H1 & H2 & H3 & _).
        rewrite (parse_line_tab_enc m h ops b) by (auto; split; auto). cbn [bind]. apply IH.
    + change (2 =? 1) with false. change (2 =? 2) with true. cbn [andb].
      destruct (inlined_fns_opt opts) eqn:Eo.
      * destruct chain as [|c chain]; cbn [map].
        -- rewrite (parse_inline_enc m t b j) by auto. cbn [bind]. apply IH.
        -- exact (IH row (c :: chain)).
      * apply IH.
    + destruct (N.eqb_spec typ 1); [lia|]. destruct (N.eqb_spec typ 2); [lia|]. cbn [andb]. apply IH.
Qed.
Lemma scan_row_acc : forall sa addr infos r, scan_row sa addr infos (Some r) = Some r.
Proof. induction infos as [|[] infos IH]; intros; cbn [scan_row]; auto. Qed.
Lemma scan_chain_acc : forall sa addr infos c l, scan_chain sa addr infos (c :: l) = c :: l.
Proof. induction infos as [|[] infos IH]; intros; cbn [scan_chain]; auto. Qed.
Lemma scan_chain_of : forall sa addr infos, scan_chain sa addr infos [] = chain_of sa addr infos.
Proof.
  induction infos as [|[] infos IH]; cbn [scan_chain chain_of]; auto.
  destruct (tree_chain sa addr t); auto. apply scan_chain_acc.
Qed.
Lemma scan_row_of : forall sa addr infos, Forall (info_ok sa) infos ->
  (exists r, scan_row sa addr infos None = Some r /\ row_of sa addr infos r) \/
  (scan_row sa addr infos None = None /\ no_row sa addr infos).
Proof.
  intros sa addr infos H. induction H as [|i infos Hi H IH].
  - right. split; [reflexivity|]. intros h ops [].
  - destruct i as [h ops|t|typ b]; cbn [scan_row].
    + destruct Hi as (_ & _ & _ & Hm).
      destruct (eff_spec addr (table_rows h sa ops) None Hm) as [[E F]|(r & E & Heff)]; rewrite E.
      * assert (Hno : forall r, ~ in_effect (table_rows h sa ops) addr r).
        { intros r (i & Hi & Hle & _). apply nth_error_In in Hi. rewrite Forall_forall in F.
          apply F in Hi. lia. }
        destruct IH as [(r & Er & (pre & h' & ops' & post & -> & He & Hpre))|[Er Hr]]; rewrite Er.
        -- left. exists r. split; auto. exists (LineInfo h ops :: pre), h', ops', post.
           split; auto. split; auto. intros h2 ops2 [Heq|Hin].
           ++ injection Heq as <- <-. auto.
           ++ now apply Hpre.
        -- right. split; auto. intros h2 ops2 [Heq|Hin].
           ++ injection Heq as <- <-. auto.
           ++ now apply Hr.
      * rewrite scan_row_acc. left. exists r. split; auto.
        exists [], h, ops, infos. split; auto.
    + destruct IH as [(r & Er & (pre & h' & ops' & post & -> & He & Hpre))|[Er Hr]]; rewrite Er.
      * left. exists r. split; auto. exists (InlineInfo t :: pre), h', ops', post.
        split; auto. split; auto. intros h2 ops2 [Heq|Hin]; [discriminate|]. now apply Hpre.
      * right. split; auto. intros h2 ops2 [Heq|Hin]; [discriminate|]. now apply Hr.
    + destruct IH as [(r & Er & (pre & h' & ops' & post & -> & He & Hpre))|[Er Hr]]; rewrite Er.
      * left. exists r. split; auto. exists (OtherInfo typ b :: pre), h', ops', post.
        split; auto. split; auto. intros h2 ops2 [Heq|Hin]; [discriminate|]. now apply Hpre.
      * right. split; auto. intros h2 ops2 [Heq|Hin]; [discriminate|]. now apply Hr.
Qed.
Lemma row_of_unique : forall sa addr infos r r',
  row_of sa addr infos r -> row_of sa addr infos r' -> r = r'.
Proof.
  intros sa addr infos r r' (p & h & o & q & E & He & Hp) (p' & h' & o' & q' & E' & He' & Hp').
  rewrite E in E'. revert p' E' Hp'.
  assert (Haux : forall p p', p ++ LineInfo h o :: q = p' ++ LineInfo h' o' :: q' ->
     (forall a b, In (LineInfo a b) p -> forall r, ~ in_effect (table_rows a sa b) addr r) ->
     (forall a b, In (LineInfo a b) p' -> forall r, ~ in_effect (table_rows a sa b) addr r) ->
     LineInfo h o = LineInfo h' o').
  { clear p Hp E. induction p as [|x p IH]; intros [|x' p'] E Hp Hp'; simpl in E.
    - congruence.
    - exfalso. injection E as E1 E2. subst x'. eapply Hp'; [left; reflexivity|exact He].
    - exfalso. injection E as E1 E2. subst x. eapply Hp; [left; reflexivity|exact He'].
    - injection E as E1 E2. eapply IH; eauto; intros; [eapply Hp|eapply Hp']; right; eauto. }
  intros p' E' Hp'. specialize (Haux p p' E' Hp Hp'). injection Haux as <- <-.
  eapply in_effect_unique; eauto.
Qed.

(** ** Frames *)
Lemma add_frames_spec : forall g frames names cis,
  Forall2 (fun fr n => get_utf8 g (fr_name fr) = Ok n) frames names ->
  Forall2 (fun fr c => query_frame_code_info g (fr_file fr) (fr_line fr) = Ok c) frames cis ->
  forall li inl x loc,
  add_frames g frames li (inl ++ [InlinedFn x (Some loc)])
  = Ok (li, inl ++ [InlinedFn x (Some (match cis with [] => loc | c :: _ => c end))]
        ++ shift names cis loc).
Proof.
  intros g frames names cis Hn. revert cis.
  induction Hn as [|fr n frames names Hfr Hn IH]; intros cis Hc li inl x loc.
  - inversion Hc; subst. reflexivity.
  - inversion Hc as [|? c ? cs Hq Hc']; subst. cbn [add_frames]. rewrite Hfr. cbn [ok_or bind].
    rewrite Hq. cbn [bind]. rewrite last_code_app. cbn [if_code_info]. rewrite set_last_app. cbn [if_name].
    rewrite IH with (cis := cs) by auto. cbn [shift]. rewrite <- app_assoc. reflexivity.
Qed.
Lemma add_frames_all : forall g frames names cis,
  Forall2 (fun fr n => get_utf8 g (fr_name fr) = Ok n) frames names ->
  Forall2 (fun fr c => query_frame_code_info g (fr_file fr) (fr_line fr) = Ok c) frames cis ->
  forall loc,
  add_frames g frames loc []
  = Ok (match cis with [] => loc | c :: _ => c end, shift names cis loc).
Proof.
  intros g frames names cis Hn Hc loc. destruct Hn as [|fr n frames names Hfr Hn].
  - inversion Hc; subst. reflexivity.
  - inversion Hc as [|? c ? cs Hq Hc']; subst. cbn [add_frames]. rewrite Hfr. cbn [ok_or bind].
    rewrite Hq. cbn [bind last_code].
    rewrite (add_frames_spec g frames names cs) with (inl := []) by auto.
    cbn [app shift]. reflexivity.
Qed.
