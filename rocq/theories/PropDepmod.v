(** * The index of kernel modules

    Claim C35 of /verif/properties.jsonl. *)

From Coq Require Import String.
From Verif Require Import Base Lists Util UtilProofs Total Nom Maps MapsProofs Bytes Depmod DepmodSpec.
Local Close Scope string_scope.
Local Open Scope N_scope.

(** ** References *)
Lemma land_pow2 : forall w n, N.land w (2 ^ n) = if N.testbit w n then 2 ^ n else 0.
Proof.
  intros w n. apply N.bits_inj. intros i. rewrite N.land_spec, N.pow2_bits_eqb.
  destruct (N.eqb_spec n i) as [->|Hne].
  - rewrite andb_true_r. destruct (N.testbit w i); [now rewrite N.pow2_bits_true|now rewrite N.bits_0].
  - rewrite andb_false_r. destruct (N.testbit w n); [now rewrite N.pow2_bits_false|now rewrite N.bits_0].
Qed.
Lemma flag_bit : forall off k j, off < 2 ^ 28 -> has_flag (off + 2 ^ 28 * k) (2 ^ (28 + j)) = N.testbit k j.
Proof.
  intros off k j H. unfold has_flag. rewrite land_pow2.
  assert (E : N.testbit (off + 2 ^ 28 * k) (28 + j) = N.testbit k j).
  { rewrite (N.add_comm 28 j), <- N.shiftr_spec', N.shiftr_div_pow2. f_equal.
    rewrite (N.mul_comm _ k), N.div_add by discriminate. rewrite N.div_small by exact H. reflexivity. }
  rewrite E. destruct (N.testbit k j); [|reflexivity].
  assert (2 ^ (28 + j) <> 0) by (apply N.pow_nonzero; discriminate).
  destruct (N.eqb_spec (2 ^ (28 + j)) 0); [congruence|reflexivity].
Qed.
Lemma mask_word : forall off k, off < 2 ^ 28 -> N.land (off + 2 ^ 28 * k) index_node_mask = off.
Proof.
  intros off k H. change index_node_mask with (N.ones 28). rewrite N.land_ones.
  rewrite (N.mul_comm _ k), N.mod_add by discriminate. now apply N.mod_small.
Qed.
Definition ref_flags (p : list N) (cs : list (option trie)) (vs : list (N * list N)) : N :=
  (match cs with [] => 0 | _ => 2 end) + (match vs with [] => 0 | _ => 4 end) + (match p with [] => 0 | _ => 8 end).
Lemma ref_word_flags : forall off p cs vs, ref_word off p cs vs = off + 2 ^ 28 * ref_flags p cs vs.
Proof. intros. unfold ref_word, ref_flags. destruct cs, vs, p; lia. Qed.
Lemma ref_parts : forall off p cs vs, off < 2 ^ 28 ->
  N.land (ref_word off p cs vs) index_node_mask = off /\
  has_flag (ref_word off p cs vs) index_node_prefix = negb (match p with [] => true | _ => false end) /\
  has_flag (ref_word off p cs vs) index_node_childs = negb (match cs with [] => true | _ => false end) /\
  has_flag (ref_word off p cs vs) index_node_values = negb (match vs with [] => true | _ => false end).
Proof.
  intros off p cs vs H. rewrite ref_word_flags.
  split; [now apply mask_word|].
  change index_node_prefix with (2 ^ (28 + 3)). change index_node_childs with (2 ^ (28 + 1)).
  change index_node_values with (2 ^ (28 + 2)). rewrite !flag_bit by auto.
  destruct p, cs, vs; repeat split.
Qed.

(** ** Reading *)
Lemma be32_nlen : forall v, nlen (be32 v) = 4.
Proof. intros v. unfold be32, nlen. rewrite rev_length. pose proof (le_bytes_nlen 4 v) as H. exact H. Qed.
Lemma read_be32_app : forall v r, v < 2 ^ 32 -> read_be32 (be32 v ++ r) = Ok (v, r).
Proof.
  intros v r H. unfold read_be32. rewrite read_slice_app by apply be32_nlen. cbn [bind]. unfold be_val, be32.
  rewrite rev_involutive. rewrite le_val_bytes by exact H. reflexivity.
Qed.
Lemma read_u8_cons : forall b r, read_u8 (b :: r) = Ok (b, r).
Proof.
  intros b r. unfold read_u8, read_le. change (b :: r) with ([b] ++ r).
  rewrite read_slice_app by reflexivity. cbn [bind le_val]. do 2 f_equal. lia.
Qed.
Lemma read_cstr_app : forall p r, Forall (fun c => c <> 0) p -> read_cstr (p ++ 0 :: r) = Ok (p, r).
Proof.
  intros p r H. unfold read_cstr. rewrite split_once_app; [reflexivity| |reflexivity].
  eapply Forall_impl; [|exact H]. intros c Hc. now apply N.eqb_neq.
Qed.
Lemma advance_app : forall n a b, nlen a = n -> advance n (a ++ b) = Ok b.
Proof. intros n a b H. unfold advance. rewrite read_slice_app by auto. reflexivity. Qed.
Lemma slots_split : forall slots i w, nth_error slots i = Some w ->
  exists a b, flat_map be32 slots = a ++ be32 w ++ b /\ nlen a = 4 * N.of_nat i.
Proof.
  intros slots i w H. apply nth_error_split in H. destruct H as (l1 & l2 & -> & <-).
  exists (flat_map be32 l1), (flat_map be32 l2). split; [now rewrite flat_map_app|].
  clear. induction l1 as [|x l1 IH]; [reflexivity|]. cbn [flat_map]. rewrite nlen_app, be32_nlen, IH. cbn [length]. lia.
Qed.
Lemma slots_nlen : forall slots, nlen (flat_map be32 slots) = 4 * nlen slots.
Proof.
  induction slots as [|x l IH]; [reflexivity|]. cbn [flat_map]. rewrite nlen_app, be32_nlen, IH, nlen_cons. lia.
Qed.

(** A name that is not in the trie, as told by its parts *)
Lemma has_inv : forall p f cs vs name us, has (Trie p f cs vs) name us ->
  (name = p /\ us = vs /\ vs <> []) \/
  exists i t n, name = p ++ (f + N.of_nat i) :: n /\ nth_error cs i = Some (Some t) /\ has t n us.
Proof. intros p f cs vs name us H. inversion H; subst; [left; auto|right; eauto 10]. Qed.

(** Where a walk for a name ends *)
Definition ends (data : list N) (name : list N) (r : res (option (N * list N))) (t : trie) : Prop :=
  (exists vs off rest w, has t name vs /\ r = Ok (Some (w, be32 (nlen vs) ++ flat_map (fun v => be32 (fst v) ++ snd v ++ [0]) vs ++ rest)) /\
     has_flag w index_node_values = true /\ nlen vs < 2 ^ 32 /\ off = w) \/
  ((forall vs, ~ has t name vs) /\
   (r = Ok None \/ exists w rest, r = Ok (Some (w, rest)) /\ has_flag w index_node_values = false)).

Lemma nil_or : forall A (l : list A), l = [] \/ l <> [].
Proof. intros A [|x l]; [now left|right; discriminate]. Qed.
Lemma first_slot : forall cs (slots : list N) (P : N -> option trie -> Prop), Forall2 P slots cs -> (slots = [] <-> cs = []).
Proof. intros cs slots P H. destruct H; split; congruence. Qed.

Lemma walk_ends : forall m fuel data w t name reader r',
  (length name < fuel)%nat -> stored data w t -> w < 2 ^ 32 -> reader = be32 w ++ r' ->
  ends data name (depmod_walk fuel m data reader name) t.
Proof.
  intros m. induction fuel as [|fuel IH]; intros data w t name reader r' Hf Hst Hw ->; [lia|].
  destruct Hst as [off p f cs vs slots rest Ho Hlen Hvs Hp Hcs Hcs2 Hd Hsl].
  cbn [depmod_walk]. rewrite read_be32_app by exact Hw. cbn [ok_or bind].
  destruct (ref_parts off p cs vs Ho) as (E1 & E2 & E3 & E4). rewrite E1.
  destruct (N.ltb_spec (nlen data) off); [lia|]. rewrite Hd. rewrite E2.
  set (W := ref_word off p cs vs) in *.
  set (tail := (match slots with [] => [] | _ => [f; f + nlen slots - 1] ++ flat_map be32 slots end) ++
    (match vs with [] => [] | _ => be32 (nlen vs) ++ flat_map (fun v => be32 (fst v) ++ snd v ++ [0]) vs end)).
  (* the prefix *)
  assert (Epre : (if negb (match p with [] => true | _ => false end) then
      let* '(prefix, reader) := ok_or EInvalidData (read_cstr (node_bytes p f slots vs ++ rest)) in
      match strip_prefix prefix name with
      | None => Ok None
      | Some name => Ok (Some (name, reader))
      end else Ok (Some (name, node_bytes p f slots vs ++ rest))) =
    match strip_prefix p name with
    | None => Ok None
    | Some name => Ok (Some (name, tail ++ rest))
    end).
  { unfold node_bytes. fold tail. destruct p as [|c p]; cbn [negb]; [reflexivity|].
    replace ((((c :: p) ++ [0]) ++ tail) ++ rest) with ((c :: p) ++ 0 :: tail ++ rest) by now rewrite <- !app_assoc.
    rewrite read_cstr_app by auto. reflexivity. }
  rewrite Epre. clear Epre.
  destruct (strip_prefix p name) as [name'|] eqn:Estrip; cbn [bind].
  2:{ right. split; [|now left]. intros us Hu. apply has_inv in Hu.
      destruct Hu as [(-> & _)|(i & t & n & -> & _)].
      - rewrite (proj2 (strip_prefix_some p p [])) in Estrip by now rewrite app_nil_r. discriminate.
      - rewrite (proj2 (strip_prefix_some p _ _) eq_refl) in Estrip. discriminate. }
  apply strip_prefix_some in Estrip. subst name. rewrite E3.
  assert (Hcancel : forall n, p ++ name' = p ++ n <-> name' = n).
  { intros n. split; [apply app_inv_head|congruence]. }
  assert (Hlen2 : nlen slots = nlen cs) by (unfold nlen; f_equal; eapply Forall2_length; eauto).
  destruct (nil_or _ cs) as [->|Hne].
  - (* no children *)
    apply first_slot in Hsl. cbn [negb]. assert (slots = []) by now apply Hsl. subst slots. cbn [app] in tail.
    destruct name' as [|c name'].
    + destruct (nil_or _ vs) as [->|Hnv].
      * right. split; [|right; exists W, (tail ++ rest); split; [reflexivity|exact E4]].
        intros us Hu. apply has_inv in Hu. destruct Hu as [(_ & -> & H0)|(i & t & n & Hn & _)]; [congruence|].
        apply (app_inv_head p) in Hn. discriminate.
      * left. exists vs, W, rest, W. split; [rewrite app_nil_r; now constructor|]. split.
        { unfold tail. destruct vs; [congruence|]. now rewrite <- app_assoc. }
        split; [rewrite E4; destruct vs; [congruence|reflexivity]|]. auto.
    + right. split; [|now left]. intros us Hu. apply has_inv in Hu.
      destruct Hu as [(Hn & _)|(i & t & n & Hn & Hi & _)].
      * rewrite <- (app_nil_r p) in Hn at 2. apply app_inv_head in Hn. discriminate.
      * destruct i; discriminate.
  - (* children *)
    assert (Hns : slots <> []) by (intros ->; apply Hne; now apply first_slot in Hsl; apply Hsl).
    assert (Hcpos : 0 < nlen cs) by (destruct cs; [congruence|rewrite nlen_cons; lia]).
    assert (E5 : negb (match cs with [] => true | _ => false end) = true) by (destruct cs; [congruence|reflexivity]).
    rewrite E5. set (vtail := match vs with [] => [] | _ => be32 (nlen vs) ++ flat_map (fun v => be32 (fst v) ++ snd v ++ [0]) vs end) in *.
    assert (Et : tail ++ rest = f :: (f + nlen cs - 1) :: flat_map be32 slots ++ vtail ++ rest).
    { unfold tail. rewrite Hlen2. destruct slots; [congruence|]. cbn [app]. now rewrite <- !app_assoc. }
    rewrite Et. rewrite read_u8_cons. cbn [ok_or bind]. rewrite read_u8_cons. cbn [ok_or bind].
    specialize (Hcs Hne).
    destruct name' as [|c name'].
    + unfold usub, uadd. rewrite app_nil_r in *.
      replace (f + nlen cs - 1 + 256 - f) with (256 + (nlen cs - 1)) by lia.
      assert (Eu : (let* d := usub m 256 (f + nlen cs - 1) f in uadd m 256 d 1) = Ok (nlen cs)).
      { rewrite usub_small by lia. cbn [bind]. rewrite uadd_small by lia. f_equal. lia. }
      destruct (usub m 256 (f + nlen cs - 1) f) as [d| | |] eqn:Ed; try discriminate. cbn [bind] in Eu.
      unfold usub in Ed. rewrite ?Ed. cbn [bind]. unfold uadd in Eu. rewrite Eu. cbn [bind].
      rewrite advance_app by (rewrite slots_nlen; lia). cbn [ok_or bind].
      destruct (nil_or _ vs) as [->|Hnv].
      * right. split; [|right; exists W, (vtail ++ rest); split; [reflexivity|exact E4]].
        intros us Hu. apply has_inv in Hu. destruct Hu as [(_ & -> & H0)|(i & t & n & Hn & _)]; [congruence|].
        rewrite <- (app_nil_r p) in Hn at 1. apply app_inv_head in Hn. discriminate.
      * left. exists vs, W, rest, W. split; [now constructor|]. split.
        { unfold vtail. destruct vs; [congruence|]. now rewrite <- app_assoc. }
        split; [rewrite E4; destruct vs; [congruence|reflexivity]|]. auto.
    + destruct ((c <? f) || (f + nlen cs - 1 <? c)) eqn:Er.
      * right. split; [|now left]. intros us Hu. apply has_inv in Hu.
        destruct Hu as [(Hn & _)|(i & t & n & Hn & Hi & _)].
        { rewrite <- (app_nil_r p) in Hn at 2. apply app_inv_head in Hn. discriminate. }
        apply app_inv_head in Hn. injection Hn as -> ->. apply nth_error_lt in Hi.
        apply orb_true_iff in Er. unfold nlen in Er. rewrite !N.ltb_lt in Er. lia.
      * apply orb_false_iff in Er. destruct Er as [Er1 Er2]. apply N.ltb_ge in Er1, Er2.
        set (i := N.to_nat (c - f)).
        assert (Hi : (i < length slots)%nat) by (unfold i, nlen in *; lia).
        destruct (nth_error_lt_some _ slots i Hi) as [w Hwi].
        destruct (slots_split slots i w Hwi) as (a & b & Eab & Hna).
        assert (Hwc := Forall2_nth_l _ _ _ _ _ Hsl i w Hwi). destruct Hwc as (oc & Hoc & Hw2).
        assert (Hci : c = f + N.of_nat i) by (unfold i; lia).
        rewrite Eab. replace ((a ++ be32 w ++ b) ++ vtail ++ rest) with (a ++ (be32 w ++ b ++ vtail ++ rest)) by now rewrite <- !app_assoc.
        rewrite advance_app by (rewrite Hna; unfold i; lia). cbn [ok_or bind].
        destruct Hw2 as [|w tc Hw0 Hw32 Hst].
        2:{
          assert (Hl : (length name' < fuel)%nat) by (rewrite app_length in Hf; cbn [length] in Hf; lia).
          specialize (IH data w tc name' (be32 w ++ b ++ vtail ++ rest) (b ++ vtail ++ rest) Hl Hst Hw32 eq_refl).
          destruct IH as [(us & o & rs & wr & Hhas & Hrest)|[Hnot Hrest]].
          - left. exists us, o, rs, wr. split; [|exact Hrest]. rewrite Hci. now apply HasChild with tc.
          - right. split; [|exact Hrest]. intros us Hu. apply has_inv in Hu.
            destruct Hu as [(Hn & _)|(i' & t & n & Hn & Hi' & Ht)].
            { rewrite <- (app_nil_r p) in Hn at 2. apply app_inv_head in Hn. discriminate. }
            apply app_inv_head in Hn. injection Hn as Hc' <-.
            assert (i' = i) by lia. subst i'. assert (t = tc) by congruence. subst t. eapply Hnot; eauto. }
        right. split.
        { intros us Hu. apply has_inv in Hu. destruct Hu as [(Hn & _)|(i' & t & n & Hn & Hi' & Ht)].
          - rewrite <- (app_nil_r p) in Hn at 2. apply app_inv_head in Hn. discriminate.
          - apply app_inv_head in Hn. injection Hn as Hc' <-. assert (i' = i) by lia. subst i'. congruence. }
        destruct fuel as [|fuel]; [rewrite app_length in Hf; cbn [length] in Hf; lia|].
        cbn [depmod_walk]. rewrite read_be32_app by reflexivity. cbn [ok_or bind].
        change (N.land 0 index_node_mask) with 0. destruct (N.ltb_spec (nlen data) 0); [lia|].
        change (has_flag 0 index_node_prefix) with false. change (has_flag 0 index_node_childs) with false. cbn [bind].
        destruct name'; [right; eexists _, _; split; reflexivity|now left].
Qed.

(** ** Paths *)
Lemma join_under : forall base path, under base path (path_join base path).
Proof.
  intros base path. unfold under, path_join.
  assert (Habs : (exists p, path = 47 :: p) \/ ~ exists p, path = 47 :: p).
  { destruct path as [|c p]; [right; intros (q & H); discriminate|].
    destruct (N.eq_dec c 47) as [->|Hne]; [left; eauto|right; intros (q & H); congruence]. }
  destruct Habs as [(p & ->)|Hn]; [left; eauto|]. right. split; auto.
  set (j := match base with [] => path | _ => if last base 0 =? 47 then base ++ path else base ++ 47 :: path end).
  assert (Ej : (match path with 47 :: _ => path | _ => j end) = j).
  { destruct path as [|c p]; [reflexivity|]. destruct (N.eq_dec c 47) as [->|Hne]; [exfalso; apply Hn; eauto|].
    destruct c as [|q]; [reflexivity|]. do 6 (destruct q as [q|q|]; try reflexivity). congruence. }
  rewrite Ej. unfold j. destruct (nil_or _ base) as [->|Hb]; [exists []; auto|].
  destruct (exists_last Hb) as (b & x & ->).
  assert (El : last (b ++ [x]) 0 = x) by apply last_last.
  assert (E : (match b ++ [x] with [] => path | _ => if last (b ++ [x]) 0 =? 47 then (b ++ [x]) ++ path else (b ++ [x]) ++ 47 :: path end) =
    if x =? 47 then (b ++ [x]) ++ path else (b ++ [x]) ++ 47 :: path).
  { rewrite El. destruct (b ++ [x]) eqn:E; [destruct b; discriminate|reflexivity]. }
  rewrite E. exists b. destruct (N.eqb_spec x 47) as [->|Hx]; [now left|].
  right. left. split; [|reflexivity]. split; auto. intros (b' & Eb). apply app_inj_tail in Eb. destruct Eb. congruence.
Qed.
Lemma under_fun : forall base path a b, under base path a -> under base path b -> a = b.
Proof.
  intros base path a b Ha Hb. unfold under in *.
  destruct Ha as [[A1 ->]|[A1 (ba & A2)]], Hb as [[B1 ->]|[B1 (bb & B2)]]; auto; try tauto.
  destruct A2 as [[A2 ->]|[[[A2 A3] ->]|[A2 ->]]], B2 as [[B2 ->]|[[[B2 B3] ->]|[B2 ->]]]; auto; try congruence;
    try (exfalso; eauto; fail); try (subst base; destruct ba; discriminate); try (subst base; destruct bb; discriminate).
Qed.

(** ** The claims *)
Lemma walk_root : forall m data t name, index_file data t -> exists reader,
  advance 8 data = Ok reader /\ ends data name (depmod_walk (S (length name)) m data reader name) t.
Proof.
  intros m data t name (root & rest & Hr & E & Hst). exists (be32 root ++ rest). split.
  - rewrite E. rewrite app_assoc. apply advance_app. reflexivity.
  - apply (walk_ends m (S (length name)) data root t name _ rest); auto.
Qed.

(** A name in the index leads to the path of its first value. *)
Theorem C35_found : forall m base data t name v vs path, index_file data t ->
  has t name (v :: vs) -> module_value v path ->
  depmod_validate data = Ok tt /\
  exists full, find_path m base data name = Ok (Some full) /\ under base path full.
Proof.
  intros m base data t name v vs path Hi Hh (deps & Hv & Hnc). split.
  { destruct Hi as (root & rest & Hr & -> & _). unfold depmod_validate.
    rewrite read_be32_app by reflexivity. cbn [ok_or bind N.eqb negb Pos.eqb].
    rewrite read_be32_app by reflexivity. reflexivity. }
  exists (path_join base path). split; [|apply join_under].
  destruct (walk_root m data t name Hi) as (reader & Er & [(us & o & rest & w & Hu & E & Hfl & Hl & _)|[Hnot _]]);
    [|exfalso; eapply Hnot; eauto].
  assert (us = v :: vs).
  { clear - Hu Hh. revert us Hu. induction Hh as [p f cs ws Hw|p f cs ws i t n us' Hn Hh IH]; intros us Hu;
      apply has_inv in Hu.
    - destruct Hu as [(_ & -> & _)|(i & t & n & E & _)]; auto. exfalso. rewrite <- (app_nil_r p) in E at 1.
      apply app_inv_head in E. discriminate.
    - destruct Hu as [(E & _)|(i' & t' & n' & E & Hn' & Hu)].
      + exfalso. rewrite <- (app_nil_r p) in E at 2. apply app_inv_head in E. discriminate.
      + apply app_inv_head in E. injection E as E1 <-. assert (i' = i) by lia. subst i'.
        assert (t' = t) by congruence. subst t'. auto. }
  subst us. unfold find_path. rewrite Er. cbn [ok_or bind]. rewrite E. cbn [bind]. rewrite Hfl. cbn [negb].
  rewrite read_be32_app by exact Hl. cbn [ok_or bind].
  destruct (N.eqb_spec (nlen (v :: vs)) 0) as [H0|_]; [rewrite nlen_cons in H0; lia|].
  cbn [flat_map]. replace (((be32 (fst v) ++ snd v ++ [0]) ++ flat_map (fun v0 => be32 (fst v0) ++ snd v0 ++ [0]) vs) ++ rest)
    with (be32 (fst v) ++ (path ++ 58 :: deps ++ 0 :: flat_map (fun v0 => be32 (fst v0) ++ snd v0 ++ [0]) vs ++ rest)).
  2:{ rewrite Hv. change (bs ":"%string ++ deps) with (58 :: deps). now rewrite <- !app_assoc. }
  rewrite advance_app by apply be32_nlen. cbn [ok_or bind].
  rewrite split_once_app; [reflexivity| |reflexivity]. eapply Forall_impl; [|exact Hnc]. intros c Hc. now apply N.eqb_neq.
Qed.
Print Assumptions C35_found.

(** Any other name leads nowhere. *)
Theorem C35_missing : forall m base data t name, index_file data t ->
  (forall vs, ~ has t name vs) -> find_path m base data name = Ok None.
Proof.
  intros m base data t name Hi Hn.
  destruct (walk_root m data t name Hi) as (reader & Er & [(us & o & rest & w & Hu & _)|[_ [E|(w & rest & E & Hf)]]]).
  - exfalso. eapply Hn; eauto.
  - unfold find_path. rewrite Er. cbn [ok_or bind]. rewrite E. reflexivity.
  - unfold find_path. rewrite Er. cbn [ok_or bind]. rewrite E. cbn [bind]. rewrite Hf. reflexivity.
Qed.
Print Assumptions C35_missing.

(** Arbitrary files are safe to search where arithmetic wraps around, and every
    search ends. *)
Theorem C35_total : forall m base data name,
  total m (find_path m base data name) /\ safe (depmod_validate data).
Proof.
  intros m base data name.
  assert (Hbe : forall r, safe (read_be32 r)).
  { intros r. unfold read_be32. apply safe_bind; [apply safe_read_slice|]. intros [d r'] _. auto. }
  assert (Hok : forall A (r : res A) k, safe r -> safe (ok_or k r)) by (intros A [x|[]| |] k H; auto; split; discriminate).
  assert (Hwalk : forall fuel reader name, (length name < fuel)%nat -> total m (depmod_walk fuel m data reader name)).
  { induction fuel as [|fuel IH]; intros reader n Hf; [lia|]. cbn [depmod_walk].
    apply total_bind; [apply safe_total, Hok, Hbe|]. intros [w r] _.
    destruct (_ <? _); [split; discriminate|].
    set (pre := if has_flag w index_node_prefix then _ else _).
    assert (Hpre : safe pre /\ forall n' r', pre = Ok (Some (n', r')) -> (length n' <= length n)%nat).
    { unfold pre. destruct (has_flag w index_node_prefix).
      - split.
        + apply safe_bind; [apply Hok, safe_read_cstr|]. intros [p r'] _. destruct (strip_prefix p n); split; discriminate.
        + intros n' r' H. ib H x E. destruct x as [p r2]. destruct (strip_prefix p n) as [n2|] eqn:Es; [|discriminate].
          injection H as <- _. apply strip_prefix_some in Es. subst n. rewrite app_length. lia.
      - split; [split; discriminate|]. intros n' r' H. injection H as <- _. lia. }
    destruct Hpre as [Hs Hl]. apply total_bind; [now apply safe_total|]. intros [[n' r']|] Ep; [|split; discriminate].
    specialize (Hl n' r' Ep).
    destruct (has_flag w index_node_childs); [|destruct n'; split; discriminate].
    apply total_bind; [apply safe_total, Hok; unfold read_u8, read_le; apply safe_bind; [apply safe_read_slice|]; intros [d r2] _; auto|].
    intros [first r2] _.
    apply total_bind; [apply safe_total, Hok; unfold read_u8, read_le; apply safe_bind; [apply safe_read_slice|]; intros [d r3] _; auto|].
    intros [last_ r3] _. destruct n' as [|c n'].
    - apply total_bind; [apply total_usub|]. intros d _. apply total_bind; [apply total_uadd|]. intros d2 _.
      apply total_bind; [apply safe_total, Hok, safe_advance|]. intros r4 _. split; discriminate.
    - destruct (_ || _); [split; discriminate|].
      apply total_bind; [apply safe_total, Hok, safe_advance|]. intros r4 _. apply IH. cbn [length] in Hl. lia. }
  split.
  - unfold find_path. apply total_bind; [apply safe_total, Hok, safe_advance|]. intros r _.
    apply total_bind; [apply Hwalk; lia|]. intros [[w r2]|] _; [|split; discriminate].
    destruct (negb _); [split; discriminate|]. apply total_bind; [apply safe_total, Hok, Hbe|]. intros [c r3] _.
    destruct (c =? 0); [split; discriminate|]. apply total_bind; [apply safe_total, Hok, safe_advance|]. intros r4 _.
    destruct (split_once _ r4) as [[p r5]|]; cbn [of_option bind]; split; discriminate.
  - unfold depmod_validate. apply safe_bind; [apply Hok, Hbe|]. intros [mg r] _. destruct (negb _); [split; discriminate|].
    apply safe_bind; [apply Hok, Hbe|]. intros [v r2] _. destruct (negb _); split; discriminate.
Qed.
Print Assumptions C35_total.

(** An index of two modules, one's name a prefix of the other's; a further name
    leads into an empty slot. *)
Definition ex_v (s : string) : N * list N := (0, bs s).
Definition ex_leaf : trie := Trie (bs "c") 0 [] [ex_v "/x/abc.ko:"].
Definition ex_trie : trie := Trie [] 97 [Some (Trie [] 98 [Some ex_leaf] [ex_v "k/a.ko:k/abc.ko"]); None; None] [].
Definition ex_leaf_bytes : list N := node_bytes (bs "c") 0 [] [ex_v "/x/abc.ko:"].
Definition ex_mid_bytes : list N := node_bytes [] 98 [12 + 2 ^ 30 + 2 ^ 31] [ex_v "k/a.ko:k/abc.ko"].
Definition ex_root_bytes : list N := node_bytes [] 97 [12 + nlen ex_leaf_bytes + 2 ^ 29 + 2 ^ 30; 0; 0] [].
Definition ex_index : list N :=
  be32 0xb007f457 ++ be32 0x00020001 ++ be32 (12 + nlen ex_leaf_bytes + nlen ex_mid_bytes + 2 ^ 29) ++
  ex_leaf_bytes ++ ex_mid_bytes ++ ex_root_bytes.
Ltac stored_at o sl rs :=
  match goal with |- stored _ _ ?t => let t := eval hnf in t in match t with Trie ?p ?f ?cs ?vs =>
    apply (Stored _ o p f cs vs sl rs); [reflexivity|vm_compute; discriminate|reflexivity|
      repeat (constructor; [discriminate|]); constructor|intros _; vm_compute; discriminate|reflexivity|vm_compute; reflexivity|]
  end end.
Lemma ex_index_file : index_file ex_index ex_trie.
Proof.
  assert (Hl : stored ex_index (12 + 2 ^ 30 + 2 ^ 31) ex_leaf).
  { stored_at 12 (@nil N) (ex_mid_bytes ++ ex_root_bytes). constructor. }
  assert (Hm : stored ex_index (12 + nlen ex_leaf_bytes + 2 ^ 29 + 2 ^ 30) (Trie [] 98 [Some ex_leaf] [ex_v "k/a.ko:k/abc.ko"])).
  { stored_at (12 + nlen ex_leaf_bytes) [12 + 2 ^ 30 + 2 ^ 31] ex_root_bytes.
    constructor; [|constructor]. constructor; [discriminate|reflexivity|exact Hl]. }
  eexists _, _. split; [|split; [reflexivity|]]; [reflexivity|].
  stored_at (12 + nlen ex_leaf_bytes + nlen ex_mid_bytes) [12 + nlen ex_leaf_bytes + 2 ^ 29 + 2 ^ 30; 0; 0] (@nil N).
  constructor; [constructor; [discriminate|reflexivity|exact Hm]|].
  constructor; [constructor|constructor; constructor].
Qed.
Example C35_example :
  index_file ex_index ex_trie /\
  has ex_trie (bs "abc") [ex_v "/x/abc.ko:"] /\ has ex_trie (bs "a") [ex_v "k/a.ko:k/abc.ko"] /\
  find_path Checked (bs "/lib") ex_index (bs "abc") = Ok (Some (bs "/x/abc.ko")) /\
  find_path Checked (bs "/lib") ex_index (bs "a") = Ok (Some (bs "/lib/k/a.ko")) /\
  find_path Checked (bs "/lib/") ex_index (bs "a") = Ok (Some (bs "/lib/k/a.ko")) /\
  find_path Checked (bs "/lib") ex_index (bs "ab") = Ok None /\
  find_path Checked (bs "/lib") ex_index (bs "b") = Ok None /\
  find_path Checked (bs "/lib") ex_index (bs "") = Ok None.
Proof.
  split; [exact ex_index_file|].
  split.
  { refine (HasChild [] 97 _ _ 0 _ (bs "bc") _ _ _); [reflexivity|].
    refine (HasChild [] 98 _ _ 0 _ (bs "c") _ _ _); [reflexivity|]. constructor. discriminate. }
  split.
  { refine (HasChild [] 97 _ _ 0 _ [] _ _ _); [reflexivity|]. constructor. discriminate. }
  repeat split; vm_compute; reflexivity.
Qed.

(** A node with a child for every byte is in the format, but one such, where
    the name ends, makes the search fail: the size of the table is computed in
    one byte. With overflow checks it panics, without it looks for the values
    in the table. *)
Definition ex_wide : list N :=
  be32 0xb007f457 ++ be32 0x00020001 ++ be32 (12 + 2 ^ 29 + 2 ^ 30) ++
  node_bytes [] 0 (repeat 0 256) [ex_v "k.ko:"].
Theorem C35_wide_refuted : exists data rest,
  data = be32 0xb007f457 ++ be32 0x00020001 ++ be32 (ref_word 12 [] (repeat None 256) [ex_v "k.ko:"]) ++ rest /\
  ndrop 12 data = node_bytes [] 0 (repeat 0 256) [ex_v "k.ko:"] /\
  find_path Checked [] data [] = Panic /\ find_path Wrapping [] data [] = Ok None.
Proof.
  exists ex_wide, (node_bytes [] 0 (repeat 0 256) [ex_v "k.ko:"]). split; [vm_compute; reflexivity|].
  split; [vm_compute; reflexivity|]. split; vm_compute; reflexivity.
Qed.
(** So does a table that ends before it begins. *)
Theorem C35_panic_refuted : exists data name, find_path Checked [] data name = Panic.
Proof.
  exists (be32 0xb007f457 ++ be32 0x00020001 ++ be32 (12 + 2 ^ 29 + 2 ^ 31) ++ bs "dm" ++ [0; 98; 97]), (bs "dm").
  vm_compute. reflexivity.
Qed.
