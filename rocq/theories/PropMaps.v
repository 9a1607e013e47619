(** * Properties of memory map parsing

    Claim C26 of /verif/properties.jsonl. *)

From Verif Require Import Base Util UtilProofs PropUtil Maps MapsProofs.
Local Open Scope N_scope.

(** ** The text the kernel prints

    fs/proc/task_mmu.c [show_map_vma]: start and end address, permissions,
    offset, device, inode and name, the name being padded with spaces to a
    fixed column.  Numbers are printed with any number of digits that is
    enough. *)
Definition digit_table : list N :=
  [48; 49; 50; 51; 52; 53; 54; 55; 56; 57; 97; 98; 99; 100; 101; 102]. (* 0-9a-f *)
Fixpoint text_of (base : N) (k : nat) (v : N) : list N :=
  match k with
  | O => []
  | S k' => text_of base k' (v / base) ++ [nth (N.to_nat (v mod base)) digit_table 0]
  end.
Definition hex_text := text_of 16.

Record printed := Printed {
  pr_start : N; pr_end : N; pr_r : bool; pr_w : bool; pr_x : bool; pr_shared : bool;
  pr_offset : N; pr_name : list N
}.
(** How it is laid out. *)
Record layout := Layout {
  ly_start_digits : nat; ly_end_digits : nat; ly_offset_digits : nat;
  ly_dev : list N; ly_inode : list N; ly_pad : nat
}.
Definition perm_text (p : printed) : list N :=
  [if pr_r p then 114 else 45; if pr_w p then 119 else 45; if pr_x p then 120 else 45;
   if pr_shared p then 115 else 112].
Definition kernel_line (p : printed) (l : layout) : list N :=
  hex_text (ly_start_digits l) (pr_start p) ++ [45] ++ hex_text (ly_end_digits l) (pr_end p) ++ [32] ++
  perm_text p ++ [32] ++
  hex_text (ly_offset_digits l) (pr_offset p) ++ [32] ++
  ly_dev l ++ [32] ++ ly_inode l ++ [32] ++ repeat 32 (ly_pad l) ++ pr_name p.

Definition white (b : N) : Prop := In b [32; 9; 10; 12; 13].
Definition fits (k : nat) (v : N) : Prop := (k <= 16)%nat /\ v < 16 ^ N.of_nat k.
Definition wf_layout (p : printed) (l : layout) : Prop :=
  fits (ly_start_digits l) (pr_start p) /\ fits (ly_end_digits l) (pr_end p) /\
  fits (ly_offset_digits l) (pr_offset p) /\
  Forall (fun b => ~ white b) (ly_dev l) /\ Forall (fun b => ~ white b) (ly_inode l).
(** Names neither start nor end with white space (but may have it inside). *)
Definition wf_name (name : list N) : Prop :=
  (forall b l, name = b :: l -> ~ white b) /\ (forall b l, name = l ++ [b] -> ~ white b).

(** ** What the entry has to be *)

(** [text] is [v] in the given base, lower case, without leading zeros. *)
Definition shortest_text (base : N) (text : list N) (v : N) : Prop :=
  exists k, text = text_of base k v /\ (1 <= k)%nat /\ v < base ^ N.of_nat k /\
    (k = 1%nat \/ base ^ (N.of_nat k - 1) <= v).
Definition str_deleted : list N := [32; 40; 100; 101; 108; 101; 116; 101; 100; 41].
Definition str_proc : list N := [47; 112; 114; 111; 99; 47].
Definition str_map_files : list N := [47; 109; 97; 112; 95; 102; 105; 108; 101; 115; 47].
(** /proc/<pid>/map_files/<start>-<end> *)
Definition is_map_file (pid s e : N) (f : list N) : Prop :=
  exists tp ts te, shortest_text 10 tp pid /\ shortest_text 16 ts s /\ shortest_text 16 te e /\
    f = str_proc ++ tp ++ str_map_files ++ ts ++ [45] ++ te.
Inductive denotes (pid s e : N) : list N -> option path_name -> Prop :=
| den_anonymous : denotes pid s e [] None
| den_live : forall path f, hd_error path = Some 47 -> (forall p, path <> p ++ str_deleted) ->
    is_map_file pid s e f -> denotes pid s e path (Some (PPath f path))
| den_deleted : forall path f, hd_error (path ++ str_deleted) = Some 47 -> is_map_file pid s e f ->
    denotes pid s e (path ++ str_deleted) (Some (PPath f path))
| den_component : forall name b l, name = b :: l -> b <> 47 ->
    denotes pid s e name (Some (PComponent name)).

Definition entry_of (p : printed) (pid : N) (en : maps_entry) : Prop :=
  me_start en = pr_start p /\ me_end en = pr_end p /\ me_offset en = pr_offset p /\
  me_perm en = (if pr_r p then 4 else 0) + (if pr_w p then 2 else 0) + (if pr_x p then 1 else 0) /\
  me_build_id en = None /\
  denotes pid (pr_start p) (pr_end p) (pr_name p) (me_path en).

(** ** Proofs *)

Lemma text_of_num_text : forall base k v, 2 <= base <= 16 -> text_of base k v = num_text base k v.
Proof.
  intros base k v Hb. revert v. induction k as [|k IH]; intros v; simpl; auto. rewrite IH. f_equal. f_equal.
  pose proof (N.mod_lt v base ltac:(lia)) as Hd.
  set (d := v mod base) in *. assert (Hd2 : d < 16) by lia. clearbody d.
  assert (Hi : In d [0;1;2;3;4;5;6;7;8;9;10;11;12;13;14;15]) by (simpl; lia).
  simpl in Hi. repeat (destruct Hi as [<-|Hi]; [reflexivity|]). destruct Hi.
Qed.
Lemma white_iff : forall b, white b <-> is_ws b = true.
Proof.
  intros b. unfold white, is_ws. simpl. rewrite !orb_true_iff, !N.eqb_eq. intuition congruence.
Qed.
Lemma not_white : forall b, ~ white b <-> is_ws b = false.
Proof. intros b. rewrite white_iff. destruct (is_ws b); intuition congruence. Qed.
Lemma Forall_not_white : forall l, Forall (fun b => ~ white b) l -> Forall (fun b => is_ws b = false) l.
Proof. intros l H. eapply Forall_impl; [|exact H]. intros b. apply not_white. Qed.

Lemma map_files_path_ok : forall pid s e, is_map_file pid s e (map_files_path pid s e).
Proof.
  intros pid s e. unfold is_map_file, map_files_path, fmt_dec, fmt_hex.
  assert (Hs : forall base v, 2 <= base <= 16 -> shortest_text base (fmt_num base v) v).
  { intros base v Hb. destruct (fmt_num_spec base v ltac:(lia)) as (k & E & Hk).
    exists k. rewrite text_of_num_text by lia. auto. }
  exists (fmt_num 10 pid), (fmt_num 16 s), (fmt_num 16 e).
  repeat split; try (apply Hs; lia).
Qed.
Lemma parse_path_name_ok : forall name pid s e, denotes pid s e name (parse_path_name name pid s e).
Proof.
  intros name pid s e. unfold parse_path_name. destruct name as [|b l]; [constructor|].
  destruct (N.eqb_spec b 47) as [->|Hb]; [|econstructor; eauto].
  destruct (strip_suffix deleted_suffix (47 :: l)) as [p|] eqn:E.
  - apply strip_suffix_some in E. rewrite E. apply den_deleted.
    + change str_deleted with deleted_suffix. now rewrite <- E.
    + apply map_files_path_ok.
  - apply den_live; auto.
    + now apply strip_suffix_none.
    + apply map_files_path_ok.
Qed.

Lemma parse_kernel_line_eq : forall m p l pid post, wf_layout p l -> wf_name (pr_name p) ->
  Forall (fun b => white b) post ->
  parse_maps_line m (kernel_line p l ++ post) pid =
  Ok (MapsEntry (pr_start p) (pr_end p)
        ((if pr_r p then 4 else 0) + (if pr_w p then 2 else 0) + (if pr_x p then 1 else 0)) (pr_offset p)
        (parse_path_name (pr_name p) pid (pr_start p) (pr_end p)) None).
Proof.
  intros m p l pid post (Hs & He & Ho & Hd & Hi) [Hn1 Hn2] Hpost.
  unfold kernel_line, parse_maps_line.
  assert (Hnw : forall k v, Forall (fun c => is_ws c = false) (hex_text k v)).
  { intros k v. unfold hex_text. rewrite text_of_num_text by lia. apply num_text_no; [lia|]. apply digit_not_ws. }
  assert (Hnd : forall k v, Forall (fun c => (c =? 45) = false) (hex_text k v)).
  { intros k v. unfold hex_text. rewrite text_of_num_text by lia. apply (num_text_no 16 (fun c => c =? 45)); [lia|].
    apply digit_not_dash. }
  assert (Hv : forall k v, fits k v -> from_radix_16 m (hex_text k v) = Ok v).
  { intros k v [Hk Hv]. unfold hex_text. rewrite text_of_num_text by lia. now apply from_radix_16_num_text. }
  set (tail1 := perm_text p ++ _).
  replace ((hex_text (ly_start_digits l) (pr_start p) ++ [45] ++
     hex_text (ly_end_digits l) (pr_end p) ++ [32] ++ tail1) ++ post)
    with ((hex_text (ly_start_digits l) (pr_start p) ++ 45 :: hex_text (ly_end_digits l) (pr_end p)) ++
          32 :: (tail1 ++ post))
    by (repeat rewrite <- app_assoc; simpl; repeat rewrite <- app_assoc; reflexivity).
  rewrite split_once_app; [|apply Forall_app; split; [auto|constructor; auto]|reflexivity].
  cbn [bind of_option]. rewrite split_once_app; [|auto|reflexivity]. cbn [bind of_option].
  rewrite !Hv by auto. cbn [bind of_option ok_or]. unfold tail1. clear tail1.
  set (tail2 := hex_text (ly_offset_digits l) _ ++ _).
  replace ((perm_text p ++ [32] ++ tail2) ++ post) with (perm_text p ++ 32 :: (tail2 ++ post))
    by (repeat rewrite <- app_assoc; reflexivity).
  rewrite split_once_app; [| |reflexivity].
  2:{ unfold perm_text. destruct (pr_r p), (pr_w p), (pr_x p), (pr_shared p); repeat constructor. }
  cbn [bind of_option]. unfold tail2. clear tail2. set (tail3 := ly_dev l ++ _).
  assert (Hp : parse_mode_str (perm_text p) =
               Some ((if pr_r p then 4 else 0) + (if pr_w p then 2 else 0) + (if pr_x p then 1 else 0))).
  { unfold perm_text. destruct (pr_r p), (pr_w p), (pr_x p); reflexivity. }
  rewrite Hp. cbn [bind of_option].
  replace ((hex_text (ly_offset_digits l) (pr_offset p) ++ [32] ++ tail3) ++ post)
    with (hex_text (ly_offset_digits l) (pr_offset p) ++ 32 :: (tail3 ++ post))
    by (repeat rewrite <- app_assoc; reflexivity).
  rewrite split_once_app; [|auto|reflexivity]. cbn [bind of_option]. rewrite Hv by auto.
  cbn [bind of_option ok_or]. unfold tail3. clear tail3. set (tail4 := ly_inode l ++ _).
  replace ((ly_dev l ++ [32] ++ tail4) ++ post) with (ly_dev l ++ 32 :: (tail4 ++ post))
    by (repeat rewrite <- app_assoc; reflexivity).
  rewrite split_once_app; [|now apply Forall_not_white|reflexivity]. cbn [bind of_option].
  unfold tail4. clear tail4. set (tail5 := repeat 32 _ ++ _).
  replace ((ly_inode l ++ [32] ++ tail5) ++ post) with (ly_inode l ++ 32 :: (tail5 ++ post))
    by (repeat rewrite <- app_assoc; reflexivity).
  rewrite split_once_app; [|now apply Forall_not_white|reflexivity].
  unfold tail5.
  rewrite <- app_assoc, trim_ascii_core.
  - reflexivity.
  - apply Forall_forall. intros b Hb. apply repeat_spec in Hb. now subst.
  - eapply Forall_impl; [|exact Hpost]. intros b. apply white_iff.
  - intros b l0 E. apply not_white. eauto.
  - intros b l0 E. apply not_white. eauto.
Qed.

Lemma parse_kernel_line : forall m p l pid post, wf_layout p l -> wf_name (pr_name p) ->
  Forall (fun b => white b) post ->
  exists en, parse_maps_line m (kernel_line p l ++ post) pid = Ok en /\ entry_of p pid en.
Proof.
  intros m p l pid post Hl Hn Hp. eexists. split; [now apply parse_kernel_line_eq|].
  unfold entry_of. cbn. repeat split; auto. apply parse_path_name_ok.
Qed.

(** ** C26 *)

(** Every line in the kernel's format is parsed into what it was printed
    from. *)
Theorem C26_kernel_line_partial : forall m p l pid, wf_layout p l -> wf_name (pr_name p) ->
  exists en, parse_maps_line m (kernel_line p l ++ [10]) pid = Ok en /\ entry_of p pid en.
Proof. intros. apply parse_kernel_line; auto. constructor; [unfold white; simpl; tauto|constructor]. Qed.

(** And so is a whole file of them; [wf_name] and the layout rule out line
    feeds at the borders, [no_lf] inside (the kernel prints those as "\012"). *)
Definition no_lf (l : list N) : Prop := Forall (fun b => b <> 10) l.
Definition kernel_file (ps : list (printed * layout)) : list N :=
  concat (map (fun '(p, l) => kernel_line p l ++ [10]) ps).
Lemma parse_kernel_file_eq : forall m ps pid,
  Forall (fun '(p, l) => wf_layout p l /\ wf_name (pr_name p) /\ no_lf (pr_name p)) ps ->
  parse_file m (kernel_file ps) pid = map (fun '(p, l) => parse_maps_line m (kernel_line p l ++ [10]) pid) ps.
Proof.
  intros m ps pid H. unfold parse_file, kernel_file.
  induction H as [|[p l] ps (Hl & Hn & Hlf) H IH]; simpl; auto.
  rewrite <- app_assoc. simpl. rewrite read_lines_app.
  - simpl. now rewrite IH.
  - destruct Hl as (_ & _ & _ & Hd & Hi).
    assert (Hx : forall k v, Forall (fun b => b <> 10) (hex_text k v)).
    { intros k v. unfold hex_text. rewrite text_of_num_text by lia.
      pose proof (num_text_no 16 is_ws k v ltac:(lia) digit_not_ws) as Hw.
      eapply Forall_impl; [|exact Hw]. intros b Hb ->. discriminate. }
    unfold kernel_line, perm_text. rewrite !Forall_app. repeat split; auto.
    + repeat constructor; discriminate.
    + repeat constructor; discriminate.
    + repeat constructor; [destruct (pr_r p)|destruct (pr_w p)|destruct (pr_x p)|destruct (pr_shared p)]; discriminate.
    + repeat constructor; discriminate.
    + repeat constructor; discriminate.
    + eapply Forall_impl; [|exact Hd]. intros b Hb ->. apply Hb. unfold white. simpl. tauto.
    + repeat constructor; discriminate.
    + eapply Forall_impl; [|exact Hi]. intros b Hb ->. apply Hb. unfold white. simpl. tauto.
    + repeat constructor; discriminate.
    + apply Forall_forall. intros b Hb. apply repeat_spec in Hb. subst. discriminate.
Qed.

Theorem C26_kernel_file_partial : forall m ps pid,
  Forall (fun '(p, l) => wf_layout p l /\ wf_name (pr_name p) /\ no_lf (pr_name p)) ps ->
  Forall2 (fun '(p, l) r => exists en, r = Ok en /\ entry_of p pid en)
    ps (parse_file m (kernel_file ps) pid).
Proof.
  intros m ps pid H. rewrite (parse_kernel_file_eq m ps pid H).
  induction H as [|[p l] ps (Hl & Hn & Hlf) H IH]; simpl; constructor; auto.
  destruct (parse_kernel_line m p l pid [10] Hl Hn) as (en & E & Hen); eauto.
  constructor; [unfold white; simpl; tauto|constructor].
Qed.

(** What is missing: names that end in white space. The file "/a " (valid on
    Linux) is reported as "/a". *)
Theorem C26_trailing_space_refuted : exists p l pid en,
  wf_layout p l /\ pr_name p = [47; 97; 32] /\
  parse_maps_line Checked (kernel_line p l ++ [10]) pid = Ok en /\
  exists f, me_path en = Some (PPath f [47; 97]) /\ ~ entry_of p pid en.
Proof.
  exists (Printed 4096 8192 true false true false 0 [47; 97; 32]),
         (Layout 8 8 8 [48; 48; 58; 48; 49] [49] 3), 1.
  eexists. split; [|split; [reflexivity|split; [vm_compute; reflexivity|]]].
  - split; [|split; [|split; [|split]]]; try (split; [simpl; lia|reflexivity]);
      repeat constructor; intros Hw; apply white_iff in Hw; discriminate.
  - eexists. split; [reflexivity|]. intros (_ & _ & _ & _ & _ & H). cbn [me_path pr_name] in H.
    inversion H.
    + assert (E : length path = length [47; 97] /\ length (path ++ str_deleted) = length [47; 97; 32]).
      { split; congruence. }
      rewrite app_length in E. simpl in E. lia.
Qed.
(** A live file that is itself called "... (deleted)" loses that suffix. *)
Theorem C26_deleted_name_refuted : exists p l pid en,
  wf_layout p l /\ wf_name (pr_name p) /\
  parse_maps_line Checked (kernel_line p l ++ [10]) pid = Ok en /\
  forall f, me_path en <> Some (PPath f (pr_name p)).
Proof.
  exists (Printed 4096 8192 true false true false 0 ([47; 97] ++ str_deleted)),
         (Layout 8 8 8 [48; 48; 58; 48; 49] [49] 3), 1.
  eexists. split; [|split; [|split; [vm_compute; reflexivity|]]].
  - split; [|split; [|split; [|split]]]; try (split; [simpl; lia|reflexivity]);
      repeat constructor; intros Hw; apply white_iff in Hw; discriminate.
  - split; intros b l E Hw; apply white_iff in Hw.
    + injection E as <- _. discriminate.
    + apply (f_equal (@rev N)) in E. rewrite rev_app_distr in E. cbn in E. injection E as <- _. discriminate.
  - intros f H. vm_compute in H. discriminate.
Qed.

(** Malformed lines: whatever is accepted has an address range, permissions
    and offset field, with nothing but hexadecimal digits where numbers are
    expected, and the entry has the numbers' values.  In all other cases an
    error is returned, never a panic, in a build without overflow checks. *)
Theorem C26_accepted : forall m line pid en, parse_maps_line m line pid = Ok en ->
  exists a b md o dev rest w1 w2 w3 w4 da db do_,
    line = (a ++ [45] ++ b) ++ [w1] ++ md ++ [w2] ++ o ++ [w3] ++ dev ++ [w4] ++ rest /\
    white w1 /\ white w2 /\ white w3 /\ white w4 /\
    Forall (fun c => ~ white c) (a ++ b ++ md ++ o ++ dev) /\
    digits_of a da /\ digits_of b db /\ digits_of o do_ /\ (3 <= length md)%nat /\
    ((length a <= 16)%nat -> me_start en = hex_number da) /\
    ((length b <= 16)%nat -> me_end en = hex_number db) /\
    ((length o <= 16)%nat -> me_offset en = hex_number do_).
Proof.
  intros m line pid en H. unfold parse_maps_line in H.
  ib H [addr r1] E1. apply of_option_ok_inv in E1.
  ib H [a b] E2. apply of_option_ok_inv in E2.
  ib H va E3. apply ok_or_ok_inv in E3. ib H vb E4. apply ok_or_ok_inv in E4.
  ib H [md r2] E5. apply of_option_ok_inv in E5. ib H pm E6. apply of_option_ok_inv in E6.
  ib H [o r3] E7. apply of_option_ok_inv in E7. ib H vo E8. apply ok_or_ok_inv in E8.
  ib H [dev r4] E9. apply of_option_ok_inv in E9. injection H as <-.
  apply split_once_some in E1. destruct E1 as (w1 & -> & Hw1 & F1).
  apply split_once_some in E2. destruct E2 as (dash & -> & Hdash & F2).
  apply split_once_some in E5. destruct E5 as (w2 & -> & Hw2 & F5).
  apply split_once_some in E7. destruct E7 as (w3 & -> & Hw3 & F7).
  apply split_once_some in E9. destruct E9 as (w4 & -> & Hw4 & F9).
  apply N.eqb_eq in Hdash. subst dash.
  assert (Hdig : forall t v, from_radix_16 m t = Ok v -> exists ds, digits_of t ds).
  { intros t v Hv.
    assert (Hall : forall c, In c t -> exists d, In (c, d) hex_digits).
    { intros c Hc. destruct (ascii_to_hexdigit c) as [d|] eqn:Ed.
      - exists d. now apply hex_digit_iff.
      - exfalso. revert Hv. apply (from_radix_16_not_ok _ _ _ c); auto. }
    clear Hv. induction t as [|c t IH]; [exists []; constructor|].
    destruct (Hall c (or_introl eq_refl)) as [d Hd]. destruct IH as [ds Hds]; [intros; apply Hall; now right|].
    exists (d :: ds). constructor; auto. }
  destruct (Hdig a va E3) as [da Hda]. destruct (Hdig b vb E4) as [db Hdb].
  destruct (Hdig o vo E8) as [do_ Hdo].
  exists a, b, md, o, dev, r4, w1, w2, w3, w4, da, db, do_.
  assert (Hval : forall t ds v, digits_of t ds -> from_radix_16 m t = Ok v ->
                   (length t <= 16)%nat -> v = hex_number ds).
  { intros t ds v Hds Hv Hl. rewrite (C05_hex_value m t ds Hds Hl) in Hv. congruence. }
  split; [repeat rewrite <- app_assoc; reflexivity|].
  split; [now apply white_iff|]. split; [now apply white_iff|].
  split; [now apply white_iff|]. split; [now apply white_iff|].
  split; [|split; [auto|split; [auto|split; [auto|split; [|split; [|split]]]]]].
  - apply Forall_app in F1. destruct F1 as [F1a F1b]. inversion F1b; subst.
    assert (Hnw : forall l, Forall (fun c => is_ws c = false) l -> Forall (fun c => ~ white c) l).
    { intros l Hl. eapply Forall_impl; [|exact Hl]. intros c. apply not_white. }
    rewrite !Forall_app. repeat split; auto.
  - destruct md as [|? [|? [|? ?]]]; simpl in E6; try discriminate. simpl. lia.
  - cbn. eauto.
  - cbn. eauto.
  - cbn. eauto.
Qed.
Theorem C26_never_panics : forall line pid, safe (parse_maps_line Wrapping line pid).
Proof.
  intros line pid. unfold parse_maps_line.
  assert (Hr : forall t acc, safe (from_radix_16_loop Wrapping acc t)).
  { induction t as [|c t IH]; intros acc; simpl; auto.
    apply safe_bind; [apply safe_of_option|]. intros d _.
    apply safe_bind; [apply safe_umul|]. intros n _.
    apply safe_bind; [apply safe_uadd|]. auto. }
  repeat (first [apply safe_bind; [first [apply safe_of_option|apply safe_ok_or; apply Hr]|intros [? ?] _]
                |apply safe_bind; [first [apply safe_of_option|apply safe_ok_or; apply Hr]|intros ? _]]); auto.
Qed.
(** Not all malformed lines are rejected: numbers may have no digits at all
    and permissions may be anything. *)
Theorem C26_malformed_refuted :
  parse_maps_line Checked [45; 32; 63; 63; 63; 32; 32; 120; 32] 1 (* "- ???  x " *)
  = Ok (MapsEntry 0 0 0 0 None None).
Proof. reflexivity. Qed.

(** "7f0a-8000 r-xp 01 08:01 42     /opt/a b.so (deleted)\n" *)
Example C26_example :
  exists en, parse_maps_line Checked
    [55;102;48;97;45;56;48;48;48;32;114;45;120;112;32;48;49;32;48;56;58;48;49;32;52;50;32;32;32;32;32;
     47;111;112;116;47;97;32;98;46;115;111;32;40;100;101;108;101;116;101;100;41;10] 77 = Ok en /\
  me_start en = 32522 /\ me_end en = 32768 /\ me_perm en = 5 /\ me_offset en = 1 /\
  me_path en = Some (PPath [47;112;114;111;99;47;55;55;47;109;97;112;95;102;105;108;101;115;47;
                            55;102;48;97;45;56;48;48;48] [47;111;112;116;47;97;32;98;46;115;111]).
Proof. eexists. split; [vm_compute; reflexivity|]. repeat split. Qed.

Print Assumptions C26_kernel_line_partial.
Print Assumptions C26_kernel_file_partial.
Print Assumptions C26_trailing_space_refuted.
Print Assumptions C26_deleted_name_refuted.
Print Assumptions C26_accepted.
Print Assumptions C26_never_panics.
Print Assumptions C26_malformed_refuted.
