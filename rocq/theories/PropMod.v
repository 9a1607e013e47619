(** * Kernel modules by address

    Claim C32 of /verif/properties.jsonl. *)

From Coq Require Import String Permutation.
From Verif Require Import Base Lists Util UtilProofs Text Nom Maps MapsProofs Num Sym ModMap ModSpec.
Local Close Scope string_scope.
Local Open Scope N_scope.

(** ** Lines *)
Lemma trim_hex : forall v a, hex_text v a -> trim_0x a = a.
Proof.
  intros v a (ds & H & _). destruct H as [|c d s ds Hc H]; [reflexivity|].
  assert (E : forall c s, Forall2 hex_digit s ds -> trim_0x (c :: s) = c :: s).
  { clear. intros c s H.
    destruct c as [|p]; [reflexivity|]. do 6 (destruct p as [p|p|]; try reflexivity).
    destruct s as [|c2 s]; [reflexivity|]. inversion H as [|? d ? ? Hd]; subst.
    destruct c2 as [|q]; [reflexivity|]. do 7 (destruct q as [q|q|]; try reflexivity).
    unfold hex_digit in Hd. exfalso. lia. }
  now apply E.
Qed.
Lemma trim_0x_hex : forall v a, hex_text v a -> trim_0x (bs "0x"%string ++ a) = a.
Proof. intros v a H. exact (trim_hex v a H). Qed.
Lemma rest_words : forall w rest, word w -> line_rest rest -> exists l, words (w ++ rest) = w :: l.
Proof.
  intros w rest Hw [->|(sp & r & -> & Hs & _)].
  - rewrite app_nil_r. exists []. now apply words_last.
  - exists (words r). now apply words_next.
Qed.
Lemma rest_valid : forall rest, line_rest rest -> utf8_valid rest = true.
Proof.
  intros rest [->|(sp & r & -> & Hs & Hr & _)]; [reflexivity|].
  apply utf8_app; [now apply spaces_valid|now apply text_valid].
Qed.
Lemma rest_lf : forall rest, line_rest rest -> Forall (fun b => b <> 10) rest.
Proof.
  intros rest [->|(sp & r & -> & Hs & _ & Hr)]; [constructor|]. apply Forall_app. split; auto. now apply spaces_lf.
Qed.
Lemma words_lf_end : forall l, words (l ++ [10]) = words l.
Proof.
  intros l. unfold words.
  assert (H : forall x xs, split is_ws l = x :: xs -> exists y ys, split is_ws (l ++ [10]) = y :: ys /\
    filter (fun w => negb (is_empty w)) (y :: ys) = filter (fun w => negb (is_empty w)) (x :: xs) /\ (y = x)).
  { induction l as [|b l IH]; intros x xs H; cbn [split app] in *.
    - injection H as <- <-. exists [], [[]]. auto.
    - destruct (split is_ws l) as [|x1 xs1] eqn:E; [now apply split_nonempty in E|].
      destruct (IH _ _ eq_refl) as (y & ys & E1 & E2 & ->). rewrite E1.
      destruct (is_ws b).
      + injection H as <- <-. exists [], (x1 :: ys). split; [reflexivity|]. split; [|reflexivity].
        cbn [filter is_empty negb] in *. exact E2.
      + injection H as <- <-. exists (b :: x1), ys. split; [reflexivity|]. split; [|reflexivity].
        cbn [filter is_empty negb] in *. destruct x1; cbn [is_empty negb] in E2; [now rewrite E2|].
        injection E2 as E2. now rewrite E2. }
  destruct (split is_ws l) as [|x xs] eqn:E; [now apply split_nonempty in E|].
  destruct (H _ _ eq_refl) as (y & ys & E1 & E2 & _). now rewrite E1.
Qed.
Lemma hex0x_word : forall v a, hex_text v a -> word (bs "0x"%string ++ a).
Proof.
  intros v a H. change (bs "0x"%string ++ a) with (48 :: 120 :: a). split; [discriminate|].
  do 2 (constructor; [unfold blank; lia|]). apply (hex_word v a H).
Qed.
Lemma parse_module_ok : forall k s, module_line k s ->
  parse_module (s ++ [10]) = if km_addr k =? 0 then None else Some k.
Proof.
  intros k s H. destruct H as [name addr size sz insts deps state a rest s1 s2 s3 s4 s5
    [Hn _] Hsz [Hi _] [Hd _] [Hst _] Ha Hr S1 S2 S3 S4 S5 Ba Bs].
  unfold parse_module. rewrite words_lf_end.
  rewrite words_next by auto. rewrite words_next by (auto; eapply dec_word; eauto). rewrite !words_next by auto.
  destruct (rest_words (bs "0x"%string ++ a) rest (hex0x_word addr a Ha) Hr) as [l ->].
  rewrite (trim_0x_hex addr a Ha), (hex_ok two64 addr a Ha Ba), (dec_ok two64 size sz Hsz Bs). reflexivity.
Qed.
Lemma module_line_lf : forall k s, module_line k s -> Forall (fun b => b <> 10) s.
Proof.
  intros k s H. destruct H as [name addr size sz insts deps state a rest s1 s2 s3 s4 s5
    [Hn _] Hsz [Hi _] [Hd _] [Hst _] Ha Hr S1 S2 S3 S4 S5 Ba Bs].
  repeat (apply Forall_app; split); auto using word_lf, spaces_lf, rest_lf.
  - apply word_lf. eapply dec_word; eauto.
  - change (bs "0x"%string) with [48; 120]. do 2 (constructor; [lia|]). constructor.
  - apply word_lf. eapply hex_word; eauto.
Qed.
Lemma dec_hex_text : forall v s, dec_text v s -> exists w, number hex_digit 10 w s.
Proof.
  intros v s (ds & H1 & H2 & H3). exists v, ds. split; [|auto].
  clear - H1. induction H1; constructor; auto. now apply dec_hex_digit.
Qed.
Lemma module_line_valid : forall k s, module_line k s -> utf8_valid (s ++ [10]) = true.
Proof.
  intros k s H. destruct H as [name addr size sz insts deps state a rest s1 s2 s3 s4 s5
    [_ Hn] Hsz [_ Hi] [_ Hd] [_ Hst] Ha Hr S1 S2 S3 S4 S5 Ba Bs].
  apply utf8_app; [|reflexivity].
  repeat (apply utf8_app); auto using spaces_valid, rest_valid; try now apply text_valid.
  - destruct (dec_hex_text size sz Hsz) as [w Hw]. apply utf8_ascii. eapply number_ascii; eauto.
  - apply utf8_ascii. eapply number_ascii; eauto.
Qed.

Definition shownb (k : kmod) : bool := negb (km_addr k =? 0).
Lemma shownb_iff : forall k, shownb k = true <-> shown k.
Proof. intros k. unfold shownb, shown. rewrite negb_true_iff, N.eqb_neq. tauto. Qed.
Lemma fold_modules : forall es ls acc, Forall2 module_line es ls ->
  fold_left (fun modules line => match parse_module line with Some k => modules ++ [k] | None => modules end)
    (map (fun l => l ++ [10]) ls) acc = acc ++ filter shownb es.
Proof.
  intros es ls acc H. revert acc. induction H as [|k s es ls Hk H IH]; intros acc; cbn [map fold_left filter].
  - now rewrite app_nil_r.
  - rewrite (parse_module_ok k s Hk), IH. unfold shownb at 2. destruct (km_addr k =? 0); cbn [negb]; auto.
    now rewrite <- app_assoc.
Qed.

(** Every module with an address is there, sorted by address. *)
Theorem C32_parse : forall sort es t, sorts_modules sort -> modules_text es t ->
  exists ms, modmap sort t = Ok ms /\ StronglySorted (fun a b => km_addr a <= km_addr b) ms /\
    Permutation (filter shownb es) ms.
Proof.
  intros sort es t Hsort H. destruct (text_of_lines _ _ _ _ H module_line_lf) as (ls & Hls & Hr).
  exists (sort (filter shownb es)). destruct (Hsort (filter shownb es)) as [Hp Hs].
  split; [|auto]. unfold modmap. rewrite Hr.
  rewrite fold_lines_ok.
  - cbn [bind]. f_equal. f_equal. now rewrite (fold_modules es ls [] Hls).
  - clear - Hls. induction Hls as [|k s es ls Hk H IH]; cbn [map]; constructor; auto. eapply module_line_valid; eauto.
Qed.
Print Assumptions C32_parse.

(** ** Lookups *)
Lemma km_ksorted : forall ms, StronglySorted (fun a b => km_addr a <= km_addr b) ms -> ksorted km_addr ms.
Proof. intros ms. apply StronglySorted_ksorted. Qed.

(** A module that is found has the address, however modules are laid out. *)
Theorem C32_sound : forall m sort es t ms addr name base, sorts_modules sort -> modules_text es t ->
  modmap sort t = Ok ms -> find_module m ms addr = Ok (inl (name, base)) ->
  exists k, In k es /\ shown k /\ in_module k addr /\ name = km_name k /\ base = km_addr k.
Proof.
  intros m sort es t ms addr name base Hsort Ht Hm H.
  destruct (C32_parse sort es t Hsort Ht) as (ms' & E & Hs & Hp). rewrite Hm in E. injection E as <-.
  unfold find_module in H. destruct (find_match_or_lower_bound_by_key ms addr km_addr) as [i|]; [|discriminate].
  destruct (nth_error ms i) as [k|] eqn:Ek; [|discriminate]. ib H e E.
  destruct (_ && _) eqn:Ec; [|discriminate]. injection H as <- <-.
  apply andb_true_iff in Ec. destruct Ec as [E1 E2]. apply N.leb_le in E1. apply N.ltb_lt in E2.
  apply nth_error_In, (Permutation_in k (Permutation_sym Hp)), filter_In in Ek. destruct Ek as [Hin Hsh].
  exists k. split; auto. split; [now apply shownb_iff|]. split; [|auto]. split; auto.
  unfold add64, uadd, wrap in E. destruct (_ <? _); [injection E as <-; auto|]. destruct m; [discriminate|].
  injection E as <-. pose proof (N.mod_le (km_addr k + km_size k) two64 ltac:(discriminate)). lia.
Qed.
Print Assumptions C32_sound.

(** Modules that do not overlap: the one with the address is found, and where
    there is none that is said. *)
Lemma in_shown_nth : forall es k, In k (filter shownb es) -> exists i, nth_error es i = Some k /\ shown k.
Proof.
  intros es k H. apply filter_In in H. destruct H as [H1 H2]. apply In_nth_error in H1. destruct H1 as [i Hi].
  exists i. split; auto. now apply shownb_iff.
Qed.
Theorem C32_found : forall m sort es t ms addr k, sorts_modules sort -> modules_text es t ->
  modmap sort t = Ok ms -> disjoint_modules es -> Forall module_ok es ->
  In k es -> shown k -> in_module k addr ->
  find_module m ms addr = Ok (inl (km_name k, km_addr k)).
Proof.
  intros m sort es t ms addr k Hsort Ht Hm Hd Hok Hin Hsh Hat.
  destruct (C32_parse sort es t Hsort Ht) as (ms' & E & Hs & Hp). rewrite Hm in E. injection E as <-.
  rewrite Forall_forall in Hok.
  assert (Hkm : In k ms) by (apply (Permutation_in k Hp), filter_In; split; auto; now apply shownb_iff).
  assert (Hback : forall y, In y ms -> In y es /\ shown y).
  { intros y Hy. apply (Permutation_in y (Permutation_sym Hp)), filter_In in Hy. destruct Hy as [H1 H2].
    split; auto. now apply shownb_iff. }
  assert (Huniq : forall y, In y ms -> km_addr y = km_addr k -> y = k).
  { intros y Hy Ey. apply Hback in Hy. destruct Hy as [Hy Hsy].
    destruct (In_nth_error _ _ Hy) as [i Hi]. destruct (In_nth_error _ _ Hin) as [j Hj].
    assert (i = j).
    { apply (Hd i j y k (km_addr k) Hi Hj Hsy Hsh); unfold in_module.
      - pose proof (proj1 (Hok y Hy)). lia.
      - pose proof (proj1 (Hok k Hin)). lia. }
    subst j. congruence. }
  assert (Hmax : forall y, In y ms -> km_addr y <= addr -> km_addr y <= km_addr k).
  { intros y Hy Hle. destruct (N.le_gt_cases (km_addr y) (km_addr k)) as [|Hgt]; auto.
    apply Hback in Hy. destruct Hy as [Hy Hsy].
    destruct (In_nth_error _ _ Hy) as [i Hi]. destruct (In_nth_error _ _ Hin) as [j Hj].
    unfold in_module in Hat.
    assert (i = j).
    { apply (Hd i j y k (km_addr y) Hi Hj Hsy Hsh); unfold in_module; [|lia].
      pose proof (proj1 (Hok y Hy)). lia. }
    subst j. assert (y = k) by congruence. subst y. lia. }
  assert (Hgo : forall i e, nth_error ms i = Some e -> e = k ->
    (match nth_error ms i with
     | Some k0 => let* end_ := add64 m (km_addr k0) (km_size k0) in
         if (km_addr k0 <=? addr) && (addr <? end_) then Ok (inl (km_name k0, km_addr k0))
         else Ok (inr (match ms with [] => MissingSyms | _ => UnknownAddr end))
     | None => Ok (inr (match ms with [] => MissingSyms | _ => UnknownAddr end))
     end) = Ok (inl (km_name k, km_addr k))).
  { intros i e He ->. rewrite He. unfold add64. rewrite uadd_small by (unfold two64; apply Hok; auto). cbn [bind].
    unfold in_module in Hat. destruct (N.leb_spec (km_addr k) addr); [|lia].
    destruct (N.ltb_spec addr (km_addr k + km_size k)); [reflexivity|lia]. }
  unfold find_module.
  destruct (flb_cases km_addr ms addr (km_ksorted ms Hs)) as [[E Hn]|[(i & e & E & He & Hx & _)|(i & e & E & He & Hx & Hm2 & _)]];
    rewrite E.
  - apply Hn in Hkm. unfold in_module in Hat. lia.
  - apply (Hgo i e He). apply Huniq; [eapply nth_error_In; eauto|].
    assert (Hin2 := nth_error_In _ _ He). apply Hmax in Hin2; [|lia]. unfold in_module in Hat. lia.
  - apply (Hgo i e He). assert (Hin2 := nth_error_In _ _ He). apply Huniq; auto.
    apply Hmax in Hin2; [|lia]. apply Hm2 in Hkm; [|unfold in_module in Hat; lia]. lia.
Qed.
Print Assumptions C32_found.

Theorem C32_none : forall m sort es t ms addr, sorts_modules sort -> modules_text es t ->
  modmap sort t = Ok ms -> Forall module_ok es ->
  (forall k, In k es -> shown k -> ~ in_module k addr) ->
  ((forall k, In k es -> ~ shown k) -> find_module m ms addr = Ok (inr MissingSyms)) /\
  ((exists k, In k es /\ shown k) -> find_module m ms addr = Ok (inr UnknownAddr)).
Proof.
  intros m sort es t ms addr Hsort Ht Hm Hok Hno.
  destruct (C32_parse sort es t Hsort Ht) as (ms' & E & Hs & Hp). rewrite Hm in E. injection E as <-.
  rewrite Forall_forall in Hok.
  assert (Hg : find_module m ms addr = Ok (inr (match ms with [] => MissingSyms | _ => UnknownAddr end))).
  { unfold find_module. destruct (find_match_or_lower_bound_by_key ms addr km_addr) as [i|]; [|reflexivity].
    destruct (nth_error ms i) as [k|] eqn:Ek; [|reflexivity].
    apply nth_error_In, (Permutation_in k (Permutation_sym Hp)), filter_In in Ek. destruct Ek as [Hin Hsh].
    apply shownb_iff in Hsh. unfold add64. rewrite uadd_small by (unfold two64; apply Hok; auto). cbn [bind].
    specialize (Hno k Hin Hsh). unfold in_module in Hno.
    destruct (N.leb_spec (km_addr k) addr); [|reflexivity].
    destruct (N.ltb_spec addr (km_addr k + km_size k)); [exfalso; auto|reflexivity]. }
  rewrite Hg. split.
  - intros Hz. destruct ms as [|k ms]; [reflexivity|].
    assert (Hk : In k (filter shownb es)) by (apply (Permutation_in k (Permutation_sym Hp)); now left).
    apply filter_In in Hk. destruct Hk as [H1 H2]. apply shownb_iff in H2. now apply Hz in H1.
  - intros (k & Hin & Hsh). destruct ms as [|k' ms]; [|reflexivity].
    assert (Hk : In k []) by (apply (Permutation_in k Hp), filter_In; split; auto; now apply shownb_iff).
    destruct Hk.
Qed.
Print Assumptions C32_none.

(** ** Examples *)
Lemma text_word_check : forall s, negb (is_empty s) && forallb (fun c => negb (is_ws c)) s = true ->
  utf8_valid s = true -> text_word s.
Proof. intros s H1 H2. split; [now apply word_check|now apply text_valid]. Qed.
Lemma rest_check : forall sp r, negb (is_empty sp) && forallb (fun c => (c =? 32) || (c =? 9)) sp = true ->
  utf8_valid r = true -> forallb (fun c => negb (c =? 10)) r = true -> line_rest (sp ++ r).
Proof.
  intros sp r H1 H2 H3. right. exists sp, r. split; [reflexivity|]. split; [now apply spaces_check|].
  split; [now apply text_valid|]. apply Forall_forall. intros c Hc. rewrite forallb_forall in H3.
  apply H3, negb_true_iff, N.eqb_neq in Hc. auto.
Qed.
Ltac check_mod :=
  match goal with
  | |- text_word _ => apply text_word_check; vm_compute; reflexivity
  | |- spaces _ => apply spaces_check; vm_compute; reflexivity
  | |- hex_text _ _ => apply hex_check; [discriminate|vm_compute; reflexivity]
  | |- dec_text _ _ => apply dec_check; [discriminate|vm_compute; reflexivity]
  | |- line_rest [] => now left
  | |- line_rest _ => apply rest_check; vm_compute; reflexivity
  | |- _ => vm_compute; reflexivity
  end.
Definition ex_m1 : list N := bs "cfg80211 782336 3 iwlmvm,mac80211,iwlwifi, Live 0xffffffffa0012000"%string.
Definition ex_m2 : list N := bs "autofs4 53248 8 - Live 0xffffffffa0201000 (E)"%string.
Definition ex_m3 : list N := bs "hidden 4096 8 - Live 0x0000000000000000"%string.
Definition ex_m4 : list N := bs "intel_pch_thermal 12288 0 - Live 0xffffffffa0000000"%string.
Definition ex_modules : list kmod :=
  [KMod (bs "cfg80211"%string) 0xffffffffa0012000 782336; KMod (bs "autofs4"%string) 0xffffffffa0201000 53248;
   KMod (bs "hidden"%string) 0 4096; KMod (bs "intel_pch_thermal"%string) 0xffffffffa0000000 12288].
Definition ex_modules_text : list N := ex_m1 ++ 10 :: ex_m2 ++ 10 :: ex_m3 ++ 10 :: ex_m4 ++ 10 :: [].
Ltac mod_line sz insts deps state a rest :=
  match goal with
  | |- module_line (KMod ?n _ _) ?s =>
      replace s with (n ++ [32] ++ sz ++ [32] ++ insts ++ [32] ++ deps ++ [32] ++ state ++ [32] ++
        (bs "0x"%string ++ a) ++ rest) by (vm_compute; reflexivity)
  end;
  apply (ModuleLine _ _ _ sz insts deps state a rest [32] [32] [32] [32] [32]); check_mod.
Lemma ex_modules_ok : modules_text ex_modules ex_modules_text.
Proof.
  unfold ex_modules, ex_modules_text.
  apply TextCons. { mod_line (bs "782336"%string) (bs "3"%string) (bs "iwlmvm,mac80211,iwlwifi,"%string) (bs "Live"%string)
    (bs "ffffffffa0012000"%string) (@nil N). }
  apply TextCons. { mod_line (bs "53248"%string) (bs "8"%string) (bs "-"%string) (bs "Live"%string)
    (bs "ffffffffa0201000"%string) ([32] ++ bs "(E)"%string). }
  apply TextCons. { mod_line (bs "4096"%string) (bs "8"%string) (bs "-"%string) (bs "Live"%string)
    (bs "0000000000000000"%string) (@nil N). }
  apply TextCons. { mod_line (bs "12288"%string) (bs "0"%string) (bs "-"%string) (bs "Live"%string)
    (bs "ffffffffa0000000"%string) (@nil N). }
  constructor.
Qed.
Lemma isort_sorts : sorts_modules (isort km_leb).
Proof.
  intros l. split; [apply isort_perm|].
  assert (Hs : sorted km_leb (isort km_leb l)).
  { apply isort_sorted; intros; unfold km_leb in *; rewrite ?N.leb_le in *; lia. }
  unfold sorted in Hs. induction Hs as [|x l' Hs IH HF]; constructor; auto.
  eapply Forall_impl; [|exact HF]. intros y Hy. now apply N.leb_le.
Qed.
Example C32_example :
  modules_text ex_modules ex_modules_text /\ disjoint_modules ex_modules /\ Forall module_ok ex_modules /\
  (exists ms, modmap (isort km_leb) ex_modules_text = Ok ms /\
   map (find_module Checked ms)
     [0xffffffffa0012000; 0xffffffffa00d0fff; 0xffffffffa00d1000; 0xffffffffa0201010; 0xffffffff9fffffff; 0] =
     [Ok (inl (bs "cfg80211"%string, 0xffffffffa0012000)); Ok (inl (bs "cfg80211"%string, 0xffffffffa0012000));
      Ok (inr UnknownAddr); Ok (inl (bs "autofs4"%string, 0xffffffffa0201000));
      Ok (inr UnknownAddr); Ok (inr UnknownAddr)]).
Proof.
  split; [exact ex_modules_ok|]. split; [|split; [|eexists; split; [vm_compute; reflexivity|vm_compute; reflexivity]]].
  - intros i j k l a Hi Hj Sk Sl Hk Hl. unfold ex_modules in Hi, Hj.
    destruct i as [|[|[|[|i]]]]; try (destruct i; discriminate); injection Hi as <-;
      (destruct j as [|[|[|[|j]]]]; try (destruct j; discriminate); injection Hj as <-); auto;
      exfalso; unfold in_module, shown in *; cbn [km_addr km_size] in *; lia.
  - repeat constructor; cbn [km_addr km_size]; lia.
Qed.

(** A module that reaches the end of the address space: looking up one of its
    addresses overflows, and where overflows wrap around it is not found. *)
Definition ex_top : list kmod := [KMod (bs "top"%string) 0xfffffffffffff000 4096].
Lemma ex_top_ok : modules_text ex_top (bs "top 4096 0 - Live 0xfffffffffffff000"%string ++ 10 :: []).
Proof.
  apply TextCons; [|constructor]. mod_line (bs "4096"%string) (bs "0"%string) (bs "-"%string) (bs "Live"%string)
    (bs "fffffffffffff000"%string) (@nil N).
Qed.
Theorem C32_overflow_refuted : exists sort es t ms k addr,
  sorts_modules sort /\ modules_text es t /\ modmap sort t = Ok ms /\ disjoint_modules es /\
  In k es /\ shown k /\ in_module k addr /\ km_addr k + km_size k = 2 ^ 64 /\
  find_module Checked ms addr = Panic /\ find_module Wrapping ms addr = Ok (inr UnknownAddr).
Proof.
  exists (isort km_leb), ex_top, (bs "top 4096 0 - Live 0xfffffffffffff000"%string ++ 10 :: []), ex_top,
    (KMod (bs "top"%string) 0xfffffffffffff000 4096), 0xfffffffffffff123.
  split; [exact isort_sorts|]. split; [exact ex_top_ok|]. split; [vm_compute; reflexivity|].
  split. { intros [|i] [|j] k l a Hi Hj; try (destruct i; discriminate); try (destruct j; discriminate). reflexivity. }
  split; [now left|]. split; [discriminate|]. split; [unfold in_module; cbn [km_addr km_size]; lia|].
  split; [reflexivity|]. split; vm_compute; reflexivity.
Qed.
Print Assumptions C32_overflow_refuted.

(** A module within another one hides what follows it. *)
Definition ex_nested : list kmod := [KMod (bs "outer"%string) 0x1000 0x3000; KMod (bs "inner"%string) 0x2000 0x100].
Theorem C32_nested_refuted : exists m sort es t ms k addr,
  sorts_modules sort /\ modules_text es t /\ modmap sort t = Ok ms /\ Forall module_ok es /\
  In k es /\ shown k /\ in_module k addr /\ find_module m ms addr = Ok (inr UnknownAddr).
Proof.
  exists Checked, (isort km_leb), ex_nested, (bs "outer 12288 0 - Live 0x1000"%string ++ 10 ::
    bs "inner 256 0 - Live 0x2000"%string ++ 10 :: []), ex_nested, (KMod (bs "outer"%string) 0x1000 0x3000), 0x3000.
  split; [exact isort_sorts|]. split.
  { apply TextCons. { mod_line (bs "12288"%string) (bs "0"%string) (bs "-"%string) (bs "Live"%string) (bs "1000"%string) (@nil N). }
    apply TextCons; [|constructor]. mod_line (bs "256"%string) (bs "0"%string) (bs "-"%string) (bs "Live"%string) (bs "2000"%string) (@nil N). }
  split; [vm_compute; reflexivity|]. split; [repeat constructor; cbn [km_addr km_size]; lia|].
  split; [now left|]. split; [discriminate|]. split; [unfold in_module; cbn [km_addr km_size]; lia|].
  vm_compute. reflexivity.
Qed.
Print Assumptions C32_nested_refuted.
