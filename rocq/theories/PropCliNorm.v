(** * C74, continued: normalization, symbols of files, build IDs, arguments *)

From Verif Require Import Base Num Maps ModMap FileCache Sym Inspect Depmod Symbolizer Normalize
  Inspector Host HostSpec HostNorm HostNormSpec Cli CliSpec CliProofs Lists.
From Verif Require PropHost PropHostNorm.
From Verif Require Import Nom.
From Coq Require Import String Permutation Sorted.
Local Close Scope string_scope.
Local Open Scope N_scope.
Local Notation length := List.length.
Local Notation concat := List.concat.

(** ** Build IDs *)
Lemma hex_byte_ok : forall b, b < 256 -> exists c d, hex_byte b = [c; d] /\ hex_text b [c; d] /\ lower c /\ lower d.
Proof.
  intros b Hb. unfold hex_byte. pose proof (fmt_hex_length b 2 ltac:(lia) Hb) as Hl. destruct (fmt_hex_ok b) as (H1 & H2 & _).
  pose proof (zeros_hex b (fmt_hex b) (2 - length (fmt_hex b)) H1) as G1.
  pose proof (zeros_lower (fmt_hex b) (2 - length (fmt_hex b)) H2) as G2.
  pose proof (zero_pad_length 2 (fmt_hex b)) as G3. unfold zero_pad in *.
  destruct (repeat 48 (2 - length (fmt_hex b)) ++ fmt_hex b) as [|c [|d [|e l]]]; cbn [length] in G3; try lia.
  exists c, d. inversion G2 as [|? ? ? G4]; inversion G4; subst. auto.
Qed.
Lemma build_id_bytes_ok : forall b, is_bytes b -> hex_bytes b (format_build_id_bytes b).
Proof.
  intros b H. induction H as [|c b Hc H IH]; [constructor|]. unfold format_build_id_bytes. cbn [flat_map].
  destruct (hex_byte_ok c Hc) as (x & y & -> & G1 & G2 & G3). cbn [app]. now constructor.
Qed.
Lemma hex_bytes_fun : forall b b' t, hex_bytes b t -> hex_bytes b' t -> b = b'.
Proof.
  intros b b' t H. revert b'. induction H as [|x c d l t Hx _ _ H IH]; intros b' H'; inversion H'; subst; auto.
  f_equal; auto. eapply hex_fun; eauto.
Qed.
Lemma hex_bytes_lower : forall b t, hex_bytes b t -> Forall lower t.
Proof. intros b t H. induction H; auto. Qed.
(** The build ID, or that there is none, can be told from what is printed. *)
Theorem C74_build_id : forall id, (forall b, id = Some b -> is_bytes b) ->
  exists t, cli_build_id (Ok id) = Ok (t ++ [10]) /\
    match id with Some b => hex_bytes b t | None => t = bs "N/A"%string end.
Proof.
  intros [b|] H; (eexists; split; [reflexivity|]); [|reflexivity]. apply build_id_bytes_ok. auto.
Qed.
Theorem C74_build_id_unambiguous : forall b b' t, hex_bytes b t ->
  t <> bs "N/A"%string /\ length t = (2 * length b)%nat /\ (hex_bytes b' t -> b = b').
Proof.
  intros b b' t H. split; [|split].
  - intros ->. apply hex_bytes_lower in H. change (Forall lower [78; 47; 65]) in H. apply Forall_inv in H. unfold lower in H. lia.
  - clear b'. induction H; auto. cbn [length]. lia.
  - eauto using hex_bytes_fun.
Qed.

(** ** Normalization *)
Definition meta_bytes (mt : umeta sym) : Prop := match mt with UElf _ (Some b) => is_bytes b | _ => True end.
Lemma norm_line_ok : forall a y mt, meta_bytes mt ->
  (exists s, mt = USym s /\ norm_line a y mt = Panic) \/
  exists x l, nanswer_of y mt x /\ nline a x l /\ norm_line a y mt = Ok (l ++ [10]).
Proof.
  intros a y mt Hb. destruct mt as [p|p id|s|why]; cbn [norm_line].
  - right. exists (NFile p y None). eexists. split; [constructor|]. split.
    + apply nl_file; [apply hex_16_ok|apply hex_0x_ok|constructor].
    + rewrite app_nil_r, <- !app_assoc. reflexivity.
  - right. exists (NFile p y id). eexists. split; [constructor|]. split.
    + apply nl_file; [apply hex_16_ok|apply hex_0x_ok|]. instantiate (1 := format_build_id id).
      destruct id as [b|]; [|constructor]. apply (bi_some b). now apply build_id_bytes_ok.
    + rewrite <- !app_assoc. reflexivity.
  - left. eauto.
  - right. exists NNowhere. eexists. split; [constructor|]. split; [apply nl_nowhere, hex_16_ok|].
    rewrite <- !app_assoc. reflexivity.
Qed.
Definition told (out : uoutput sym) (n : nat) (y : N) (mt : umeta sym) : Prop :=
  exists i, nth_error (uo_outputs out) n = Some (y, i) /\ nth_error (uo_meta out) i = Some mt.
Lemma norm_lines_ok : forall meta addrs outputs, Forall meta_bytes meta ->
  (forall n a, nth_error addrs n = Some a -> exists y i mt, nth_error outputs n = Some (y, i) /\ nth_error meta i = Some mt) ->
  (exists xs lines, Forall2 (fun '(a, x) l => nline a x l) (combine addrs xs) lines /\ length xs = length addrs /\
     norm_lines addrs outputs meta = Ok (text lines) /\
     forall n x, nth_error xs n = Some x -> exists y i mt, nth_error outputs n = Some (y, i) /\ nth_error meta i = Some mt /\ nanswer_of y mt x) \/
  (norm_lines addrs outputs meta = Panic /\
   exists n a y i s, nth_error addrs n = Some a /\ nth_error outputs n = Some (y, i) /\ nth_error meta i = Some (USym s)).
Proof.
  intros meta. induction addrs as [|a addrs IH]; intros outputs Hm H.
  - left. exists [], []. repeat split; auto; [constructor|]. intros [|n] x E; discriminate.
  - destruct (H 0%nat a eq_refl) as (y & i & mt & E1 & E2). destruct outputs as [|[y' i'] outputs]; [discriminate|]. injection E1 as -> ->.
    cbn [norm_lines]. rewrite E2. cbn [unwrap bind].
    assert (Hb : meta_bytes mt) by (rewrite Forall_forall in Hm; apply Hm; eapply nth_error_In; eauto).
    destruct (norm_line_ok a y mt Hb) as [(s & -> & ->)|(x & l & G1 & G2 & ->)].
    + right. split; [reflexivity|]. exists 0%nat, a, y, i, s. auto.
    + cbn [bind]. destruct (IH outputs Hm) as [(xs & lines & F1 & F2 & F3 & F4)|(F1 & n & a' & y' & i' & s & F2 & F3 & F4)].
      * intros n b Eb. exact (H (S n) b Eb).
      * left. exists (x :: xs), (l :: lines). rewrite F3. cbn [bind combine length]. repeat split; auto.
        intros [|n] x' Ex; [|exact (F4 n x' Ex)]. injection Ex as <-. exists y, i, mt. auto.
      * right. rewrite F1. split; [reflexivity|]. exists (S n), a', y', i', s. auto.
Qed.
(** A line per address, in order, with the file, the offset in it and its build
    ID as reported by the library, unless a symbol is reported: then the tool
    is aborted. *)
Section Normalize.
  Context (x : Elf.ext) (m : mode) (pick : N -> N -> N) (rest : world (N * list N) Elf.parser) (h : host).
  Hypothesis Hwf : wf_host h.
  Theorem C74_normalize : forall p vs nb mf addrs out, process h p vs ->
    host_normalize x m pick rest h p (NOpts false mf false (negb nb)) false addrs = Ok out ->
    Forall meta_bytes (uo_meta out) ->
    (exists xs lines, Forall2 (fun '(a, x) l => nline a x l) (combine addrs xs) lines /\ length xs = length addrs /\
       cli_normalize x m pick rest h p nb mf addrs = Ok (text lines) /\
       forall n x, nth_error xs n = Some x -> exists y mt, told out n y mt /\ nanswer_of y mt x) \/
    (cli_normalize x m pick rest h p nb mf addrs = Panic /\ exists n a y s, nth_error addrs n = Some a /\ told out n y (USym s)).
  Proof.
    intros p vs nb mf addrs out Hp E Hb. unfold cli_normalize. rewrite E. cbn [bind].
    destruct (norm_lines_ok (uo_meta out) addrs (uo_outputs out) Hb) as [(xs & lines & F1 & F2 & F3 & F4)|(F1 & n & a' & y' & i' & s & F2 & F3 & F4)].
    - intros n a En. destruct (PropHostNorm.attribution x m pick rest h Hwf p vs _ _ addrs out n a Hp E En) as (y & i & mt & H1 & H2 & _). eauto.
    - left. exists xs, lines. repeat split; auto. intros n ans En. destruct (F4 n ans En) as (y & i & mt & G1 & G2 & G3). exists y, mt. split; auto. exists i. auto.
    - right. split; auto. exists n, a', y', s. split; auto. exists i'. auto.
  Qed.
End Normalize.
(** What is printed says it all. *)
Theorem C74_normalize_unambiguous : forall xs ys lines lines', Forall (fun p => nclean (snd p)) xs -> Forall (fun p => nclean (snd p)) ys ->
  Forall2 (fun '(a, x) l => nline a x l) xs lines -> Forall2 (fun '(a, x) l => nline a x l) ys lines' ->
  text lines = text lines' -> xs = ys.
Proof.
  assert (L : forall xs lines, Forall (fun p => nclean (snd p)) xs -> Forall2 (fun '(a, x) l => nline a x l) xs lines -> Forall one_line lines).
  { intros xs lines Hc H. induction H as [|[a x] l xs lines Hl H IH]; constructor; apply Forall_cons_iff in Hc; destruct Hc as [Hx Hc]; auto.
    cbn [snd] in Hx. assert (A : forall s, Forall alnum s -> one_line s) by (intros s; apply alnum_not; unfold alnum; lia).
    destruct Hl as [ta T|ta p off tof id ti T1 T2 T3]; unfold one_line in *;
      repeat match goal with |- Forall _ (_ ++ _) => apply Forall_app; split end; eauto using shown_addr_chars, shown_hex_chars;
      try (repeat constructor; discriminate).
    - apply Hx.
    - destruct T3 as [|b t T3]; [constructor|]. repeat match goal with |- Forall _ (_ ++ _) => apply Forall_app; split end; try (repeat constructor; discriminate).
      apply hex_bytes_lower in T3. eapply Forall_impl; [|exact T3]. unfold lower. intros; lia. }
  intros xs ys lines lines' Hx Hy H1 H2 E. apply text_inj in E; [|exact (L _ _ Hx H1)|exact (L _ _ Hy H2)]. subst lines'. clear L.
  revert ys Hy H2. induction H1 as [|[a x] l xs lines Hl H IH]; intros ys Hy H2; inversion H2 as [|[b y] l' ys' lines' Hl' H2']; subst; auto.
  apply Forall_cons_iff in Hx, Hy. destruct Hx as [Cx Hx], Hy as [Cy Hy]. f_equal; [|now apply IH]. clear - Cx Cy Hl Hl'. cbn [snd] in *.
  assert (G : forall a x l, nline a x l -> exists ta r, shown_addr a ta /\ l = ta ++ 58 :: r /\
    match x with
    | NNowhere => r = bs " <unknown>"%string
    | NFile p off id => exists tof ti, shown_hex off tof /\ build_id_text id ti /\ r = bs " file offset "%string ++ tof ++ 32 :: 105 :: 110 :: 32 :: p ++ ti
    end).
  { clear. intros a x l [ta T|ta p off tof id ti T1 T2 T3]; exists ta; eexists; (split; [assumption|split; [reflexivity|]]); [reflexivity|].
    exists tof, ti. auto. }
  destruct (G _ _ _ Hl) as (ta & r & T1 & E1 & D1). destruct (G _ _ _ Hl') as (tb & r' & T2 & E2 & D2). rewrite E1 in E2. clear G Hl Hl' E1.
  destruct (split_char 58 ta tb (58 :: r) (58 :: r')) as [<- E]; auto; try (right; eauto);
    try (eapply alnum_not; [|eapply shown_addr_chars; eauto]; unfold alnum; lia).
  injection E as <-. f_equal; [eapply shown_addr_fun; eauto|].
  destruct x as [|p off id], y as [|p' off' id']; auto.
  - exfalso. destruct D2 as (? & ? & _ & _ & E). rewrite D1 in E. discriminate.
  - exfalso. destruct D1 as (? & ? & _ & _ & E). rewrite D2 in E. discriminate.
  - destruct D1 as (tof & ti & N1 & N2 & F1), D2 as (tof' & ti' & N1' & N2' & F2). rewrite F1 in F2. apply app_inv_head in F2.
    destruct (split_char 32 tof tof' (32 :: 105 :: 110 :: 32 :: p ++ ti) (32 :: 105 :: 110 :: 32 :: p' ++ ti')) as [<- E]; auto; try (right; eauto);
      try (eapply alnum_not; [|eapply shown_hex_chars; eauto]; unfold alnum; lia).
    injection E as E. rewrite (shown_hex_fun _ _ _ N1 N1'). destruct Cx as [_ Cx], Cy as [_ Cy].
    inversion N2 as [Ei Et|i t Ht Ei Et]; inversion N2' as [Ei' Et'|i' t' Ht' Ei' Et']; subst.
    + rewrite !app_nil_r in E. now subst.
    + exfalso. rewrite app_nil_r in E. eapply Cx. exact E.
    + exfalso. rewrite app_nil_r in E. eapply Cy. symmetry. exact E.
    + apply (split_pair 32 40) in E; auto; [|discriminate]. destruct E as [-> E]. injection E as E. apply app_inv_tail in E. subst.
      now rewrite (hex_bytes_fun _ _ _ Ht Ht').
Qed.
(** The vDSO: any program calling, say, clock_gettime has addresses in it. The
    tool prints nothing about other addresses following it, either. *)
Theorem C74_normalize_refuted : exists h p vs a b t, wf_host h /\ process h p vs /\
  cli_normalize ElfExample.no_ext Checked (fun _ _ => 0) PropHost.ex_rest h p false false [b] = Ok t /\
  cli_normalize ElfExample.no_ext Checked (fun _ _ => 0) PropHost.ex_rest h p false false [a; b] = Panic.
Proof.
  exists PropHostNorm.nx_host, (Pid 7), PropHost.ex_vs, (7340032 + 178), (4194304 + 178). eexists.
  split; [exact PropHostNorm.nx_wf|]. split; [exact (proj1 PropHost.ex_process)|]. split; vm_compute; reflexivity.
Qed.

(** ** Symbols of a file *)
Lemma chars_count : forall s, char_count s (chars s).
Proof.
  unfold chars. induction s as [|b s IH]; [constructor|]. cbn [filter]. unfold starts_char at 1.
  destruct (N.leb_spec 128 b), (N.ltb_spec b 192); cbn [andb negb length]; constructor; auto; lia.
Qed.
Lemma chars_app : forall a b, chars (a ++ b) = (chars a + chars b)%nat.
Proof. intros a b. unfold chars. now rewrite filter_app, app_length. Qed.
Lemma chars_le : forall s, (chars s <= length s)%nat.
Proof. intros s. unfold chars. induction s as [|b s IH]; cbn [filter length]; [lia|]. destruct (starts_char b); cbn [length]; lia. Qed.
Lemma chars_spaces : forall n, chars (repeat 32 n) = n.
Proof. unfold chars. induction n as [|n IH]; auto. cbn [repeat filter starts_char]. change (starts_char 32) with true. cbn [length]. now rewrite IH. Qed.
Lemma spaces_comm : forall n, repeat 32 n ++ [32] = 32 :: repeat 32 n.
Proof. induction n as [|n IH]; auto. cbn [repeat app]. now rewrite IH. Qed.
Lemma spaces_move : forall n r, repeat 32 n ++ [32] ++ r = [32] ++ repeat 32 n ++ r.
Proof. intros n r. rewrite app_assoc, spaces_comm. reflexivity. Qed.
Lemma name_width_le : forall l s, In s l -> (length (si_name s) < name_width l)%nat.
Proof.
  intros l s H. assert (G : (length (si_name s) <= fold_right Nat.max 0%nat (map (fun s => length (si_name s)) l))%nat).
  { induction l as [|x l IH]; [destruct H|]. cbn [map fold_right]. destruct H as [->|H]; [lia|]. specialize (IH H). lia. }
  unfold name_width. destruct l; [destruct H|]. lia.
Qed.
Lemma size_ok : forall o, size_text o (match o with Some n => fmt_dec n | None => bs "N/A"%string end).
Proof. intros [n|]; constructor. apply fmt_dec_ok. Qed.
Lemma sym_info_line_ok : forall w s, (length (si_name s) < w)%nat ->
  exists pre, info_line s pre (sym_info_line w s) /\ char_count pre (S w).
Proof.
  intros w s Hw. pose proof (chars_le (si_name s)) as Hc.
  set (k := (w - chars (si_name s ++ [58%N]))%nat).
  set (st := match si_size s with Some n => fmt_dec n | None => bs "N/A"%string end).
  set (j := (11 - chars (bs "(size="%string ++ st ++ [41%N]))%nat).
  exists (si_name s ++ [58; 32] ++ repeat 32 k). split.
  - replace (sym_info_line w s) with (si_name s ++ [58; 32] ++ repeat 32 k ++ hex_16 (si_addr s) ++ bs " (size="%string ++ st ++ [41; 32] ++ repeat 32 j ++ type_name (si_type s)).
    { apply inf; [apply hex_16_ok|apply size_ok]. }
    unfold sym_info_line, left_pad. fold st. fold k. fold j.
    replace (type_text (si_type s)) with ([32] ++ type_name (si_type s)) by (destruct (si_type s); reflexivity).
    change [58; 32] with ([58] ++ [32]). change (bs " (size="%string) with ([32] ++ bs "(size="%string). change [41; 32] with ([41] ++ [32]).
    rewrite <- !app_assoc, !spaces_move. reflexivity.
  - replace (S w) with (chars (si_name s ++ [58; 32] ++ repeat 32 k)); [apply chars_count|].
    subst k. rewrite !chars_app, chars_spaces. change (chars [58; 32]) with 2%nat. change (chars [58]) with 1%nat. lia.
Qed.
Lemma print_sym_infos_ok : forall l, exists lines col, Forall2 (fun s t => exists pre, info_line s pre t /\ char_count pre col) l lines /\
  print_sym_infos l = text lines.
Proof.
  intros l. unfold print_sym_infos. exists (map (sym_info_line (name_width l)) l), (S (name_width l)). split.
  - assert (H : Forall (fun s => length (si_name s) < name_width l)%nat l) by (apply Forall_forall; intros; now apply name_width_le).
    revert H. generalize (name_width l) as w. intros w H. induction H as [|s l' Hs H IH]; constructor; auto. now apply sym_info_line_ok.
  - unfold text. rewrite flat_map_concat_map, (flat_map_concat_map _ (map _ l)), map_map. reflexivity.
Qed.
Lemma by_addr_sorted_from : forall l, sorted_from l (isort by_addr l).
Proof.
  intros l. split; [apply isort_perm|]. split.
  - pose proof (isort_sorted by_addr) as H. unfold sorted, by_addr in H.
    assert (S : StronglySorted (fun a b => (si_addr a <=? si_addr b) = true) (isort (fun a b => si_addr a <=? si_addr b) l)).
    { apply H; intros; rewrite !N.leb_le in *; lia. }
    clear H. unfold by_addr. induction S as [|a l' S IH F]; constructor; auto. eapply Forall_impl; [|exact F]. intros b. now rewrite N.leb_le.
  - intros a. apply isort_stable. intros x y Hx Hy. apply N.eqb_eq in Hx, Hy. unfold by_addr. rewrite Hx, Hy. apply N.leb_refl.
Qed.
Definition shown_infos (l : list sym_info) (t : list N) : Prop := exists lines col,
  Forall2 (fun s l => exists pre, info_line s pre l /\ char_count pre col) l lines /\ t = text lines.
(** A line per symbol found, those of the first name first, addresses below each
    other *)
Theorem C74_lookup : forall File Parser (w : world File Parser) src names t, cli_lookup w src names = Ok t ->
  exists result ls, fst (i_lookup w src names i_new) = Ok result /\ Forall2 sorted_from result ls /\ shown_infos (concat ls) t.
Proof.
  intros File Parser w src names t E. unfold cli_lookup in E. destruct (fst (i_lookup w src names i_new)) as [result|k| |]; try discriminate.
  injection E as <-. exists result, (map (isort by_addr) result). split; auto. split.
  - induction result; constructor; auto. apply by_addr_sorted_from.
  - rewrite <- flat_map_concat_map. destruct (print_sym_infos_ok (flat_map (isort by_addr) result)) as (lines & col & H1 & H2).
    exists lines, col. auto.
Qed.
Theorem C74_dump : forall File Parser (w : world File Parser) src t, cli_dump w src = Ok t ->
  exists l l' s, i_for_each w src (fun _ => true) i_new = (l, Ok tt, s) /\ sorted_from l l' /\ shown_infos l' t.
Proof.
  intros File Parser w src t E. unfold cli_dump in E. destruct (i_for_each w src (fun _ => true) i_new) as [[l r] s].
  destruct r as [[]|k| |]; try discriminate. injection E as <-. exists l, (isort by_addr l), s. split; auto. split; [apply by_addr_sorted_from|].
  destruct (print_sym_infos_ok (isort by_addr l)) as (lines & col & H1 & H2). exists lines, col. auto.
Qed.
(** Names, addresses, sizes and types can be told from it. *)
Definition brief_info (s : sym_info) : list N * N * option N * sym_type := (si_name s, si_addr s, si_size s, si_type s).
Lemma spaces_split : forall n n' r r', (forall q, r <> 32 :: q) -> (forall q, r' <> 32 :: q) -> repeat 32 n ++ r = repeat 32 n' ++ r' -> r = r'.
Proof.
  induction n as [|n IH]; intros [|n'] r r' H H' E; cbn [repeat app] in E; auto.
  - exfalso. eapply H. exact E.
  - exfalso. eapply H'. symmetry. exact E.
  - injection E as E. eauto.
Qed.
Lemma size_chars : forall o t, size_text o t -> Forall (fun b => b <> 41) t.
Proof.
  intros o t [|n s H]; [repeat constructor; discriminate|]. eapply alnum_not; [|eapply shown_dec_chars; eauto]. unfold alnum. lia.
Qed.
Lemma size_fun : forall o o' t, size_text o t -> size_text o' t -> o = o'.
Proof.
  assert (A : forall n, ~ shown_dec n (bs "N/A"%string)).
  { intros n H. apply shown_dec_chars in H. change (Forall alnum [78; 47; 65]) in H. apply Forall_inv in H. unfold alnum in H. lia. }
  intros o o' t H H'. inversion H as [E|n s H1 E]; inversion H' as [E'|n' s' H1' E']; subst; auto.
  - exfalso. eapply A; eauto.
  - exfalso. eapply A; eauto.
  - f_equal. eapply shown_dec_fun; eauto.
Qed.
Theorem C74_infos_unambiguous : forall l l' t, Forall iclean l -> Forall iclean l' -> shown_infos l t -> shown_infos l' t ->
  map brief_info l = map brief_info l'.
Proof.
  intros l l' t C C' (ls & col & H & E) (ls' & col' & H' & E').
  assert (W : forall col l ls, Forall iclean l -> Forall2 (fun s l => exists pre, info_line s pre l /\ char_count pre col) l ls ->
    Forall2 (fun s l => exists pre, info_line s pre l) l ls /\ Forall one_line ls).
  { clear. intros col l ls C H. induction H as [|s t l ls (pre & Hl & _) H IH]; [repeat constructor|]. apply Forall_cons_iff in C. destruct C as [[Cs _] C].
    destruct (IH C) as [I1 I2]. split; constructor; eauto. clear - Hl Cs. destruct Hl as [k j ta ts T1 T2].
    assert (A : forall n, Forall (fun b => b <> 10) (repeat 32 n)) by (induction n; constructor; auto; discriminate).
    assert (S : Forall (fun b => b <> 10) ts).
    { destruct T2 as [|n s' H]; [repeat constructor; discriminate|]. eapply alnum_not; [|eapply shown_dec_chars; eauto]. unfold alnum. lia. }
    unfold one_line in *. repeat match goal with |- Forall _ (_ ++ _) => apply Forall_app; split end; auto; try (repeat constructor; discriminate).
    - eapply alnum_not; [|eapply shown_addr_chars; eauto]. unfold alnum. lia.
    - destruct (si_type s); repeat constructor; discriminate. }
  destruct (W _ _ _ C H) as [G O]. destruct (W _ _ _ C' H') as [G' O']. subst t. apply text_inj in E'; auto. subst ls'. clear W H H' O O'.
  revert l' C' G'. induction G as [|s t l ls [pre Hl] G IH]; intros l' C' G'; inversion G' as [|s' t' l2 ls2 [pre' Hl'] G2]; subst; auto.
  apply Forall_cons_iff in C, C'. destruct C as [[_ Cs] C], C' as [[_ Cs'] C']. cbn [map]. f_equal; [|now apply IH]. clear - Hl Hl' Cs Cs'.
  assert (P : forall s pre t, info_line s pre t -> exists k j ta ts, shown_addr (si_addr s) ta /\ size_text (si_size s) ts /\
    t = si_name s ++ 58 :: 32 :: repeat 32 k ++ ta ++ 32 :: bs "(size="%string ++ ts ++ 41 :: 32 :: repeat 32 j ++ type_name (si_type s)).
  { clear. intros s pre t [k j ta ts T1 T2]. exists k, j, ta, ts. auto. }
  destruct (P _ _ _ Hl) as (k & j & ta & ts & T1 & T2 & E1). destruct (P _ _ _ Hl') as (k' & j' & ta' & ts' & T1' & T2' & E2). rewrite E1 in E2.
  apply (split_pair 58 32) in E2; auto; [|discriminate]. destruct E2 as [En E2].
  assert (Hn : forall ta v r q, shown_addr v ta -> ta ++ r <> 32 :: q) by (intros ? ? ? ? []; discriminate).
  apply spaces_split in E2; eauto.
  destruct (split_char 32 ta ta' _ _ ltac:(eapply alnum_not; [|eapply shown_addr_chars; eauto]; unfold alnum; lia)
    ltac:(eapply alnum_not; [|eapply shown_addr_chars; eauto]; unfold alnum; lia) ltac:(right; eauto) ltac:(right; eauto) E2) as [Ea E3].
  injection E3 as E3.
  destruct (split_char 41 ts ts' _ _ ltac:(eapply size_chars; eauto) ltac:(eapply size_chars; eauto) ltac:(right; eauto) ltac:(right; eauto) E3) as [Es E4].
  injection E4 as E4. apply spaces_split in E4; [|destruct (si_type s); discriminate|destruct (si_type s'); discriminate].
  unfold brief_info. subst. rewrite En, (shown_addr_fun _ _ _ T1 T1'), (size_fun _ _ _ T2 T2').
  destruct (si_type s), (si_type s'); try discriminate; reflexivity.
Qed.

(** ** Arguments *)
Lemma trim_0x_other : forall c s, c <> 48 -> trim_0x (c :: s) = c :: s.
Proof. intros c s H. destruct c as [|p]; [reflexivity|]. do 6 (destruct p as [p|p|]; try reflexivity). congruence. Qed.
Lemma trim_0x_hex : forall v s, hex_text v s -> trim_0x s = s.
Proof.
  intros v s (ds & H & _). destruct H as [|c d s ds Hc H]; [reflexivity|]. destruct (N.eq_dec c 48) as [->|Hn]; [|now apply trim_0x_other].
  destruct H as [|c' d' s ds Hc' H]; [reflexivity|]. unfold hex_digit in Hc'. assert (Hx : c' <> 120) by lia.
  cbn [trim_0x]. destruct c' as [|p]; [reflexivity|]. do 7 (destruct p as [p|p|]; try reflexivity). congruence.
Qed.
(** Addresses are given in hexadecimal notation, with or without prefix; those
    printed can be used. *)
Theorem C74_addr : forall v s, hex_text v s -> v < 2 ^ 64 -> parse_addr s = Some v /\ parse_addr (str_0x ++ s) = Some v.
Proof.
  intros v s H Hv. unfold parse_addr. cbn [str_0x app trim_0x]. rewrite (trim_0x_hex v s H). split; now apply hex_ok.
Qed.
Theorem C74_addr_printed : forall v t, shown_addr v t \/ shown_hex v t -> v < 2 ^ 64 -> parse_addr t = Some v.
Proof. intros v t [[s H]|[s H]] Hv; now apply C74_addr. Qed.
(** Nothing else, besides a plus sign and prefixes in excess, is accepted. *)
Theorem C74_addr_only : forall s v, parse_addr s = Some v -> v < 2 ^ 64 /\ exists n t,
  (s = concat (repeat str_0x n) ++ t \/ s = concat (repeat str_0x n) ++ 43 :: t) /\ hex_text v t.
Proof.
  intros s v H. unfold parse_addr in H. split.
  - clear - H. unfold from_str_radix in H.
    assert (G : forall l a v, a < two64 -> digits_loop 16 two64 a l = Some v -> v < two64).
    { induction l as [|c l IH]; intros a w Ha E; cbn [digits_loop] in E; [now injection E as <-|].
      destruct (to_digit 16 c) as [d|]; [|discriminate]. destruct (N.ltb_spec (a * 16 + d) two64) as [Hl|]; [|discriminate]. now apply (IH (a * 16 + d)). }
    change (2 ^ 64) with two64.
    assert (Z : 0 < two64) by reflexivity.
    destruct (trim_0x s) as [|c l]; [discriminate|].
    destruct (N.eq_dec c 43) as [->|Hc]; [destruct l; [discriminate|]; now apply (G _ 0) in H|].
    apply (G (c :: l) 0); auto. rewrite <- H. destruct c as [|p]; [reflexivity|]. do 6 (destruct p as [p|p|]; try reflexivity). congruence.
  - assert (T : exists n, s = concat (repeat str_0x n) ++ trim_0x s).
    { clear. remember (length s) as k eqn:Ek. assert (Hk : (length s <= k)%nat) by lia. clear Ek. revert s Hk.
      induction k as [|k IH]; intros s Hk; [destruct s; [exists 0%nat; reflexivity|simpl in Hk; lia]|].
      assert (D : (exists t, s = 48 :: 120 :: t) \/ trim_0x s = s).
      { destruct s as [|c s]; [now right|]. destruct (N.eq_dec c 48) as [->|Hc]; [|right; now apply trim_0x_other].
        destruct s as [|c s]; [now right|]. destruct (N.eq_dec c 120) as [->|Hc]; [left; eauto|right].
        cbn [trim_0x]. destruct c as [|p]; [reflexivity|]. do 7 (destruct p as [p|p|]; try reflexivity). congruence. }
      destruct D as [[t ->]| ->]; [|now exists 0%nat].
      cbn [length] in Hk. destruct (IH t ltac:(lia)) as [n En]. exists (S n). cbn [trim_0x repeat concat str_0x app]. now rewrite <- En. }
    destruct T as [n En]. exists n. apply (from_str_radix_some hex_digit) in H; [|exact to_digit_hex].
    destruct H as [H|(t & Et & H)].
    + exists (trim_0x s). auto.
    + exists t. rewrite Et in En. auto.
Qed.
Theorem C74_addr_refuted : exists s v, parse_addr s = Some v /\ ~ hex_text v s /\ forall t, hex_text v t -> s <> str_0x ++ t.
Proof.
  exists (bs "0x0x1f"%string), 31. split; [vm_compute; reflexivity|].
  assert (A : forall v t, hex_text v t -> Forall (fun c => c <> 120) t).
  { intros v t. apply number_chars. unfold hex_digit. intros; lia. }
  split.
  - intros H. apply A in H. change (Forall (fun c => c <> 120) [48; 120; 48; 120; 49; 102]) in H. apply Forall_inv_tail, Forall_inv in H. auto.
  - intros t H E. apply A in H. change ([48; 120; 48; 120; 49; 102] = [48; 120] ++ t) in E. injection E as <-. apply Forall_inv_tail, Forall_inv in H. auto.
Qed.
(** Process IDs: decimal, or hexadecimal with prefix; zero is the process
    itself *)
Theorem C74_pid : forall n, n < 2 ^ 32 -> forall s, dec_text n s \/ (exists t, s = str_0x ++ t /\ hex_text n t) ->
  exists p, parse_pid s = Some p /\ (n = 0 -> p = Slf) /\ (n <> 0 -> p = Pid n).
Proof.
  intros n Hn s H. exists (pid_from n). split; [|unfold pid_from; destruct (N.eqb_spec n 0); split; intros; congruence].
  unfold parse_pid. destruct H as [H|(t & -> & H)].
  - replace (match s with 48 :: 120 :: s0 => from_str_radix 16 (2 ^ 32) s0 | _ => from_str_radix 10 (2 ^ 32) s end) with (from_str_radix 10 (2 ^ 32) s).
    { now rewrite (dec_ok (2 ^ 32) n s H Hn). }
    destruct H as (ds & H & _). destruct H as [|c d s ds Hc H]; [reflexivity|].
    destruct H as [|c' d' s ds Hc' H].
    + destruct c as [|p]; [reflexivity|]. do 6 (destruct p as [p|p|]; try reflexivity).
    + unfold dec_digit in Hc'. assert (c' <> 120) by lia. clear - H0.
      destruct c as [|p]; [reflexivity|]. do 6 (destruct p as [p|p|]; try reflexivity).
      destruct c' as [|p]; [reflexivity|]. do 7 (destruct p as [p|p|]; try reflexivity). congruence.
  - cbn [str_0x app]. now rewrite (hex_ok (2 ^ 32) n t H Hn).
Qed.

(** ** Examples *)
Example C74_normalize_ex :
  cli_normalize ElfExample.no_ext Checked (fun _ _ => 0) PropHost.ex_rest PropHostNorm.nx_host (Pid 7) false false [4194304 + 178; 0; 6291456 + 71] =
  Ok (text [bs "0x000000004000b2: file offset 0xb2 in /p (build ID: deadbeef01)"%string; bs "0x00000000000000: <unknown>"%string;
            bs "0x00000000600047: file offset 0x47 in /x.apk"%string]).
Proof. vm_compute. reflexivity. Qed.
Example C74_infos_ex :
  print_sym_infos (isort by_addr [SymInfo (bs "factorial"%string) 18446744071562067968 (Some 120) TFunction None None;
                                  SymInfo (bs "x"%string) 4096 None TVariable None None;
                                  SymInfo [195; 169] 4096 (Some 8) TUndefined None None]) =
  text [bs "x:         0x00000000001000 (size=N/A)  [VAR]"%string; [195; 169] ++ bs ":         0x00000000001000 (size=8)    [UNDEF]"%string;
        bs "factorial: 0xffffffff80000000 (size=120)  [FUNC]"%string].
Proof. vm_compute. reflexivity. Qed.
Example C74_build_id_ex : cli_build_id (Ok (Some [222; 173; 0; 15])) = Ok (bs "dead000f"%string ++ [10]).
Proof. vm_compute. reflexivity. Qed.
Example C74_args_ex : parse_addr (bs "0x10"%string) = Some 16 /\ parse_addr (bs "10"%string) = Some 16 /\ parse_addr (bs "10000000000000000"%string) = None /\
  parse_pid (bs "10"%string) = Some (Pid 10) /\ parse_pid (bs "0x10"%string) = Some (Pid 16) /\ parse_pid (bs "0"%string) = Some Slf /\
  parse_pid (bs "self"%string) = None.
Proof. vm_compute. tauto. Qed.

Print Assumptions C74_build_id.
Print Assumptions C74_build_id_unambiguous.
Print Assumptions C74_normalize.
Print Assumptions C74_normalize_unambiguous.
Print Assumptions C74_normalize_refuted.
Print Assumptions C74_lookup.
Print Assumptions C74_dump.
Print Assumptions C74_infos_unambiguous.
Print Assumptions C74_addr.
Print Assumptions C74_addr_printed.
Print Assumptions C74_addr_only.
Print Assumptions C74_addr_refuted.
Print Assumptions C74_pid.
