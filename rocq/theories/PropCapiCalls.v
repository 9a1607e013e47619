(** * C68: errors and results of the C API *)

From Coq Require Import ZArith String.
From Verif Require Import Base Util UtilProofs Bytes Text Inspect Sym Symbolizer Normalize CapiIn CapiSpec CapiProofs PropCapiIn CapiCalls CapiCallsSpec.
Local Open Scope N_scope.
Local Notation length := List.length.

(** ** Codes *)
Lemma code_from : forall k, k <> ENone -> blaze_err_from k = Ok (code_of k).
Proof. intros [] H; try reflexivity; congruence. Qed.

(** Errors are told apart by their numbers, all of which are negative, and
    every error has its own text. *)
Theorem C68_codes : forall k k', k <> ENone -> k' <> ENone ->
  blaze_err_from k = Ok (code_of k) /\ (-32768 <= code_of k < 0)%Z /\
  (code_of k = code_of k' -> k = k') /\
  blaze_err_str (code_of k) = kind_text k /\ (kind_text k = kind_text k' -> k = k') /\ blaze_err_str (code_of k) <> blaze_err_str 0.
Proof.
  intros k k' Hk Hk'. split; [now apply code_from|].
  assert (A : forall k, k <> ENone -> (-32768 <= code_of k < 0)%Z /\ blaze_err_str (code_of k) = kind_text k /\ blaze_err_str (code_of k) <> blaze_err_str 0).
  { intros [] H; try congruence; (split; [cbn; lia|]); (split; [reflexivity|discriminate]). }
  destruct (A k Hk) as (A1 & A2 & A3). split; auto.
  split. { destruct k, k'; try congruence; discriminate. }
  split; auto. split; auto. destruct k, k'; try congruence; discriminate.
Qed.
Print Assumptions C68_codes.

(** ** Reading arguments *)
Lemma read_has : forall l g p, has g p l -> read_at g p (length l) = Ok l.
Proof.
  induction l as [|b l IH]; intros g p H; [reflexivity|]. cbn [length read_at]. assert (E := H 0%nat b eq_refl).
  rewrite N.add_0_r in E. rewrite E. rewrite IH; [reflexivity|]. intros i x Hx. specialize (H (S i) x Hx).
  rewrite <- H. f_equal. lia.
Qed.
Lemma read_num : forall g p n v, num g p n v -> exists l, read_at g p n = Ok l /\ le_val l = v /\ length l = n.
Proof. intros g p n v (l & L & _ & V & H). subst n. exists l. rewrite (read_has l g p H). auto. Qed.
Lemma read_app : forall n m g p, read_at g p (n + m) = let* a := read_at g p n in let* b := read_at g (p + N.of_nat n) m in Ok (a ++ b)%list.
Proof.
  induction n as [|n IH]; intros m g p.
  - cbn [plus read_at bind]. rewrite N.add_0_r. now destruct (read_at g p m).
  - cbn [plus read_at]. destruct (g p); [|reflexivity]. rewrite IH. replace (p + 1 + N.of_nat n) with (p + N.of_nat (S n)) by lia.
    destruct (read_at g (p + 1) n); cbn [bind]; try reflexivity. now destruct (read_at g (p + N.of_nat (S n)) m).
Qed.
Lemma array_tail : forall g p v l, p <> 0 -> array g p (v :: l) -> num g p 8 v /\ array g (p + 8) l.
Proof.
  intros g p v l Hp (_ & H). split.
  - specialize (H 0%nat v eq_refl). now rewrite N.mul_0_r, N.add_0_r in H.
  - split; [lia|]. intros i x Hx. specialize (H (S i) x Hx). replace (p + 8 + 8 * N.of_nat i) with (p + 8 * N.of_nat (S i)) by lia. exact H.
Qed.
Lemma slow_array : forall l g p, p <> 0 -> array g p l -> copy_slow g p (length l) = Ok l.
Proof.
  induction l as [|v l IH]; intros g p Hp H; [reflexivity|]. destruct (array_tail g p v l Hp H) as (H1 & H2).
  destruct (read_num _ _ _ _ H1) as (b & E & V & _). cbn [length copy_slow]. rewrite E. cbn [bind]. rewrite IH by (auto; lia). cbn [bind]. now rewrite V.
Qed.
Lemma fast_array : forall l g p, p <> 0 -> array g p l -> exists b, read_at g p (8 * length l) = Ok b /\ cut_eights (length l) b = l.
Proof.
  induction l as [|v l IH]; intros g p Hp H; [exists []; auto|]. destruct (array_tail g p v l Hp H) as (H1 & H2).
  destruct (read_num _ _ _ _ H1) as (b & E & V & L). destruct (IH g (p + 8)) as (b' & E' & C'); [lia|auto|].
  exists (b ++ b')%list. cbn [length]. replace (8 * S (length l))%nat with (8 + 8 * length l)%nat by lia. rewrite read_app, E. cbn [bind].
  change (N.of_nat 8) with 8. rewrite E'. cbn [bind]. split; auto. cbn [cut_eights].
  rewrite firstn_app, skipn_app, L, Nat.sub_diag, firstn_all2, skipn_all2 by lia. cbn [firstn skipn app]. rewrite app_nil_r, V, C'. reflexivity.
Qed.
(** Arrays are read completely whatever their alignment. *)
Theorem C68_arrays : forall g p l, array g p l -> slice_from_user_array g p (length l) = Ok l.
Proof.
  intros g p l H. unfold slice_from_user_array, slice_from_aligned_user_array. destruct (N.eqb_spec p 0) as [->|Hp].
  - destruct H as (H & _). rewrite (H eq_refl). reflexivity.
  - destruct (N.eqb_spec (p mod 8) 0).
    + destruct (fast_array l g p Hp H) as (b & E & C). rewrite E. cbn [bind]. now rewrite C.
    + now apply slow_array.
Qed.
Print Assumptions C68_arrays.
Lemma read_string : forall s g p fuel, string g p s -> (length s < fuel)%nat -> read_cstr g fuel p = Ok s.
Proof.
  induction s as [|b s IH]; intros g p fuel (Hn & H) L; (destruct fuel as [|fuel]; [cbn in L; lia|]); cbn [read_cstr].
  - specialize (H 0%nat 0 eq_refl). rewrite N.add_0_r in H. now rewrite H.
  - assert (E := H 0%nat b eq_refl). rewrite N.add_0_r in E. rewrite E.
    destruct (N.eqb_spec b 0) as [->|Hb]; [exfalso; apply Hn; now left|].
    rewrite IH; [reflexivity| |cbn in L; lia]. split; [intros K; apply Hn; now right|].
    intros i x Hx. specialize (H (S i) x Hx). rewrite <- H. f_equal. lia.
Qed.
Lemma field_byte : forall o i, i < nlen o -> field i 1 o = byte o i.
Proof.
  intros o i H. change 1 with (N.of_nat 1). rewrite field_value by (change (N.of_nat 1) with 1; lia). cbn [value]. lia.
Qed.
Lemma struct_ok : forall t c m, In t input_tys -> struct_at c m ->
  (unknown_zero (it_effective t) c -> take_input false t m = Ok (Some (as_known (it_size t) c))) /\
  (~ unknown_zero (it_effective t) c -> take_input false t m = Ok None).
Proof.
  intros t c m Ht (Hc & rest & ->). destruct (C47_taken t c rest Ht Hc) as (A & B). split; auto.
  intros U. destruct (A U) as (o & E & L & F). rewrite E. f_equal. f_equal.
  apply nth_ext with (d := 0) (d' := 0).
  - unfold as_known. rewrite map_length, seq_length. unfold nlen in L. lia.
  - intros n Hn. unfold as_known. assert (Hs : (n < N.to_nat (it_size t))%nat) by (unfold nlen in L; lia).
    rewrite (nth_indep (map _ _) 0 (byte c (N.of_nat 0))) by (rewrite map_length, seq_length; exact Hs).
    rewrite (map_nth (fun i => byte c (N.of_nat i))), seq_nth by exact Hs. cbn [plus].
    specialize (F (N.of_nat n) 1%nat). cbn [value] in F. rewrite N.mul_0_r, N.add_0_r in F. rewrite <- F by lia.
    change (N.of_nat 1) with 1. rewrite field_byte by lia. unfold byte. now rewrite Nnat.Nat2N.id.
Qed.
Lemma names_ok : forall fuel g ps names, Forall2 (string g) ps names ->
  Forall (fun s => utf8_valid s = true /\ (length s < fuel)%nat) names ->
  map_res (fun p => let* s := read_cstr g fuel p in if utf8_valid s then Ok s else Panic) ps = Ok names.
Proof.
  intros fuel g ps names H. induction H as [|p s ps names H1 H2 IH]; intros F; [reflexivity|]. inversion F as [|s' l' [F1 F2] F3]; subst.
  cbn [map_res]. rewrite (read_string s g p fuel H1 F2). cbn [bind]. rewrite F1. cbn [bind]. rewrite IH by exact F3. reflexivity.
Qed.

(** ** Calls *)
Definition told (g : mem) (fuel : nat) (last : Z) (c : call) (v : verdict) : Prop := exec g fuel last c = Ok (code v, returned c v).
Ltac by_struct H t :=
  let c := fresh "c" in let Hc := fresh "Hc" in let U := fresh "U" in
  destruct H as (c & Hc & H); destruct (struct_ok t c _ ltac:(assumption || (cbn; tauto)) Hc) as (? & ?);
  destruct H as [(U & H)|(U & ->)];
  [match goal with K : unknown_zero _ _ -> _ |- _ => rewrite (K U) end; cbn [bind]
  |match goal with K : ~ unknown_zero _ _ -> _ |- _ => rewrite (K U) end; reflexivity].

(** Calls return what the library gave and the last error is [BLAZE_ERR_OK]; or
    they return [NULL] ([false], nothing) and the last error tells what kind
    of error it was. *)
Theorem C68_call : forall g fuel last c v, does g fuel c v -> exec g fuel last c = Ok (code v, returned c v).
Proof.
  intros g fuel last c v H.
  destruct c as [|t m|t m lib|t m p cnt lib room|m p cnt lib room|p cnt lib|m p cnt lib|p lib room|lib|already]; cbn [does] in H; cbn [exec].
  - subst v. reflexivity.
  - destruct H as (Ht & H). by_struct H t. subst v. reflexivity.
  - destruct H as (Ht & H). by_struct H t. destruct H as [(x & -> & ->)|(k & -> & Hk & ->)]; cbn [err_of bind]; [reflexivity|].
    rewrite code_from by exact Hk. reflexivity.
  - destruct H as (Ht & H). by_struct H t. destruct H as (addrs & A & -> & H). rewrite (C68_arrays g p addrs A). cbn [bind].
    destruct H as [(x & -> & ->)|(k & -> & Hk & ->)].
    + destruct x; [reflexivity|]. destruct room; reflexivity.
    + rewrite code_from by exact Hk. reflexivity.
  - by_struct H blaze_inspect_elf_src. destruct H as (ps & names & A & -> & S & F & H). rewrite (C68_arrays g p ps A). cbn [bind].
    rewrite (names_ok fuel g ps names S F). cbn [bind]. destruct H as [(x & -> & ->)|(k & -> & Hk & ->)].
    + destruct room; reflexivity.
    + rewrite code_from by exact Hk. reflexivity.
  - destruct H as (addrs & A & -> & H). unfold normalize_addrs. rewrite (C68_arrays g p addrs A). cbn [bind].
    destruct H as [(x & -> & ->)|(k & -> & Hk & ->)]; [reflexivity|]. rewrite code_from by exact Hk. reflexivity.
  - by_struct H blaze_normalize_opts. destruct H as (addrs & A & -> & H). unfold normalize_addrs. rewrite (C68_arrays g p addrs A). cbn [bind].
    destruct H as [(x & -> & ->)|(k & -> & Hk & ->)]; [reflexivity|]. rewrite code_from by exact Hk. reflexivity.
  - destruct H as (path & S & L & H). rewrite (read_string path g p fuel S L). cbn [bind].
    destruct H as [(x & -> & ->)|(k & -> & Hk & ->)]; cbn [err_of bind].
    + destruct x as [id|]; [|reflexivity]. destruct room; reflexivity.
    + rewrite code_from by exact Hk. reflexivity.
  - destruct H as [(x & -> & ->)|(k & -> & Hk & ->)]; cbn [err_of bind]; [reflexivity|]. rewrite code_from by exact Hk. reflexivity.
  - subst v. destruct already; reflexivity.
Qed.
Print Assumptions C68_call.

(** Whatever calls threads make in whatever order: [blaze_err_last] tells what
    came of the last call of the same thread, and every call gives what it
    would give on its own. *)
Lemma run_seen : forall past l rs, seen past l rs -> forall errs, (forall t, errs t = last_code t past) -> crun errs l = Ok rs.
Proof.
  intros past l rs H. induction H as [past|past t l rs H IH|past t g fuel c v l rs D H IH]; intros errs He; cbn [crun].
  - reflexivity.
  - rewrite (IH errs He). cbn [bind]. now rewrite He.
  - rewrite (C68_call g fuel (errs t) c v D). cbn [bind]. rewrite (IH (upd errs t (code v))); [reflexivity|].
    intros t'. unfold upd. cbn [last_code]. rewrite (N.eqb_sym t t'). destruct (t' =? t); auto.
Qed.
Theorem C68_threads : forall l rs, seen [] l rs -> crun no_errors l = Ok rs.
Proof. intros l rs H. apply (run_seen [] l rs H). reflexivity. Qed.
Print Assumptions C68_threads.

(** Functions that return pointers return [NULL] only if there was an error,
    or, without one, if there is no build ID or there were no addresses. *)
Theorem C68_null : forall g fuel c v, does g fuel c v -> returned c v = ANull ->
  (exists k, v = Fails k) \/
  (exists p room lib path, c = KBuildId p lib room /\ lib path = Ok None) \/
  (exists t m p cnt lib room o addrs, c = KSymbolize t m p cnt lib room /\ cnt = length addrs /\ lib o addrs = Ok []).
Proof.
  intros g fuel c [k|a] H R; [left; eauto|right]. cbn [returned] in R. subst a.
  assert (W : forall t m (go : list N -> Prop), with_struct t m (Does ANull) go -> exists o, go o).
  { intros t m go (c' & _ & [(_ & G)|(_ & G)]); [eauto|discriminate]. }
  destruct c as [|t m|t m lib|t m p cnt lib room|m p cnt lib room|p cnt lib|m p cnt lib|p lib room|lib|already]; cbn [does] in H; try discriminate.
  - destruct H as (_ & H). destruct (W _ _ _ H) as (o & G). discriminate.
  - destruct H as (_ & H). destruct (W _ _ _ H) as (o & [(x & _ & G)|(k & _ & _ & G)]); discriminate.
  - destruct H as (_ & H). destruct (W _ _ _ H) as (o & addrs & _ & L & [(x & E & G)|(k & _ & _ & G)]); [|discriminate].
    right. destruct x; [|destruct room; discriminate]. exists t, m, p, cnt, lib, room, o, addrs. auto.
  - destruct (W _ _ _ H) as (o & ps & names & _ & _ & _ & _ & [(x & _ & G)|(k & _ & _ & G)]); [destruct room|]; discriminate.
  - destruct H as (addrs & _ & _ & [(x & _ & G)|(k & _ & _ & G)]); discriminate.
  - destruct (W _ _ _ H) as (o & addrs & _ & _ & [(x & _ & G)|(k & _ & _ & G)]); discriminate.
  - destruct H as (path & _ & _ & [(x & E & G)|(k & _ & _ & G)]); [|discriminate]. left. destruct x; [destruct room; discriminate|]. exists p, room, lib, path. auto.
  - destruct H as [(x & _ & G)|(k & _ & _ & G)]; discriminate.
  - destruct already; discriminate.
Qed.
Print Assumptions C68_null.

(** Every call with proper arguments ends in one of these ways, if the library
    does not panic. *)
Theorem C68_total : forall g fuel c, ready g fuel c -> exists v, does g fuel c v.
Proof.
  intros g fuel c H.
  assert (P : forall A (r : res A) ok, answers r -> exists v, passes r ok v).
  { intros A r ok [(x & ->)|(k & -> & Hk)]; [exists (ok x); left; eauto|exists (Fails k); right; eauto]. }
  assert (W : forall t m (go : verdict -> list N -> Prop), In t input_tys /\ (exists s, struct_at s m) -> (forall o, exists v, go v o) -> exists v, with_struct t m v (go v)).
  { intros t m go (Ht & s & Hs) Hg. pose proof Hs as (Hd & rest & E). destruct (zeroed t s rest Ht Hd) as (b & _ & Hb). destruct b.
    - destruct (Hg (as_known (it_size t) s)) as (v & Gv). exists v, s. split; auto. left. split; auto. now apply Hb.
    - exists (Fails EInvalidInput), s. split; auto. right. split; auto. intros K. apply Hb in K. discriminate. }
  destruct c as [|t m|t m lib|t m p cnt lib room|m p cnt lib room|p cnt lib|m p cnt lib|p lib room|lib|already]; cbn [does ready] in *.
  - eauto.
  - destruct (W t m (fun v _ => v = Does (APtr GObject)) H) as (v & G); [eauto|]. exists v. split; [apply H|exact G].
  - destruct H as (Hs & Hl). destruct (W t m (fun v o => passes (lib o) (fun _ => Does ANone) v) Hs) as (v & G); [auto|]. exists v. split; [apply Hs|exact G].
  - destruct H as (Hs & (l & Ha & Hn) & Hl).
    destruct (W t m (fun v o => exists addrs, array g p addrs /\ cnt = length addrs /\
      passes (lib o addrs) (fun l => match l with [] => Does ANull | _ => or_no_memory room (Does (APtr (GSyms l))) end) v) Hs) as (v & G).
    + intros o. destruct (P _ (lib o l) (fun l => match l with [] => Does ANull | _ => or_no_memory room (Does (APtr (GSyms l))) end) (Hl o l)) as (v & Pv). eauto.
    + exists v. split; [apply Hs|exact G].
  - destruct H as (Hs & (ps & names & Ha & Hn & H1 & H2) & Hl).
    destruct (W blaze_inspect_elf_src m (fun v o => exists ps names, array g p ps /\ cnt = length ps /\ Forall2 (string g) ps names /\
      Forall (fun s => utf8_valid s = true /\ (length s < fuel)%nat) names /\
      passes (lib o names) (fun l => or_no_memory room (Does (APtr (GInfos l)))) v) Hs) as (v & G).
    + intros o. destruct (P _ (lib o names) (fun l => or_no_memory room (Does (APtr (GInfos l)))) (Hl o names)) as (v & Pv). exists v, ps, names. auto.
    + exists v. exact G.
  - destruct H as ((l & Ha & Hn) & Hl). destruct (P _ (lib l) (fun o => Does (APtr (GOutput o))) (Hl l)) as (v & Pv). eauto.
  - destruct H as (Hs & (l & Ha & Hn) & Hl).
    destruct (W blaze_normalize_opts m (fun v o => exists addrs, array g p addrs /\ cnt = length addrs /\ passes (lib o addrs) (fun x => Does (APtr (GOutput x))) v) Hs) as (v & G).
    + intros o. destruct (P _ (lib o l) (fun x => Does (APtr (GOutput x))) (Hl o l)) as (v & Pv). eauto.
    + exists v. exact G.
  - destruct H as ((path & H1 & H2) & Hl).
    destruct (P _ (lib path) (fun id => match id with Some id => or_no_memory room (Does (APtr (GBytes id))) | None => Does ANull end) (Hl path)) as (v & Pv). exists v, path. auto.
  - apply P. exact H.
  - eauto.
Qed.
Print Assumptions C68_total.

(** ** Examples *)

(** The structure of a program with today's header, symbolizing a process, and
    one with a member the library does not know *)
Definition demo_src : list N := le_bytes 8 32 ++ le_bytes 4 1 ++ [1; 0; 0; 0] ++ repeat 0 16.
Definition newer_src : list N := le_bytes 8 40 ++ le_bytes 4 1 ++ [1; 0; 0; 0] ++ repeat 0 16 ++ [0; 0; 0; 0; 0; 0; 0; 1].
Lemma demo_src_at : struct_at demo_src demo_src.
Proof.
  split; [|exists []; reflexivity]. split; [|split; [vm_compute; split; [discriminate|reflexivity]|reflexivity]].
  repeat constructor; reflexivity.
Qed.
Lemma newer_src_at : struct_at newer_src newer_src.
Proof.
  split; [|exists []; reflexivity]. split; [|split; [vm_compute; split; [discriminate|reflexivity]|reflexivity]].
  repeat constructor; reflexivity.
Qed.
Lemma demo_src_known : unknown_zero (it_effective blaze_symbolize_src_process) demo_src.
Proof.
  intros i Hi. change (it_effective blaze_symbolize_src_process) with 16 in Hi. unfold byte.
  destruct (Nat.ltb_spec (N.to_nat i) 32) as [L|L]; [|apply nth_overflow; exact L].
  assert (K : forallb (fun j => nth j demo_src 0 =? 0) (seq 16 16) = true) by (vm_compute; reflexivity).
  rewrite forallb_forall in K. apply N.eqb_eq, K, in_seq. lia.
Qed.
(** Two addresses at an address that is not aligned *)
Definition demo_mem : mem := fun a => if a <? 4099 then None else nth_error (le_bytes 8 4096 ++ le_bytes 8 1 ++ [109; 0; 255; 0]) (N.to_nat (a - 4099)).
Lemma demo_array : array demo_mem 4099 [4096; 1].
Proof.
  split; [discriminate|]. intros [|[|i]] v E; cbn in E; try (destruct i; discriminate); injection E as <-.
  - exists (le_bytes 8 4096). split; [reflexivity|]. split; [repeat constructor; reflexivity|]. split; [reflexivity|].
    intros i x Hx. do 8 (destruct i as [|i]; [exact Hx|]). destruct i; discriminate.
  - exists (le_bytes 8 1). split; [reflexivity|]. split; [repeat constructor; reflexivity|]. split; [reflexivity|].
    intros i x Hx. do 8 (destruct i as [|i]; [exact Hx|]). destruct i; discriminate.
Qed.
Definition demo_lib (o l : list N) : res (list symbolized) :=
  match l with 4096 :: _ => Ok (map (fun _ => Unknown Unmapped) l) | [] => Ok [] | _ => Err ENotFound end.
Definition demo_symbolize (src : list N) (p : N) (n : nat) : call := KSymbolize blaze_symbolize_src_process src p n demo_lib true.
Example demo_array_unaligned : slice_from_user_array demo_mem 4099 2 = Ok [4096; 1] /\ 4099 mod 8 <> 0.
Proof. split; [reflexivity|discriminate]. Qed.
Example demo_symbolize_does : does demo_mem 9 (demo_symbolize demo_src 4099 2) (Does (APtr (GSyms [Unknown Unmapped; Unknown Unmapped]))).
Proof.
  split; [cbn; tauto|]. exists demo_src. split; [apply demo_src_at|]. left. split; [apply demo_src_known|].
  exists [4096; 1]. split; [apply demo_array|]. split; [reflexivity|]. left. eexists. split; reflexivity.
Qed.
Example newer_rejected : does demo_mem 9 (demo_symbolize newer_src 4099 2) (Fails EInvalidInput).
Proof.
  split; [cbn; tauto|]. exists newer_src. split; [apply newer_src_at|]. right. split; [|reflexivity].
  intros K. assert (E := K 39). cbv in E. discriminate E. discriminate.
Qed.
(** Two threads: the error of one is not seen by the other, and goes away with
    the next call. *)
Example demo_threads :
  crun no_errors [(1, Call demo_mem 9 (demo_symbolize newer_src 4099 2)); (2, ErrLast); (2, Call demo_mem 9 (KTrace true));
                  (1, ErrLast); (2, ErrLast); (1, Call demo_mem 9 (demo_symbolize demo_src 4099 2)); (1, ErrLast); (2, ErrLast)] =
  Ok [Answer ANull; Code 0; Answer ANone; Code (-256); Code (-17); Answer (APtr (GSyms [Unknown Unmapped; Unknown Unmapped])); Code 0; Code (-17)].
Proof. vm_compute. reflexivity. Qed.

(** The comments say that [NULL] is returned on error; but without addresses
    it is returned on success as well. *)
Theorem C68_empty_refuted : exists g fuel c v, does g fuel c v /\ v = Does ANull /\
  exec g fuel 0 c = Ok (0%Z, ANull) /\ exists src lib, c = KSymbolize blaze_symbolize_src_process src 0 0 lib true.
Proof.
  exists demo_mem, 9%nat, (demo_symbolize demo_src 0 0), (Does ANull). split; [|split; [reflexivity|]; split; [reflexivity|]; eexists; eexists; reflexivity].
  split; [cbn; tauto|]. exists demo_src. split; [apply demo_src_at|]. left. split; [apply demo_src_known|].
  exists []. split; [split; [auto|intros [|i] v E; discriminate]|]. split; [reflexivity|]. left. eexists. split; reflexivity.
Qed.
Print Assumptions C68_empty_refuted.

(** Names of symbols that are not UTF-8 end the process. *)
Theorem C68_names_refuted : exists g src names, (exists s, struct_at s src) /\
  array g names [4117] /\ string g 4117 [255] /\
  forall fuel last lib room, (1 < fuel)%nat -> exec g fuel last (KInspect src names 1 lib room) = Panic.
Proof.
  set (g := fun a : N => if a <? 4096 then None else nth_error (le_bytes 8 4117 ++ repeat 1 13 ++ [255; 0])%list (N.to_nat (a - 4096))).
  exists g, (le_bytes 8 40 ++ repeat 0 32)%list, 4096.
  assert (S : struct_at (le_bytes 8 40 ++ repeat 0 32)%list (le_bytes 8 40 ++ repeat 0 32)%list).
  { split; [|exists []; reflexivity]. split; [|split; [vm_compute; split; [discriminate|reflexivity]|reflexivity]].
    repeat constructor; reflexivity. }
  assert (Str : string g 4117 [255]).
  { split; [intros [K|[]]; discriminate|]. intros [|[|i]] x Hx; [exact Hx|exact Hx|destruct i; discriminate]. }
  assert (A : array g 4096 [4117]).
  { split; [discriminate|]. intros [|i] v E; [|destruct i; discriminate]. injection E as <-. exists (le_bytes 8 4117).
    split; [reflexivity|]. split; [repeat constructor; reflexivity|]. split; [reflexivity|].
    intros i x Hx. do 8 (destruct i as [|i]; [exact Hx|]). destruct i; discriminate. }
  split; [eauto|]. split; auto. split; auto. intros fuel last lib room L.
  unfold exec. destruct (struct_ok blaze_inspect_elf_src _ _ ltac:(cbn; tauto) S) as (K & _). rewrite K.
  - cbn [bind]. change 1%nat with (length [4117]). rewrite (C68_arrays g 4096 [4117] A). cbn [bind map_res].
    rewrite (read_string [255] g 4117 fuel Str L). reflexivity.
  - intros i Hi. change (it_effective blaze_inspect_elf_src) with 17 in Hi. unfold byte.
    destruct (Nat.ltb_spec (N.to_nat i) 40) as [Li|Li]; [|apply nth_overflow; exact Li].
    assert (Kb : forallb (fun j => nth j (le_bytes 8 40 ++ repeat 0 32)%list 0 =? 0) (seq 17 23) = true) by (vm_compute; reflexivity).
    rewrite forallb_forall in Kb. apply N.eqb_eq, Kb, in_seq. lia.
Qed.
Print Assumptions C68_names_refuted.
