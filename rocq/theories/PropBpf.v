(** * Properties of the source lines of BPF programs

    Claim C57 of /verif/properties.jsonl. *)

From Coq Require Import String Permutation.
From Verif Require Import Base Util UtilProofs PropUtil Bytes Amap Text Nom Maps Sym Inspect Ksym ModSpec PropKsym Bpf BpfSpec.
Local Close Scope string_scope.
Local Open Scope N_scope.

(** ** Line information *)

Lemma li_line_ok : forall f v line col, v = line * 2 ^ 10 + col -> col < 2 ^ 10 ->
  li_line (LineInfo f v) = line /\ li_column (LineInfo f v) = col.
Proof.
  intros f v line col -> Hc. unfold li_line, li_column. cbn [li_line_col]. split.
  - rewrite N.shiftr_div_pow2. rewrite N.div_add_l by discriminate. rewrite N.div_small by exact Hc. lia.
  - change 0x3ff with (N.ones 10). rewrite N.land_ones. rewrite N.add_comm, N.mod_add by discriminate. now apply N.mod_small.
Qed.
Lemma btf_load_ok : forall s id data strs, id <> 0 -> sys_btf s id = Ok data -> btf_image data strs ->
  exists b, btf_load s id = Ok (Some b) /\ raw_strs b = Ok strs.
Proof.
  intros s id data strs Hid Hd (fl & hl & to & tl & so & rest & pre & post & E & Hhl & Hto & Htl & Hso & Hsl & E2 & Hp).
  exists (Btf data hl so (nlen strs)). split.
  - unfold btf_load. rewrite (proj2 (N.eqb_neq id 0) Hid), Hd. cbn [bind].
    assert (Hn : nlen data <? 24 = false).
    { apply N.ltb_ge. rewrite E. rewrite ?nlen_app, ?le_bytes_nlen, ?nlen_cons. lia. }
    rewrite Hn.
    assert (F0 : field 0 2 data = 0xeb9f).
    { rewrite E. apply (field_here 2). reflexivity. }
    assert (F2 : field 2 1 data = 1).
    { rewrite E. rewrite (field_skip 2 1 2) by (vm_compute; discriminate). reflexivity. }
    assert (Sk : forall off k c, 4 <= off -> field off k (le_bytes 2 0xeb9f ++ [1; fl] ++ c) = field (off - 4) k c).
    { intros off k c Ho. rewrite field_skip by (change (N.of_nat 2) with 2; lia). unfold field. do 2 f_equal.
      change (N.of_nat 2) with 2. rewrite !ndrop_skipn.
      replace (N.to_nat (off - 2)) with (2 + N.to_nat (off - 4))%nat by lia. reflexivity. }
    assert (F4 : field 4 4 data = hl).
    { rewrite E, Sk by lia. apply (field_here 4). exact Hhl. }
    assert (F16 : field 16 4 data = so).
    { rewrite E, Sk by lia. change (16 - 4) with 12. do 3 skip_field. apply (field_here 4). exact Hso. }
    assert (F20 : field 20 4 data = nlen strs).
    { rewrite E, Sk by lia. change (20 - 4) with 16. do 4 skip_field. apply (field_here 4). exact Hsl. }
    rewrite F0, F2, F4, F16, F20. reflexivity.
  - unfold raw_strs. cbn [bt_hdr_len bt_str_off bt_str_len bt_data].
    assert (Hle : hl + so + nlen strs <=? nlen data = true).
    { apply N.leb_le. rewrite E2, !nlen_app. lia. }
    rewrite Hle. f_equal. replace (hl + so + nlen strs - (hl + so)) with (nlen strs) by lia.
    rewrite E2, (ndrop_app_exact _ pre) by lia. now apply ntake_app_exact.
Qed.
Lemma btf_name_ok : forall b strs off name, raw_strs b = Ok strs -> str_at strs off name ->
  btf_name b off = Ok (Some name).
Proof.
  intros b strs off name Hr (pre & post & E & Hp & Hn). unfold btf_name. rewrite Hr. cbn [bind].
  assert (Hle : off <=? nlen strs = true) by (apply N.leb_le; rewrite E, nlen_app; lia).
  rewrite Hle, E, (ndrop_app_exact _ pre) by auto. rewrite split_once_app; [reflexivity| |reflexivity].
  apply Forall_forall. intros x Hx. apply N.eqb_neq. intros ->. contradiction.
Qed.

Definition record_of (l : src_line) : line_record := LineRecord (sl_addr l) (sl_file l) (sl_line l) (sl_column l).
Lemma line_records_ok : forall b strs lines addrs ls, raw_strs b = Ok strs -> (length addrs <= length lines)%nat ->
  Forall2 (line_told strs) (combine lines addrs) ls -> line_records b lines addrs = Ok (map record_of ls).
Proof.
  intros b strs lines addrs. revert lines. induction addrs as [|a addrs IH]; intros [|i lines] ls Hr Hl H; cbn [combine length] in *; try lia.
  - inversion H. reflexivity.
  - inversion H. reflexivity.
  - inversion H as [|? l ? ls' Ht H']; subst. unfold line_told in Ht. destruct Ht as (-> & Hs & Hlc & Hcol). cbn [line_records map].
    rewrite (btf_name_ok _ _ _ _ Hr Hs). cbn [bind of_option]. rewrite (IH lines ls') by (auto; lia). cbn [bind].
    destruct i as [f v]. cbn [li_line_col] in Hlc. destruct (li_line_ok f v _ _ Hlc Hcol) as [-> ->]. reflexivity.
Qed.

(** What is remembered for a program *)
Definition cell_right (p : bprog) (l : option (list line_record)) : Prop :=
  match bp_lines p, l with
  | None, None => True
  | Some ls, Some rs => sorted_by lr_addr rs /\ Permutation (map record_of ls) rs
  | _, _ => False
  end.
Lemma query_ok : forall s p info, told s p -> sys_info s (bp_id p) = Ok info ->
  pi_id info = bp_id p /\ pi_tag info = bp_tag p /\ pi_tags info = bp_sub p /\
  exists l, query_line_info s info = Ok l /\ cell_right p l.
Proof.
  intros s p info (bid & lines & addrs & Hi & Hl & Hb) E. rewrite Hi in E. injection E as <-.
  split; [reflexivity|]. split; [reflexivity|]. split; [reflexivity|].
  unfold query_line_info, cell_right. cbn [pi_line_rec_size pi_jited_rec_size pi_id pi_btf_id].
  change (negb (16 =? 16)) with false. change (negb (8 =? 8)) with false. cbv iota. rewrite Hl. cbn [bind].
  destruct (bp_lines p) as [ls|].
  - destruct Hb as (data & strs & Hbid & Hd & Him & Hle & HF).
    destruct (btf_load_ok s bid data strs Hbid Hd Him) as (b & -> & Hr). cbn [bind].
    rewrite (line_records_ok b strs lines addrs ls Hr Hle HF). cbn [bind]. eexists. split; [reflexivity|].
    split; [|apply isort_perm].
    assert (Hs : sorted lr_leb (isort lr_leb (map record_of ls))).
    { apply isort_sorted; intros; unfold lr_leb in *; rewrite ?N.leb_le in *; lia. }
    unfold sorted in Hs. unfold sorted_by. induction Hs as [|x l Hs IH HF2]; constructor; auto.
    eapply Forall_impl; [|exact HF2]. intros y Hy. now apply N.leb_le.
  - subst bid. unfold btf_load. cbn. eexists. split; reflexivity || exact I.
Qed.
Lemma location_right : forall p l addr, cell_right p l -> line_of p addr (location l addr).
Proof.
  intros p l addr H. unfold cell_right in H. unfold location. destruct (bp_lines p) as [ls|] eqn:Ep; destruct l as [rs|]; try contradiction.
  - destruct H as [Hs Hp]. destruct (C01_lookup_best_match_partial _ lr_addr rs addr Hs) as [Hn Hsome].
    assert (Hin : forall l, In l ls -> In (record_of l) rs).
    { intros l Hl. eapply Permutation_in; [exact Hp|]. now apply in_map. }
    destruct (find_match_or_lower_bound_by_key rs addr lr_addr) as [i|].
    + destruct (Hsome i eq_refl) as [(r & Hr & Hle & Hmax) _]. rewrite Hr. unfold line_of.
      assert (Hr2 : In r (map record_of ls)).
      { eapply Permutation_in; [apply Permutation_sym; exact Hp|]. eapply nth_error_In; eauto. }
      apply in_map_iff in Hr2. destruct Hr2 as (sl & <- & Hsl). exists ls, sl. split; [auto|]. split; [|reflexivity].
      split; [auto|]. split; [exact Hle|]. intros l' Hl' Ha. destruct (In_nth_error _ _ (Hin l' Hl')) as [j Hj].
      exact (Hmax j _ Hj Ha).
    + unfold line_of. intros ls' l' E Hl'. rewrite Ep in E. injection E as <-.
      exact (proj1 Hn eq_refl (record_of l') (Hin l' Hl')).
  - unfold line_of. intros. congruence.
Qed.

(** ** Finding programs *)
Section Kernel.
  Context (s : sys) (ps : list bprog) (Hk : kernel_runs s ps).

  Definition info_of (p : bprog) (info : prog_info) : Prop := In p ps /\ sys_info s (bp_id p) = Ok info.
  Definition cache_right (c : cache) : Prop :=
    forall t info, aget beq t c = Some info -> exists p, info_of p info /\ has_tag p t.

  Lemma add_tags_right : forall info p wanted tags found c, info_of p info -> (forall t, In t tags -> has_tag p t) ->
    cache_right c ->
    cache_right (snd (add_tags info wanted tags found c)) /\
    fst (add_tags info wanted tags found c) =
      match found with Some _ => found | None => if existsb (beq wanted) tags then Some info else None end.
  Proof.
    intros info p wanted tags. induction tags as [|t tags IH]; intros found c Hi Ht Hc; cbn [add_tags existsb fst snd].
    - split; [auto|]. now destruct found.
    - destruct (IH (match found with None => if beq wanted t then Some info else None | Some _ => found end) (aset beq t info c)) as [H1 H2]; auto.
      { intros u Hu. apply Ht. now right. }
      { intros u i Hu. destruct (beq_spec u t) as [->|Hne].
        - rewrite (aget_aset_eq beq beq_spec) in Hu. injection Hu as <-. exists p. split; [auto|]. apply Ht. now left.
        - rewrite (aget_aset_neq beq beq_spec) in Hu by auto. eauto. }
      split; [exact H1|]. rewrite H2. destruct found; [reflexivity|]. destruct (beq wanted t); [reflexivity|]. reflexivity.
  Qed.
  Definition after (id : N) : nat := length (filter (fun p => id <? bp_id p) ps).
  Lemma after_lt : forall id p, In p ps -> id < bp_id p -> (after (bp_id p) < after id)%nat.
  Proof.
    unfold after. intros id p Hp Hlt. clear Hk.
    assert (Hle : forall l, (length (filter (fun q => bp_id p <? bp_id q)%N l) <= length (filter (fun q => id <? bp_id q)%N l))%nat).
    { induction l as [|q l IH]; [auto|]. cbn [filter]. destruct (N.ltb_spec (bp_id p) (bp_id q)); destruct (N.ltb_spec id (bp_id q)); cbn [length]; lia. }
    induction ps as [|q l IH]; [contradiction|]. cbn [filter]. destruct Hp as [->|Hp].
    - rewrite N.ltb_irrefl. rewrite (proj2 (N.ltb_lt _ _) Hlt). cbn [length]. specialize (Hle l). lia.
    - specialize (IH Hp). destruct (N.ltb_spec (bp_id p) (bp_id q)); destruct (N.ltb_spec id (bp_id q)); cbn [length]; lia.
  Qed.
  (** The first program with the wanted tag, among those with IDs up to [id] *)
  Definition found_right (wanted : tag) (id : N) (found : option prog_info) : Prop :=
    match found with
    | Some info => exists p, info_of p info /\ has_tag p wanted
    | None => forall p, In p ps -> bp_id p <= id -> ~ has_tag p wanted
    end.
  Lemma lookup_loop_right : forall fuel wanted id found c, (after id < fuel)%nat -> cache_right c -> found_right wanted id found ->
    exists r c', lookup_loop fuel s wanted id found c = (Ok r, c') /\ cache_right c' /\
      match r with Some info => exists p, info_of p info /\ has_tag p wanted | None => forall p, In p ps -> ~ has_tag p wanted end.
  Proof.
    induction fuel as [|fuel IH]; intros wanted id found c Hf Hc Hfr; [lia|]. cbn [lookup_loop].
    destruct Hk as (Hnext & Htold & Huniq). specialize (Hnext id).
    destruct (sys_next s id) as [id2|[]| |]; try contradiction.
    - destruct Hnext as (Hlt & (p & Hp & Hid) & Hmin).
      destruct (Htold p Hp) as [_ Ht]. pose proof Ht as (bid & ? & ? & Hi & _). rewrite <- Hid, Hi.
      set (info := ProgInfo _ _ _ _ _ _) in *.
      assert (Hio : info_of p info) by (split; auto).
      destruct (add_tags_right info p wanted (pi_tag info :: pi_tags info) found c Hio) as [H1 H2]; auto.
      { intros t [<-|Hin]; [now left|now right]. }
      destruct (add_tags info wanted (pi_tag info :: pi_tags info) found c) as [f2 c2]. cbn [fst snd] in H1, H2.
      apply IH; auto.
      { pose proof (after_lt id p Hp). lia. }
      subst f2. destruct found as [i0|]; [exact Hfr|]. cbn [found_right] in Hfr.
      destruct (existsb (beq wanted) (pi_tag info :: pi_tags info)) eqn:Ex.
      + cbn [found_right]. exists p. split; [auto|]. apply existsb_exists in Ex. destruct Ex as (t & Hin & Et).
        apply beq_eq in Et. subst t. destruct Hin as [<-|Hin]; [now left|now right].
      + cbn [found_right]. intros q Hq Hle Hqt. destruct (N.lt_ge_cases id (bp_id q)) as [Hgt|Hge].
        * specialize (Hmin q Hq Hgt). assert (q = p) by (apply Huniq; auto; lia). subst q.
          assert (Hx : existsb (beq wanted) (pi_tag info :: pi_tags info) = true); [|congruence].
          apply existsb_exists. exists wanted. split; [|apply beq_refl]. destruct Hqt as [->|Hin]; [now left|now right].
        * exact (Hfr q Hq Hge Hqt).
    - exists found, c. split; [reflexivity|]. split; [auto|]. destruct found as [i0|]; [exact Hfr|].
      intros q Hq. apply Hfr; auto.
  Qed.
  Lemma after_le : forall id, (after id <= length ps)%nat.
  Proof. intros id. unfold after. clear. induction ps as [|q l IH]; [auto|]. cbn [filter]. destruct (_ <? _); cbn [length]; lia. Qed.
  Lemma lookup_right : forall fuel wanted c, (length ps < fuel)%nat -> cache_right c ->
    exists r c', lookup fuel s wanted c = (Ok r, c') /\ cache_right c' /\
      match r with Some info => exists p, info_of p info /\ has_tag p wanted | None => forall p, In p ps -> ~ has_tag p wanted end.
  Proof.
    intros fuel wanted c Hf Hc. unfold lookup. destruct (aget beq wanted c) as [info|] eqn:E.
    - exists (Some info), c. auto.
    - apply lookup_loop_right.
      + pose proof (after_le 0). lia.
      + intros t i H. discriminate.
      + cbn [found_right]. intros p Hp Hle. destruct Hk as (_ & H & _). destruct (H p Hp). lia.
  Qed.

  (** What a program remembers is right for all programs of its tag that were
      found; [Hd] says there is only one. *)
  Definition cell_of (t : tag) (cell : line_cell) : Prop :=
    match cell with None => True | Some l => exists p, In p ps /\ has_tag p t /\ cell_right p l end.
  Definition answer (t : tag) (addr : N) (r : res (option code_info)) : Prop :=
    (exists p o, In p ps /\ has_tag p t /\ r = Ok o /\ line_of p addr o) \/
    ((forall p, In p ps -> ~ has_tag p t) /\ r = Err ENotFound).
  Lemma retrieve_right : forall fuel t addr cell c, (length ps < fuel)%nat -> cache_right c -> cell_of t cell ->
    exists r cell' c', retrieve_code_info fuel s t addr cell c = (r, cell', c') /\ answer t addr r /\ cell_of t cell' /\ cache_right c'.
  Proof.
    intros fuel t addr cell c Hf Hc Hcell. unfold retrieve_code_info. destruct cell as [l|].
    - exists (Ok (location l addr)), (Some l), c. split; [reflexivity|]. split; [|auto]. left.
      destruct Hcell as (p & Hp & Ht & Hr). exists p, (location l addr). repeat split; auto. now apply location_right.
    - unfold init_line_info. destruct (lookup_right fuel t c Hf Hc) as (r & c' & -> & Hc' & Hr).
      destruct r as [info|]; cbn [bind of_option].
      + destruct Hr as (p & (Hp & Hi) & Ht). destruct Hk as (_ & Htold & _). destruct (Htold p Hp) as [_ Hp2].
        destruct (query_ok s p info Hp2 Hi) as (Hid & _ & _ & l & Hq & Hr). rewrite Hid, Hi. cbn [bind]. rewrite Hq.
        exists (Ok (location l addr)), (Some l), c'. split; [reflexivity|]. split; [|split; [exists p; auto|auto]]. left.
        exists p, (location l addr). repeat split; auto. now apply location_right.
      + exists (Err ENotFound), None, c'. split; [reflexivity|]. split; [now right|]. split; [exact I|auto].
  Qed.
End Kernel.

(** ** C57: the source line of an address in a BPF program *)

(** The answers for programs of one tag *)
Definition answered (ps : list bprog) (t : tag) (addr : N) (r : res (option code_info)) : Prop :=
  (forall p, In p ps -> has_tag p t -> exists o, r = Ok o /\ line_of p addr o) /\
  ((forall p, In p ps -> ~ has_tag p t) -> r = Err ENotFound).
Lemma queries_right : forall s ps fuel tags, kernel_runs s ps -> (length ps < fuel)%nat ->
  forall ops cells c, Forall (fun q : nat * N => (fst q < length tags)%nat) ops ->
  length cells = length tags -> (forall i t cell, nth_error tags i = Some t -> nth_error cells i = Some cell -> cell_of ps t cell) ->
  cache_right s ps c ->
  Forall2 (fun q r => answer ps (nth (fst q) tags []) (snd q) r) ops (queries fuel s tags ops cells c).
Proof.
  intros s ps fuel tags Hk Hf ops. induction ops as [|[i addr] ops IH]; intros cells c Ho Hl Hcells Hc; cbn [queries]; [constructor|].
  inversion Ho as [|? ? Hi Ho']; subst. cbn [fst] in Hi.
  destruct (nth_error tags i) as [t|] eqn:Et; [|apply nth_error_None in Et; lia].
  destruct (nth_error cells i) as [cell|] eqn:Ec; [|apply nth_error_None in Ec; lia].
  pose proof (nth_error_nth tags i [] Et) as Et2. pose proof (nth_error_nth cells i None Ec) as Ec2. rewrite Et2, Ec2.
  destruct (retrieve_right s ps Hk fuel t addr cell c Hf Hc (Hcells i t cell Et Ec)) as (r & cell' & c' & -> & Ha & Hcell' & Hc').
  constructor.
  - cbn [fst snd]. now rewrite Et2.
  - apply IH; auto; [now rewrite set_nth_length|]. intros j u d Hu Hd. destruct (Nat.eq_dec i j) as [<-|Hne].
    + rewrite nth_set_nth_eq in Hd by lia. congruence.
    + rewrite nth_set_nth_neq in Hd by auto. eauto.
Qed.

(** For all programs of a kernel, all programs of a resolver, all questions in
    any order: every answer is the line that the address belongs to; nothing else
    is ever reported. *)
Theorem C57_lines : forall s ps fuel tags ops, kernel_runs s ps -> tags_differ ps -> (length ps < fuel)%nat ->
  Forall (fun q : nat * N => (fst q < length tags)%nat) ops ->
  Forall2 (fun q r => answered ps (nth (fst q) tags []) (snd q) r) ops
    (queries fuel s tags ops (repeat None (length tags)) []).
Proof.
  intros s ps fuel tags ops Hk Hd Hf Ho.
  eapply Forall2_impl; [|apply (queries_right s ps fuel tags Hk Hf ops)]; auto.
  - cbn beta. intros [i addr] r [(p & o & Hp & Ht & -> & Hl)|[Hno ->]].
    + split.
      * intros q Hq Hqt. assert (q = p) by (eapply Hd; eauto). subst q. eauto.
      * intros Hno. exfalso. exact (Hno p Hp Ht).
    + split; [|auto]. intros p Hp Ht. exfalso. exact (Hno p Hp Ht).
  - now rewrite repeat_length.
  - intros i t cell _ Hc. apply nth_error_In, repeat_spec in Hc. subst cell. exact I.
  - intros t info H. discriminate.
Qed.
Print Assumptions C57_lines.
(** Even if tags are shared, what is reported is a line of a program of that tag. *)
Theorem C57_some_program : forall s ps fuel tags ops, kernel_runs s ps -> (length ps < fuel)%nat ->
  Forall (fun q : nat * N => (fst q < length tags)%nat) ops ->
  Forall2 (fun q r =>
      (exists p o, In p ps /\ has_tag p (nth (fst q) tags []) /\ r = Ok o /\ line_of p (snd q) o) \/
      ((forall p, In p ps -> ~ has_tag p (nth (fst q) tags [])) /\ r = Err ENotFound)) ops
    (queries fuel s tags ops (repeat None (length tags)) []).
Proof.
  intros s ps fuel tags ops Hk Hf Ho. apply (queries_right s ps fuel tags Hk Hf ops); auto.
  - now rewrite repeat_length.
  - intros i t cell _ Hc. apply nth_error_In, repeat_spec in Hc. subst cell. exact I.
  - intros t info H. discriminate.
Qed.
Print Assumptions C57_some_program.
(** Two lines at one address aside, the line of an address is unique. *)
Theorem C57_unique : forall ls addr a b, belongs ls addr a -> belongs ls addr b -> sl_addr a = sl_addr b.
Proof. intros ls addr a b (Ha & La & Ma) (Hb & Lb & Mb). specialize (Ma b Hb Lb). specialize (Mb a Ha La). lia. Qed.
Print Assumptions C57_unique.

(** The symbol found for an address in a BPF program listed in /proc/kallsyms has
    that line. *)
Definition code_of (fuel : nat) (s : sys) (t : tag) (addr : N) : res (option code_info) :=
  fst (fst (retrieve_code_info fuel s t addr None [])).
Theorem C57_symbol : forall s ps fuel, kernel_runs s ps -> tags_differ ps -> (length ps < fuel)%nat ->
  forall es txt ks addr e t p, kallsyms_text es txt -> Forall (fun e => plain (ke_name e)) (visible es) -> ksym_load txt = Ok ks ->
  In e (visible es) -> ke_addr e <= addr -> (forall x, In x (visible es) -> x <> e -> ke_addr x < ke_addr e \/ addr < ke_addr x) ->
  bpf_name (ke_name e) t -> In p ps -> has_tag p t ->
  forall opts, opts <> Basic -> exists ci, line_of p addr ci /\
    ksym_find_sym (code_of fuel s) ks addr opts =
      Ok (inl (ResolvedSym (ke_name e) (Some (bs "[bpf]"%string)) (ke_addr e) None LangUnknown ci [])).
Proof.
  intros s ps fuel Hk Hd Hf es txt ks addr e t p Ht Hpl Hl He Hle Honly Hb Hp Hpt opts Ho.
  destruct (C33_found es txt ks addr Ht Hpl Hl) as (e2 & He2 & (H1 & H2) & _ & _ & _ & Hrep); [eauto|].
  assert (E : e2 = e).
  { specialize (H2 e He Hle). assert (Hdec : e2 = e \/ e2 <> e) by (destruct e2 as [a n], e as [b o]; destruct (N.eq_dec a b); destruct (beq_spec n o); [left|right|right|right]; congruence).
    destruct Hdec as [E|Hne]; [exact E|]. destruct (Honly e2 He2 Hne); lia. }
  subst e2. destruct (Hrep t Hb (code_of fuel s)) as [_ Hr]. specialize (Hr opts Ho). destruct Hr as [Hr _].
  destruct (retrieve_right s ps Hk fuel t addr None [] Hf) as (r & cell & c & E & Ha & _).
  { intros u i H. discriminate. }
  { exact I. }
  destruct Ha as [(q & o & Hq & Hqt & -> & Hlo)|[Hno _]]; [|exfalso; exact (Hno p Hp Hpt)].
  assert (q = p) by (eapply Hd; eauto). subst q. exists o. split; [exact Hlo|]. apply Hr. unfold code_of. now rewrite E.
Qed.
Print Assumptions C57_symbol.

(** ** Examples *)

(** Programs as [kernel_runs] has them: one file name, at offset 1 of the strings *)
Definition ex_btf (file : list N) : list N :=
  le_bytes 2 0xeb9f ++ [1; 0] ++ le_bytes 4 24 ++ le_bytes 4 0 ++ le_bytes 4 0 ++ le_bytes 4 0 ++ le_bytes 4 (2 + nlen file) ++
  0 :: file ++ [0].
Definition ex_line (l : N * N * N) : line_info := let '(_, line, col) := l in LineInfo 1 (line * 1024 + col).
Definition ex_addr (l : N * N * N) : N := let '(a, _, _) := l in a.
Record ex_prog := ExProg { ep_id : N; ep_tag : list N; ep_sub : list (list N); ep_file : list N; ep_lines : list (N * N * N) }.
Definition ex_sys (l : list ex_prog) : sys :=
  let get id := find (fun p => ep_id p =? id) l in
  Sys (fun x => match find (fun p => x <? ep_id p) l with Some p => Ok (ep_id p) | None => Err ENotFound end)
      (fun id => match get id with Some p => Ok (ProgInfo id (ep_tag p) (ep_sub p) id 16 8) | None => Err ENotFound end)
      (fun id => match get id with Some p => Ok (map ex_line (ep_lines p), map ex_addr (ep_lines p)) | None => Err ENotFound end)
      (fun id => match get id with Some p => Ok (ex_btf (ep_file p)) | None => Err ENotFound end).
Definition ex_bprog (p : ex_prog) : bprog :=
  BProg (ep_id p) (ep_tag p) (ep_sub p) (Some (map (fun '(a, line, col) => SrcLine a (ep_file p) line col) (ep_lines p))).
Definition ex_ok (l : list ex_prog) : Prop :=
  StronglySorted (fun p q => ep_id p < ep_id q) l /\
  Forall (fun p => 0 < ep_id p /\ ~ In 0 (ep_file p) /\ nlen (ep_file p) < 1000 /\ Forall (fun '(_, _, col) => col < 1024) (ep_lines p)) l.
Lemma ex_find : forall l p, StronglySorted (fun p q => ep_id p < ep_id q) l -> In p l -> find (fun q => ep_id q =? ep_id p) l = Some p.
Proof.
  intros l p Hs Hin. induction Hs as [|x l Hs IH HF]; [contradiction|]. cbn [find]. destruct Hin as [->|Hin].
  - now rewrite N.eqb_refl.
  - rewrite Forall_forall in HF. specialize (HF p Hin). destruct (N.eqb_spec (ep_id x) (ep_id p)); [lia|]. auto.
Qed.
Lemma ex_runs : forall l, ex_ok l -> kernel_runs (ex_sys l) (map ex_bprog l).
Proof.
  intros l [Hs HF]. split; [|split].
  - intros x. cbn [ex_sys sys_next]. clear HF. induction Hs as [|p l Hs IH HF]; [cbn; tauto|]. rewrite Forall_forall in HF. cbn [find map].
    destruct (N.ltb_spec x (ep_id p)) as [Hlt|Hge].
    + split; [exact Hlt|]. split; [exists (ex_bprog p); split; [now left|reflexivity]|].
      intros q [<-|Hq] _; [cbn; lia|]. apply in_map_iff in Hq. destruct Hq as (r & <- & Hr). specialize (HF r Hr). cbn. lia.
    + destruct (find (fun q => x <? ep_id q) l) as [q|].
      * destruct IH as (H1 & (r & Hr & Hid) & H3). split; [exact H1|]. split; [exists r; split; [now right|auto]|].
        intros z [<-|Hz] Hlt; [cbn in Hlt; lia|]. auto.
      * intros z [<-|Hz]; [cbn; lia|auto].
  - intros q Hq. apply in_map_iff in Hq. destruct Hq as (p & <- & Hp). rewrite Forall_forall in HF. destruct (HF p Hp) as (H0 & Hz & Hn & Hc).
    split; [exact H0|]. exists (ep_id p), (map ex_line (ep_lines p)), (map ex_addr (ep_lines p)).
    cbn [ex_sys ex_bprog sys_info sys_lines sys_btf bp_id bp_tag bp_sub bp_lines]. rewrite (ex_find l p Hs Hp).
    split; [reflexivity|]. split; [reflexivity|]. exists (ex_btf (ep_file p)), (0 :: ep_file p ++ [0]).
    split; [lia|]. split; [reflexivity|]. split; [|split].
    + exists 0, 24, 0, 0, 0, (0 :: ep_file p ++ [0]),
        (le_bytes 2 0xeb9f ++ [1; 0] ++ le_bytes 4 24 ++ le_bytes 4 0 ++ le_bytes 4 0 ++ le_bytes 4 0 ++ le_bytes 4 (2 + nlen (ep_file p))), [].
      assert (E : nlen (0 :: ep_file p ++ [0]) = 2 + nlen (ep_file p)) by (rewrite nlen_cons, nlen_app; change (nlen [0]) with 1; lia).
      rewrite E. repeat split; try reflexivity; try (change (2 ^ 32) with 4294967296; lia).
      * unfold ex_btf. rewrite app_nil_r. now rewrite <- !app_assoc.
    + now rewrite !map_length.
    + clear - Hc Hz. induction Hc as [|[[a line] col] ls Hc H IH]; [constructor|]. cbn [map combine]. constructor; [|exact IH].
      split; [reflexivity|]. split; [|split; [reflexivity|exact Hc]]. exists [0], []. auto.
  - intros a b Ha Hb E. apply in_map_iff in Ha. apply in_map_iff in Hb. destruct Ha as (p & <- & Hp). destruct Hb as (q & <- & Hq).
    cbn in E. pose proof (ex_find l p Hs Hp) as E1. rewrite E in E1. rewrite (ex_find l q Hs Hq) in E1. congruence.
Qed.

Definition ex_a : ex_prog := ExProg 3 [1; 1; 1; 1; 1; 1; 1; 1] [[2; 2; 2; 2; 2; 2; 2; 2]] (bs "a.c"%string) [(0x1000, 10, 5); (0x1010, 12, 3); (0x1008, 11, 1)].
Definition ex_b : ex_prog := ExProg 7 [3; 3; 3; 3; 3; 3; 3; 3] [] (bs "b.c"%string) [(0x2000, 20, 1)].
Ltac ex_runs := apply ex_runs; split; [repeat constructor; cbn; lia|repeat constructor; cbn; try lia; intuition discriminate].
Example C57_example :
  kernel_runs (ex_sys [ex_a; ex_b]) (map ex_bprog [ex_a; ex_b]) /\
  queries 3 (ex_sys [ex_a; ex_b]) [ep_tag ex_a; [2; 2; 2; 2; 2; 2; 2; 2]; ep_tag ex_b; [9]]
    [(0%nat, 0x100c); (1%nat, 0x1fff); (3%nat, 0); (2%nat, 0x2000); (0%nat, 0xfff); (2%nat, 0x2004)] (repeat None 4) [] =
    [Ok (Some (CodeInfo None (ep_file ex_a) (Some 11) (Some 1)));
     Ok (Some (CodeInfo None (ep_file ex_a) (Some 12) (Some 3)));
     Err ENotFound;
     Ok (Some (CodeInfo None (ep_file ex_b) (Some 20) (Some 1)));
     Ok None;
     Ok (Some (CodeInfo None (ep_file ex_b) (Some 20) (Some 1)))].
Proof.
  split.
  - ex_runs.
  - vm_compute. reflexivity.
Qed.

(** ** What does not hold *)

(** The same program loaded twice has one tag. An address in the second copy is
    attributed to a line of the first one: here the address of line 10 to line
    12. *)
Definition ex_copy (id base : N) : ex_prog :=
  ExProg id [1; 1; 1; 1; 1; 1; 1; 1] [] (bs "a.c"%string) [(base, 10, 5); (base + 0x10, 12, 3)].
Theorem C57_same_tag_refuted : exists s ps p ls l ci,
  kernel_runs s ps /\ In p ps /\ bp_lines p = Some ls /\ belongs ls (sl_addr l) l /\
  queries 3 s [bp_tag p] [(0%nat, sl_addr l)] [None] [] = [Ok (Some ci)] /\ ci_line ci <> Some (sl_line l).
Proof.
  exists (ex_sys [ex_copy 3 0x1000; ex_copy 7 0x2000]), (map ex_bprog [ex_copy 3 0x1000; ex_copy 7 0x2000]), (ex_bprog (ex_copy 7 0x2000)).
  do 2 eexists. exists (CodeInfo None (bs "a.c"%string) (Some 12) (Some 3)).
  split; [ex_runs|]. split; [right; now left|]. split; [reflexivity|]. split.
  - split; [now left|]. split; [cbn; lia|]. intros l' [<-|[<-|[]]]; cbn; lia.
  - split; [vm_compute; reflexivity|]. discriminate.
Qed.
Print Assumptions C57_same_tag_refuted.
(** Then the answer also depends on what was asked before: the first copy is taken
    by the search, the last one is remembered by it. *)
Theorem C57_history_refuted : exists s ps tags q1 q2 r1 r2,
  kernel_runs s ps /\ queries 4 s tags [q2] (repeat None 2) [] = [r1] /\
  queries 4 s tags [q1; q2] (repeat None 2) [] = [Ok None; r2] /\ r1 <> r2.
Proof.
  exists (ex_sys [ex_copy 3 0x1000; ex_copy 7 0x2000; ExProg 8 [5] [] [97] []]), (map ex_bprog [ex_copy 3 0x1000; ex_copy 7 0x2000; ExProg 8 [5] [] [97] []]).
  exists [ep_tag (ex_copy 0 0); [5]], (1%nat, 0), (0%nat, 0x2000). do 2 eexists.
  split; [ex_runs|]. split; [vm_compute; reflexivity|]. split; [vm_compute; reflexivity|]. discriminate.
Qed.
Print Assumptions C57_history_refuted.
(** A program remembered under a tag is not forgotten when it is gone: after
    loading it anew it is not found by the tags of its sub-programs, for good. *)
Definition ex_again (id : N) : ex_prog := ExProg id [1] [[2]] (bs "a.c"%string) [(0x1000, 10, 5)].
Theorem C57_reload_refuted : exists s1 s2 ps1 ps2 p t u cell c,
  kernel_runs s1 ps1 /\ kernel_runs s2 ps2 /\ tags_differ ps1 /\ tags_differ ps2 /\ In p ps2 /\ has_tag p u /\
  retrieve_code_info 3 s1 t 0x1000 None [] = (Ok (Some (CodeInfo None (bs "a.c"%string) (Some 10) (Some 5))), cell, c) /\
  forall addr, retrieve_code_info 3 s2 u addr None c = (Err ENotFound, None, c).
Proof.
  exists (ex_sys [ex_again 3]), (ex_sys [ex_again 4]), [ex_bprog (ex_again 3)], [ex_bprog (ex_again 4)], (ex_bprog (ex_again 4)), [1], [2].
  do 2 eexists. split; [apply (ex_runs [ex_again 3]); split; [repeat constructor|repeat constructor; cbn; try lia; intuition discriminate]|].
  split; [apply (ex_runs [ex_again 4]); split; [repeat constructor|repeat constructor; cbn; try lia; intuition discriminate]|].
  split; [intros p q t [<-|[]] [<-|[]]; auto|]. split; [intros p q t [<-|[]] [<-|[]]; auto|].
  split; [now left|]. split; [right; now left|]. split; [vm_compute; reflexivity|]. intros addr. vm_compute. reflexivity.
Qed.
Print Assumptions C57_reload_refuted.
(** Any other program vanishing while programs are listed fails the search. *)
Definition ex_vanishing : sys :=
  let s := ex_sys [ex_a; ex_b] in
  Sys (sys_next s) (fun id => if id =? 7 then Err ENotFound else sys_info s id) (sys_lines s) (sys_btf s).
Theorem C57_vanishing_refuted : exists s p t,
  told s p /\ has_tag p t /\ forall fuel addr, (3 <= fuel)%nat -> fst (fst (retrieve_code_info fuel s t addr None [])) = Err ENotFound.
Proof.
  exists ex_vanishing, (ex_bprog ex_a), (ep_tag ex_a). split; [|split; [now left|]].
  - assert (H : kernel_runs (ex_sys [ex_a; ex_b]) (map ex_bprog [ex_a; ex_b])) by ex_runs.
    destruct H as (_ & H & _). exact (proj2 (H (ex_bprog ex_a) ltac:(now left))).
  - intros [|[|[|fuel]]] addr Hf; try lia. vm_compute. reflexivity.
Qed.
Print Assumptions C57_vanishing_refuted.
(** A kernel that does not know line information says zero about the sizes of its
    records (before Linux 5.0), and asking then panics. *)
Theorem C57_old_kernel_refuted : exists s t, forall addr,
  fst (fst (retrieve_code_info 2 s t addr None [])) = Panic.
Proof.
  exists (Sys (fun x => if x <? 1 then Ok 1 else Err ENotFound) (fun _ => Ok (ProgInfo 1 [1] [] 0 0 0)) (fun _ => Ok ([], [])) (fun _ => Err ENotFound)), [1].
  intros addr. vm_compute. reflexivity.
Qed.
Print Assumptions C57_old_kernel_refuted.
