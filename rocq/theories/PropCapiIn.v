(** * C47: structures of older and newer C programs *)

From Verif Require Import Base Util UtilProofs Bytes Sym Symbolizer CapiIn CapiSpec.
Local Open Scope N_scope.

(** ** Bytes *)

Lemma byte_beyond : forall c i, nlen c <= i -> byte c i = 0.
Proof. intros c i H. apply nth_overflow. unfold nlen in H. lia. Qed.
Lemma byte_app : forall c d i, i < nlen c -> byte (c ++ d) i = byte c i.
Proof. intros c d i H. unfold byte. apply app_nth1. unfold nlen in H. lia. Qed.
Lemma byte_lt : forall c i, is_bytes c -> byte c i < 256.
Proof.
  intros c i H. unfold byte. destruct (nth_in_or_default (N.to_nat i) c 0) as [Hi| ->]; [|lia].
  unfold is_bytes in H. rewrite Forall_forall in H. auto.
Qed.
Lemma value_ext : forall n c d off, (forall i, off <= i < off + N.of_nat n -> byte c i = byte d i) ->
  value c off n = value d off n.
Proof.
  induction n as [|n IH]; intros c d off H; simpl; auto.
  rewrite (H off) by lia. f_equal. f_equal. apply IH. intros i Hi. apply H. lia.
Qed.
Lemma byte_ndrop : forall c n i, byte (ndrop n c) i = byte c (n + i).
Proof.
  intros c n i. unfold byte. rewrite ndrop_skipn.
  replace (N.to_nat (n + i)) with (N.to_nat n + N.to_nat i)%nat by lia.
  generalize (N.to_nat n) as k, (N.to_nat i) as j. clear. intros k. revert c.
  induction k as [|k IH]; intros c j; simpl; auto. destruct c; simpl; auto. now destruct j.
Qed.
Lemma value_ndrop : forall n c k off, value (ndrop k c) off n = value c (k + off) n.
Proof.
  induction n as [|n IH]; intros c k off; simpl; auto.
  rewrite byte_ndrop, IH. now rewrite N.add_assoc.
Qed.
(** Reading a member from bytes that are there. *)
Lemma le_val_value : forall n c, N.of_nat n <= nlen c -> le_val (ntake (N.of_nat n) c) = value c 0 n.
Proof.
  induction n as [|n IH]; intros c H; simpl.
  - destruct c; reflexivity.
  - destruct c as [|x c]; [unfold nlen in H; simpl in H; lia|].
    rewrite ntake_firstn. rewrite Nat2N.id. simpl. f_equal. f_equal.
    rewrite <- (Nat2N.id n) at 1. rewrite <- ntake_firstn, IH.
    + replace c with (ndrop 1 (x :: c)) at 1 by (simpl; apply ndrop_0). rewrite value_ndrop. reflexivity.
    + rewrite nlen_cons in H. lia.
Qed.
Lemma le_val_8 : forall c, 8 <= nlen c -> le_val (ntake 8 c) = value c 0 8.
Proof. intros c H. apply (le_val_value 8). exact H. Qed.
Lemma field_value : forall off n c, off + N.of_nat n <= nlen c -> field off (N.of_nat n) c = value c off n.
Proof.
  intros off n c H. unfold field. rewrite le_val_value by (rewrite nlen_ndrop; lia).
  rewrite value_ndrop. now rewrite N.add_0_r.
Qed.

(** ** The check *)

Lemma is_mem_zero_spec : forall mem len, len <= nlen mem ->
  exists b, is_mem_zero mem len = Ok b /\ (b = true <-> forall i, i < len -> byte mem i = 0).
Proof.
  induction mem as [|x mem IH]; intros len H; simpl.
  - rewrite nlen_nil in H. replace len with 0 by lia. rewrite N.eqb_refl.
    exists true. split; auto. split; auto. intros _ i Hi. lia.
  - destruct (N.eqb_spec len 0) as [->|Hn].
    + exists true. split; auto. split; auto. intros _ i Hi. lia.
    + rewrite nlen_cons in H. destruct (N.eqb_spec x 0) as [->|Hx].
      * destruct (IH (len - 1) ltac:(lia)) as (b & E & Hb). exists b. split; auto.
        rewrite Hb. split; intros G i Hi.
        -- destruct (N.eqb_spec i 0) as [->|]; [reflexivity|].
           unfold byte. replace (N.to_nat i) with (S (N.to_nat (i - 1))) by lia. simpl. apply G. lia.
        -- specialize (G (i + 1) ltac:(lia)). unfold byte in *.
           replace (N.to_nat (i + 1)) with (S (N.to_nat i)) in G by lia. exact G.
      * exists false. split; auto. split; [discriminate|]. intros G. specialize (G 0 ltac:(lia)).
        unfold byte in G. simpl in G. contradiction.
Qed.

Lemma is_mem_zero_app : forall mem d len, len <= nlen mem -> is_mem_zero (mem ++ d) len = is_mem_zero mem len.
Proof.
  induction mem as [|x mem IH]; intros d len H.
  - rewrite nlen_nil in H. replace len with 0 by lia. now destruct d.
  - rewrite nlen_cons in H. simpl. destruct (N.eqb_spec len 0); auto.
    destruct (x =? 0); auto. apply IH. lia.
Qed.

Lemma read_mem_ok : forall n mem, n <= nlen mem -> read_mem n mem = Ok (ntake n mem).
Proof. intros n mem H. unfold read_mem. destruct (N.leb_spec n (nlen mem)); [reflexivity|lia]. Qed.

(** Layouts of the input types. *)
Lemma input_ty_layout : forall t, In t input_tys -> 8 <= it_effective t <= it_size t.
Proof.
  intros t H. repeat (destruct H as [<-|H]; [vm_compute; split; discriminate|]). destruct H.
Qed.

Lemma sanitized : forall t c rest, In t input_tys -> declares c ->
  exists o, input_sanitize t (c ++ rest) = Ok o /\ nlen o = it_size t /\ is_bytes o /\
    forall i, i < it_size t -> byte o i = byte c i.
Proof.
  intros t c rest Ht (Hb & (H8 & H64) & Hd). pose proof (input_ty_layout t Ht) as (L1 & L2).
  unfold input_sanitize. rewrite read_mem_ok by (rewrite nlen_app; lia). simpl bind.
  rewrite (le_val_8 (c ++ rest)) by (rewrite nlen_app; lia).
  rewrite (value_ext _ _ c) by (intros i Hi; apply byte_app; change (N.of_nat 8) with 8 in Hi; lia). rewrite Hd.
  destruct (N.ltb_spec (nlen c) (it_size t)) as [Hl|Hl].
  - rewrite read_mem_ok by (rewrite nlen_app; lia). simpl bind. rewrite ntake_app_exact by reflexivity.
    eexists. split; [reflexivity|]. split.
    { rewrite nlen_app. unfold nlen at 2. rewrite repeat_length. lia. }
    split.
    { apply is_bytes_app. split; auto. apply Forall_forall. intros x Hx. apply repeat_spec in Hx. subst. lia. }
    intros i Hi. destruct (N.lt_ge_cases i (nlen c)) as [G|G].
    + now apply byte_app.
    + rewrite (byte_beyond c) by auto. unfold byte. rewrite app_nth2 by (unfold nlen in G; lia).
      destruct (nth_in_or_default (N.to_nat i - length c) (repeat 0 (N.to_nat (it_size t - nlen c))) 0)
        as [Hin| ->]; auto. now apply repeat_spec in Hin.
  - rewrite read_mem_ok by (rewrite nlen_app; lia). eexists. split; [reflexivity|].
    rewrite nlen_ntake, nlen_app. split; [lia|].
    assert (E : ntake (it_size t) (c ++ rest) = ntake (it_size t) c).
    { rewrite !ntake_firstn, firstn_app.
      replace (N.to_nat (it_size t) - length c)%nat with O by (unfold nlen in Hl; lia).
      rewrite firstn_O. apply app_nil_r. }
    rewrite E. split; [now apply is_bytes_ntake|].
    intros i Hi. rewrite <- (ntake_ndrop _ c (it_size t)) at 2. symmetry. apply byte_app.
    rewrite nlen_ntake. lia.
Qed.

Lemma zeroed : forall t c rest, In t input_tys -> declares c ->
  exists b, input_zeroed false t (c ++ rest) = Ok b /\ (b = true <-> unknown_zero (it_effective t) c).
Proof.
  intros t c rest Ht (Hb & (H8 & H64) & Hd). pose proof (input_ty_layout t Ht) as (L1 & L2).
  unfold input_zeroed. rewrite read_mem_ok by (rewrite nlen_app; lia). simpl bind.
  rewrite (le_val_8 (c ++ rest)) by (rewrite nlen_app; lia).
  rewrite (value_ext _ _ c) by (intros i Hi; apply byte_app; change (N.of_nat 8) with 8 in Hi; lia). rewrite Hd.
  destruct (N.ltb_spec (nlen c) 8); [lia|]. unfold ptr_add. simpl andb. cbv iota. simpl bind.
  unfold sat_sub.
  destruct (is_mem_zero_spec (ndrop (it_effective t) (c ++ rest)) (nlen c - it_effective t)) as (b & E & Hbz).
  { rewrite nlen_ndrop, nlen_app. lia. }
  exists b. split; auto. rewrite Hbz. unfold unknown_zero. split; intros G i Hi.
  - destruct (N.lt_ge_cases i (nlen c)) as [Hc|Hc]; [|now apply byte_beyond].
    specialize (G (i - it_effective t) ltac:(lia)). rewrite byte_ndrop in G.
    replace (it_effective t + (i - it_effective t)) with i in G by lia. now rewrite byte_app in G.
  - rewrite byte_ndrop. rewrite byte_app by lia. apply G. lia.
Qed.

(** ** Theorems *)

(** A structure of any size is taken iff everything behind the members the
    library knows is zero. What is used then has the members of the program's
    structure, those its header did not have being zero. Nothing but the
    program's structure is looked at: what follows it in memory does not
    matter. *)
Theorem C47_taken : forall t c rest, In t input_tys -> declares c ->
  (unknown_zero (it_effective t) c ->
     exists o, take_input false t (c ++ rest) = Ok (Some o) /\ nlen o = it_size t /\
       forall off n, off + N.of_nat n <= it_size t -> field off (N.of_nat n) o = value c off n) /\
  (~ unknown_zero (it_effective t) c -> take_input false t (c ++ rest) = Ok None).
Proof.
  intros t c rest Ht Hc. unfold take_input.
  destruct (zeroed t c rest Ht Hc) as (b & E & Hb). rewrite E. simpl bind.
  destruct (sanitized t c rest Ht Hc) as (o & Eo & Ho & _ & Hm). rewrite Eo. simpl bind.
  destruct b; (split; [intros G|intros G]); try tauto.
  - exists o. split; auto. split; auto. intros off n Hn. rewrite field_value by lia.
    apply value_ext. intros i Hi. apply Hm. lia.
  - exfalso. apply Hb in G. discriminate.
Qed.
Print Assumptions C47_taken.

(** The memory behind the structure is not even looked at. *)
Theorem C47_bounds : forall t c rest, In t input_tys -> declares c ->
  take_input false t (c ++ rest) = take_input false t c /\ safe (take_input false t c).
Proof.
  intros t c rest Ht Hc. pose proof (input_ty_layout t Ht) as (L1 & L2).
  destruct (C47_taken t c rest Ht Hc) as (A & B). destruct (C47_taken t c [] Ht Hc) as (A' & B').
  rewrite app_nil_r in *.
  destruct (zeroed t c [] Ht Hc) as (b & E & Hb).
  destruct b.
  - assert (G : unknown_zero (it_effective t) c) by now apply Hb.
    destruct (A G) as (o & Eo & Ho & Hm). destruct (A' G) as (o' & Eo' & Ho' & Hm').
    rewrite Eo, Eo'. split; auto. do 2 f_equal.
    apply nth_ext with (d := 0) (d' := 0); [unfold nlen in *; lia|]. intros n Hn.
    specialize (Hm (N.of_nat n) 1%nat ltac:(unfold nlen in *; lia)).
    specialize (Hm' (N.of_nat n) 1%nat ltac:(unfold nlen in *; lia)). rewrite <- Hm' in Hm.
    rewrite !field_value in Hm by (unfold nlen in *; lia). simpl in Hm. unfold byte in Hm.
    rewrite !Nat2N.id in Hm. lia.
  - assert (G : ~ unknown_zero (it_effective t) c) by (intros G; apply Hb in G; discriminate).
    rewrite (B G), (B' G). auto.
Qed.
Print Assumptions C47_bounds.

(** Programs compiled with different headers that set the same members (and
    leave the rest zero) get the same treatment, and the same values of all
    members but the size. *)
Theorem C47_versions : forall t c c', In t input_tys -> declares c -> declares c' ->
  (forall i, 8 <= i -> byte c i = byte c' i) ->
  (take_input false t c = Ok None /\ take_input false t c' = Ok None) \/
  exists o o', take_input false t c = Ok (Some o) /\ take_input false t c' = Ok (Some o') /\
    forall off n, 8 <= off -> off + N.of_nat n <= it_size t ->
      field off (N.of_nat n) o = field off (N.of_nat n) o'.
Proof.
  intros t c c' Ht Hc Hc' He. pose proof (input_ty_layout t Ht) as (L1 & L2).
  destruct (C47_taken t c [] Ht Hc) as (A & B). destruct (C47_taken t c' [] Ht Hc') as (A' & B').
  rewrite app_nil_r in *.
  destruct (zeroed t c [] Ht Hc) as (b & _ & Hb).
  assert (U : unknown_zero (it_effective t) c <-> unknown_zero (it_effective t) c').
  { unfold unknown_zero. split; intros G i Hi.
    - rewrite <- He by lia. now apply G.
    - rewrite He by lia. now apply G. }
  destruct b.
  - right. assert (G : unknown_zero (it_effective t) c) by now apply Hb.
    destruct (A G) as (o & Eo & _ & Hm). destruct (A' (proj1 U G)) as (o' & Eo' & _ & Hm').
    exists o, o'. split; auto. split; auto. intros off n H8 Hn. rewrite Hm, Hm' by auto.
    apply value_ext. intros i Hi. apply He. lia.
  - left. assert (G : ~ unknown_zero (it_effective t) c) by (intros G; apply Hb in G; discriminate).
    split; [auto|]. apply B'. tauto.
Qed.
Print Assumptions C47_versions.

(** A declared size that does not even cover the size member is refused. *)
Theorem C47_too_small : forall strict t mem, is_bytes mem -> 8 <= nlen mem -> value mem 0 8 < 8 ->
  take_input strict t mem = Ok None.
Proof.
  intros strict t mem Hb H8 Hv. unfold take_input, input_zeroed. rewrite read_mem_ok by auto. simpl bind.
  rewrite le_val_8 by auto.
  destruct (N.ltb_spec (value mem 0 8) 8); [reflexivity|lia].
Qed.
Print Assumptions C47_too_small.

(** Sizes and offsets the header has (the unit tests [type_sizes] check the
    sizes). *)
Example layouts :
  map it_size input_tys = [32; 32; 40; 48; 32; 40; 32; 48; 32; 32; 40] /\
  map it_effective input_tys = [16; 13; 17; 25; 16; 24; 16; 40; 12; 11; 17] /\
  offsets 0 (it_members blaze_symbolizer_opts) = [0; 8; 16; 24; 25; 26; 27; 28; 32; 40].
Proof. repeat split. Qed.

(** A program that knows of nothing but the process id, and one that knows
    members this library does not have. *)
Definition old_client (pid : N) : list N := le_bytes 8 12 ++ le_bytes 4 pid.
Definition new_client (pid tail : N) : list N :=
  le_bytes 8 64 ++ le_bytes 4 pid ++ [0; 1; 0; 1] ++ repeat 0 40 ++ le_bytes 8 tail.

(** Such an old program gets what the header documents as defaults: no debug
    symbols, no perf map, map files and the vDSO enabled. *)
Theorem C47_old_process : forall n, n < 2 ^ 32 ->
  exists o, take_input false blaze_symbolize_src_process (old_client n) = Ok (Some o) /\
    process_src o = Ok (pid_of n, POpts false false true true).
Proof.
  intros n Hn. pose proof (le_bytes_is_bytes 4 n) as Hb.
  unfold old_client. pose proof (le_val_bytes 4 n Hn) as Hv.
  destruct (le_bytes 4 n) as [|b0 [|b1 [|b2 [|b3 [|]]]]] eqn:E; try (apply (f_equal (@length _)) in E;
    rewrite le_bytes_length in E; discriminate).
  eexists. split.
  - vm_compute. reflexivity.
  - match goal with |- process_src ?o = _ =>
      assert (M : member blaze_symbolize_src_process 1 o = le_val [b0; b1; b2; b3]) by (vm_compute; reflexivity)
    end.
    unfold process_src. rewrite M, Hv. vm_compute. reflexivity.
Qed.
Print Assumptions C47_old_process.

Example new_process :
  (exists o, take_input false blaze_symbolize_src_process (new_client 42 0) = Ok (Some o) /\
     process_src o = Ok (Pid 42, POpts false true true false)) /\
  take_input false blaze_symbolize_src_process (new_client 42 1) = Ok None /\
  take_input false blaze_symbolize_src_process (new_client 42 (2 ^ 63)) = Ok None.
Proof.
  split; [|split; vm_compute; reflexivity].
  eexists. split; [vm_compute; reflexivity|vm_compute; reflexivity].
Qed.
Example kernel_paths :
  let strings p := if p =? 4096 then [] else [47; 107] in
  let c kall vml := le_bytes 8 40 ++ le_bytes 8 kall ++ le_bytes 8 vml ++ [1] ++ repeat 0 15 in
  let run c := let* o := take_input false blaze_symbolize_src_kernel c in
               match o with Some o => kernel_src strings o | None => Err EInvalidInput end in
  run (c 0 4096) = Ok (MDefault, MNone, true) /\ run (c 8192 0) = Ok (MSome [47; 107], MDefault, true).
Proof. split; vm_compute; reflexivity. Qed.

(** Not all members that have to be zero are checked: [_reserved1] of
    [blaze_symbolizer_opts] (lines 727-729) is ignored, so that a program using
    a member a later version put there is not refused but misunderstood. *)
Definition opts_with_gap (g : N) : list N :=
  le_bytes 8 48 ++ repeat 0 16 ++ [1; 1; 0; 1] ++ [g; 0; 0; 0] ++ repeat 0 16.
Theorem C47_gap_refuted : exists c c', declares c /\ declares c' /\
  value c 28 4 = 0 /\ value c' 28 4 = 1 /\
  exists o o', take_input false blaze_symbolizer_opts c = Ok (Some o) /\
    take_input false blaze_symbolizer_opts c' = Ok (Some o') /\ symbolizer_flags o = symbolizer_flags o'.
Proof.
  exists (opts_with_gap 0), (opts_with_gap 1).
  assert (D : forall g, g < 256 -> declares (opts_with_gap g)).
  { intros g Hg. split; [|split; [vm_compute; split; [discriminate|reflexivity]|reflexivity]].
    unfold opts_with_gap. repeat (apply is_bytes_app; split); try apply le_bytes_is_bytes;
      repeat constructor; auto. }
  split; [apply D; lia|]. split; [apply D; lia|]. split; [reflexivity|]. split; [reflexivity|].
  eexists. eexists. split; [vm_compute; reflexivity|]. split; [vm_compute; reflexivity|].
  vm_compute. reflexivity.
Qed.
Print Assumptions C47_gap_refuted.

(** By the letter of Rust's rules the check is undefined for programs whose
    structure ends before [reserved]: [ptr.add(effective_size)] leaves the
    program's object (capi/src/lib.rs line 47). *)
Theorem C47_pointer_refuted : exists c, declares c /\
  take_input true blaze_symbolize_src_process c = Panic.
Proof.
  exists (old_client 1). split; [|vm_compute; reflexivity].
  split; [|split; [vm_compute; split; [discriminate|reflexivity]|reflexivity]].
  unfold old_client. apply is_bytes_app. split; apply le_bytes_is_bytes.
Qed.
Print Assumptions C47_pointer_refuted.

(** It is fine for all others. *)
Theorem C47_pointer : forall t c, In t input_tys -> declares c -> it_effective t <= nlen c ->
  take_input true t c = take_input false t c.
Proof.
  intros t c Ht Hc H. unfold take_input, input_zeroed. f_equal.
  unfold ptr_add. simpl. destruct (N.ltb_spec (nlen c) (it_effective t)); [lia|reflexivity].
Qed.
Print Assumptions C47_pointer.

(** ** Members *)

(** Where the members are, as C has it for the declarations of
    capi/include/blazesym.h (lines 156-180, 188-241, 661-703, 747-838, 844-1090):
    the size, where the reserved part begins, and where each member begins. *)
Definition header_layouts : list (N * N * list N) :=
  [(32, 16, [0; 8; 16]);                                 (* type_size, path *)
   (32, 13, [0; 8; 12; 13]);                             (* pid, cache_vmas *)
   (40, 17, [0; 8; 16; 17]);                             (* path, debug_syms *)
   (48, 25, [0; 8; 16; 24; 25]);                         (* kallsyms, vmlinux, debug_syms *)
   (32, 16, [0; 8; 12; 13; 14; 15; 16]);                 (* pid, debug_syms, perf_map, no_map_files, no_vdso *)
   (40, 24, [0; 8; 16; 24]);                             (* data, data_len *)
   (32, 16, [0; 8; 16]);                                 (* path *)
   (48, 40, [0; 8; 16; 24; 25; 26; 27; 28; 32; 40]);     (* debug_dirs, debug_dirs_len, auto_reload, code_info,
                                                            inlined_fns, demangle, _reserved1, process_dispatch *)
   (32, 12, [0; 8; 9; 10; 11; 12]);                      (* use_procmap_query, cache_vmas, build_ids, cache_build_ids *)
   (32, 11, [0; 8; 9; 10; 11]);                          (* sorted_addrs, map_files, apk_to_elf *)
   (40, 17, [0; 8; 16; 17])].                            (* path, debug_syms *)
Theorem C47_layout : map (fun t => (it_size t, it_effective t, offsets 0 (it_members t))) input_tys = header_layouts.
Proof. reflexivity. Qed.
Print Assumptions C47_layout.
(** There is neither unnamed space between the members nor behind the last one, so
    that no byte of a structure escapes both its members and the check. *)
Fixpoint tiled (at_ : N) (l : list cty) : Prop :=
  match l with [] => True | t :: l => align_up (align_of t) at_ = at_ /\ tiled (at_ + size_of t) l end.
Theorem C47_no_padding : forall t, In t input_tys ->
  tiled 0 (it_members t) /\ fold_left (fun a m => a + size_of m) (it_members t) 0 = it_size t.
Proof. intros t H. repeat (destruct H as [<-|H]; [repeat split|]). destruct H. Qed.
Print Assumptions C47_no_padding.

(** A flag in the structure of the program *)
Definition is_flag (c : list N) (i : N) : Prop := byte c i = 0 \/ byte c i = 1.
Definition set_at (c : list N) (i : N) : bool := byte c i =? 1.
Lemma flag_set : forall t i c o, (forall off n, off + N.of_nat n <= it_size t -> field off (N.of_nat n) o = value c off n) ->
  size_of (nth i (it_members t) CU8) = 1 -> offset_of (it_members t) i + 1 <= it_size t ->
  is_flag c (offset_of (it_members t) i) -> flag t i o = Ok (set_at c (offset_of (it_members t) i)).
Proof.
  intros t i c o H Hs Hb Hf. unfold flag, member. rewrite Hs. change 1 with (N.of_nat 1). rewrite H by exact Hb.
  simpl value. rewrite N.mul_0_r, N.add_0_r. unfold set_at. destruct Hf as [-> | ->]; reflexivity.
Qed.
Lemma member_value : forall t i n c o, (forall off n, off + N.of_nat n <= it_size t -> field off (N.of_nat n) o = value c off n) ->
  size_of (nth i (it_members t) CU8) = N.of_nat n -> offset_of (it_members t) i + N.of_nat n <= it_size t ->
  member t i o = value c (offset_of (it_members t) i) n.
Proof. intros t i n c o H Hs Hb. unfold member. rewrite Hs. now apply H. Qed.
Ltac flag_there Hf :=
  match goal with
  | |- is_flag ?c ?i => let v := eval vm_compute in i in change (is_flag c v); first [exact Hf|apply Hf; lia]
  | _ => vm_compute; first [reflexivity|discriminate]
  end.
Ltac taken T c rest Hc Hz o :=
  let A := fresh in let Hl := fresh in let Hm := fresh "Hm" in
  destruct (C47_taken T c rest ltac:(unfold input_tys; simpl; tauto) Hc) as (A & _);
  destruct (A Hz) as (o & -> & Hl & Hm); clear A Hl; exists o; split; [reflexivity|].

(** Processes: bytes the program's structure does not have are zero, so that an older
    program gets map files and the vDSO, but no debug symbols and no perf map. *)
Theorem C47_process : forall c rest, declares c -> unknown_zero 16 c ->
  (forall i, 12 <= i < 16 -> is_flag c i) ->
  exists o, take_input false blaze_symbolize_src_process (c ++ rest) = Ok (Some o) /\
    process_src o = Ok (if value c 8 4 =? 0 then Slf else Pid (value c 8 4),
                        POpts (set_at c 12) (set_at c 13) (negb (set_at c 14)) (negb (set_at c 15))).
Proof.
  intros c rest Hc Hz Hf. taken blaze_symbolize_src_process c rest Hc Hz o. unfold process_src.
  rewrite !(flag_set _ _ c o Hm) by (flag_there Hf).
  rewrite (member_value _ _ 4 c o Hm) by (try reflexivity; vm_compute; discriminate). reflexivity.
Qed.
Print Assumptions C47_process.
(** Kernels: a null pointer is the default, an empty string none. *)
Theorem C47_kernel : forall strings c rest, declares c -> unknown_zero 25 c -> is_flag c 24 ->
  exists o, take_input false blaze_symbolize_src_kernel (c ++ rest) = Ok (Some o) /\
    exists kallsyms vmlinux, kernel_src strings o = Ok (kallsyms, vmlinux, set_at c 24) /\
      forall p v, (p, v) = (value c 8 8, kallsyms) \/ (p, v) = (value c 16 8, vmlinux) ->
        (v = MDefault <-> p = 0) /\ (v = MNone <-> p <> 0 /\ strings p = []) /\
        forall s, v = MSome s <-> p <> 0 /\ strings p = s /\ s <> [].
Proof.
  intros strings c rest Hc Hz Hf. taken blaze_symbolize_src_kernel c rest Hc Hz o. unfold kernel_src.
  rewrite !(flag_set _ _ c o Hm) by (flag_there Hf).
  rewrite !(member_value _ _ 8 c o Hm) by (try reflexivity; vm_compute; discriminate).
  exists (to_maybe_path strings (value c 8 8)), (to_maybe_path strings (value c 16 8)). split; [reflexivity|].
  assert (G : forall p, let v := to_maybe_path strings p in (v = MDefault <-> p = 0) /\ (v = MNone <-> p <> 0 /\ strings p = []) /\
    forall s, v = MSome s <-> p <> 0 /\ strings p = s /\ s <> []).
  { intros p. unfold to_maybe_path. cbv zeta. destruct (N.eqb_spec p 0) as [->|Hp].
    - split; [tauto|]. split; [split; [discriminate|tauto]|]. intros s. split; [discriminate|tauto].
    - destruct (strings p) as [|x l]; (split; [split; [discriminate|tauto]|]); split.
      + tauto.
      + intros s. split; [discriminate|]. intros (_ & <- & H). now contradiction H.
      + split; [discriminate|]. intros [_ H]. discriminate.
      + intros s. split; [intros [= <-]; repeat split; auto; discriminate|]. now intros (_ & <- & _). }
  intros p v [[= -> ->]|[= -> ->]]; apply G.
Qed.
Print Assumptions C47_kernel.
Theorem C47_symbolizer : forall c rest, declares c -> unknown_zero 40 c ->
  (forall i, 24 <= i < 28 -> is_flag c i) ->
  exists o, take_input false blaze_symbolizer_opts (c ++ rest) = Ok (Some o) /\
    symbolizer_flags o = Ok (set_at c 24, set_at c 25, set_at c 26, set_at c 27).
Proof.
  intros c rest Hc Hz Hf. taken blaze_symbolizer_opts c rest Hc Hz o. unfold symbolizer_flags.
  now rewrite !(flag_set _ _ c o Hm) by (flag_there Hf).
Qed.
Print Assumptions C47_symbolizer.
Theorem C47_normalize : forall c rest, declares c -> unknown_zero 11 c ->
  (forall i, 8 <= i < 11 -> is_flag c i) ->
  exists o, take_input false blaze_normalize_opts (c ++ rest) = Ok (Some o) /\
    normalize_flags o = Ok (set_at c 8, set_at c 9, set_at c 10).
Proof.
  intros c rest Hc Hz Hf. taken blaze_normalize_opts c rest Hc Hz o. unfold normalize_flags.
  now rewrite !(flag_set _ _ c o Hm) by (flag_there Hf).
Qed.
Print Assumptions C47_normalize.
