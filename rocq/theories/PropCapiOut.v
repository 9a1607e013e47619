(** * C48: results handed to C programs *)

From Verif Require Import Base Util UtilProofs Bytes Inspect Sym Symbolizer CapiIn CapiOut CapiSpec CapiProofs CapiWrite.
Local Open Scope N_scope.

(** Pointers to results are those of a real allocator: not null, aligned and
    not beyond the end of the address space. *)
Definition place (base size : N) : Prop := 0 < base /\ base mod 8 = 0 /\ base + size <= 2 ^ 64.
(** [Layout] accepts the size. *)
Definition fits (size : N) : Prop := size <= 2 ^ 63 - 8.

Lemma layout8_ok : forall s, fits s -> layout8 s = Ok s.
Proof. intros s H. unfold layout8, fits in *. destruct (N.leb_spec s (2 ^ 63 - 8)); [reflexivity|lia]. Qed.

Lemma zoned_inside : forall a b c d e f lo hi rs, zoned a b c d e f rs -> lo <= a -> b <= hi -> lo <= c -> d <= hi ->
  lo <= e -> f <= hi -> Forall (inside lo hi) rs.
Proof.
  intros a b c d e f lo hi rs H. intros. eapply Forall_impl; [|exact H]. intros r Hr. unfold inside in *. lia.
Qed.

(** What a program gets for a list of results: the number of results and the
    results in order; strings that are missing are [NULL], others copied and
    ended by a zero byte; inlined functions as an array with their number;
    unknown symbols all zero but for the reason. All parts are inside of the one
    allocation, which is exactly as large as needed, and none overlaps another.
    Freeing hands back the allocation and its size. *)
Theorem C48_results : forall m base l, place base (results_room l) -> fits (results_room l) -> Forall result_ok l ->
  exists g rs, convert_results m base l = Ok (Some (Block base (results_room l) g, base + 8)) /\
    c_syms g (base + 8) l rs /\ all_apart rs /\
    Forall (inside (base + 8) (base + results_room l)) rs /\
    free_syms (Block base (results_room l) g) (base + 8) = Ok (base, results_room l).
Proof.
  intros m base l (H0 & Ha & Hend) Hfit Hok. unfold convert_results.
  assert (Hf := Hfit). unfold fits, results_room in Hf.
  assert (L64 : two64 = 2 ^ 64) by reflexivity.
  rewrite totals_ok by lia. cbn [bind]. rewrite !N.add_0_l. rewrite size_syms, size_sym, size_inlined.
  rewrite add64_ok by lia. cbn [bind]. rewrite add64_ok by lia. cbn [bind].
  rewrite mul64_ok by lia. cbn [bind]. rewrite add64_ok by lia. cbn [bind].
  rewrite mul64_ok by lia. cbn [bind]. rewrite add64_ok by lia. cbn [bind].
  replace (8 + sum_room result_room l + 8 + 104 * nlen l + 48 * sum_room result_inlined l)
    with (results_room l) by (unfold results_room; lia).
  rewrite layout8_ok by auto. cbn [bind]. destruct (N.eqb_spec base 0); [lia|].
  assert (R : results_room l = 16 + 104 * nlen l + 48 * sum_room result_inlined l + sum_room result_room l)
    by reflexivity.
  set (SZ := results_room l) in *. unfold alloc, put64.
  destruct (putn_ok 8 8 base SZ base SZ (fun _ => None)) as (g1 & E1 & N1 & F1); auto; try lia.
  rewrite E1. cbn [bind]. clear E1. change (offset_of syms_ty 0) with 0. change (offset_of syms_ty 1) with 8.
  rewrite N.add_0_r.
  destruct (putn_ok 8 8 (base + 8) (nlen l) base SZ g1) as (g2 & E2 & N2 & F2); try lia; try aligns.
  rewrite E2. cbn [bind]. clear E2.
  destruct (convert_all_ok l (base + 8 + 8) base SZ g2 (base + 8 + 8 + 104 * nlen l)
              (base + 8 + 8 + 104 * nlen l + 48 * sum_room result_inlined l))
    as (g3 & rs & E3 & S3 & F3 & Z3 & A3); try lia; auto.
  rewrite E3. cbn [bind cu_block]. clear E3.
  exists g3, ((base + 8, 8) :: rs). split; [reflexivity|].
  assert (In3 : Forall (inside (base + 8 + 8) (base + SZ)) rs).
  { eapply zoned_inside; [exact Z3|lia..]. }
  split.
  { exists rs. split; [|split; [exact S3|reflexivity]]. eapply num_agree; [exact N2|].
    intros i Hi. change (N.of_nat 8) with 8 in Hi. apply F3; lia. }
  split. { constructor; auto. eapply Forall_impl; [|exact In3]. intros r (Hr & _). left. simpl. lia. }
  split. { constructor; [split; simpl; lia|]. eapply Forall_impl; [|exact In3]. intros r (Hr & Hr2). split; lia. }
  apply free_ok; [|unfold fits in Hfit; lia].
  eapply num_agree; [exact N1|]. intros i Hi. change (N.of_nat 8) with 8 in Hi.
  rewrite F3, F2 by lia. reflexivity.
Qed.
Print Assumptions C48_results.

(** The same for a symbol that comes with normalized addresses. *)
Lemma meta_size_ok : forall m s, fits (8 + 104 + 48 * nlen (sy_inlined s) + sym_room s) ->
  meta_sym_size m s = Ok (8 + 104 + 48 * nlen (sy_inlined s) + sym_room s).
Proof.
  intros m s Hfit. assert (Hf := Hfit). unfold fits in Hf. unfold meta_sym_size.
  assert (L64 : two64 = 2 ^ 64) by reflexivity.
  rewrite sym_size_ok by lia. cbn [bind]. rewrite size_sym, size_inlined.
  rewrite add64_ok by lia. cbn [bind]. rewrite mul64_ok by lia. cbn [bind].
  rewrite add64_ok by lia. cbn [bind]. rewrite add64_ok by lia. cbn [bind].
  rewrite (N.mul_comm (nlen (sy_inlined s)) 48). now rewrite layout8_ok.
Qed.
Theorem C48_meta_sym : forall m base s,
  let size := 8 + 104 + 48 * nlen (sy_inlined s) + sym_room s in
  place base size -> fits size -> sym_ok s ->
  exists g rs, convert_meta_sym m base s = Ok (Block base size g, base + 8) /\
    c_sym g (base + 8) (Known s) rs /\ all_apart rs /\ Forall (inside (base + 8) (base + size)) rs /\
    free_syms (Block base size g) (base + 8) = Ok (base, size).
Proof.
  intros m base s size (H0 & Ha & Hend) Hfit Hok. unfold convert_meta_sym. rewrite meta_size_ok by auto. cbn [bind].
  assert (Hf := Hfit). unfold fits in Hf. subst size.
  assert (L64 : two64 = 2 ^ 64) by reflexivity. rewrite size_sym, size_inlined.
  destruct (N.eqb_spec base 0); [lia|].
  set (SZ := 8 + 104 + 48 * nlen (sy_inlined s) + sym_room s) in *. unfold alloc, put64.
  destruct (putn_ok 8 8 base SZ base SZ (fun _ => None)) as (g1 & E1 & N1 & F1); auto; try lia.
  rewrite E1. cbn [bind]. clear E1.
  destruct (convert_sym_ok s (base + 8) base SZ g1 (base + 8 + 104) (base + 8 + 104 + 48 * nlen (sy_inlined s)))
    as (g3 & rs & E3 & S3 & F3 & Z3 & A3); try lia; auto.
  rewrite E3. cbn [bind cu_block]. clear E3.
  exists g3, rs. split; [reflexivity|]. split; auto. split; auto.
  split. { eapply zoned_inside; [exact Z3|lia..]. }
  apply free_ok; [|lia].
  eapply num_agree; [exact N1|]. intros i Hi. change (N.of_nat 8) with 8 in Hi.
  rewrite F3 by lia. reflexivity.
Qed.
Print Assumptions C48_meta_sym.

(** Symbols looked up by name: an array with a pointer for each name, to an
    array of the symbols found that ends with one whose members are zero. *)
Theorem C48_infos : forall m base l, place base (lists_room l) -> fits (lists_room l) -> Forall (Forall info_ok) l ->
  exists g rs, convert_syms_list m base l = Ok (Some (Block base (lists_room l) g, base + 8)) /\
    c_lists g (base + 8) l rs /\ all_apart rs /\
    Forall (inside (base + 8) (base + lists_room l)) rs /\
    free_syms (Block base (lists_room l) g) (base + 8) = Ok (base, lists_room l).
Proof.
  intros m base l (H0 & Ha & Hend) Hfit Hok. unfold convert_syms_list.
  assert (Hf := Hfit). unfold fits, lists_room in Hf. fold list_infos in Hf.
  assert (L64 : two64 = 2 ^ 64) by reflexivity.
  rewrite (sum_ok _ _ _ list_infos).
  2: { lia. }
  2: { intros x Hx. now apply add64_ok. }
  cbn [bind].
  rewrite (sum_ok _ _ _ (sum_room info_room)).
  2: { lia. }
  2: { intros x Hx. apply (sum_ok _ _ _ info_room); auto. intros y Hy. now apply info_size_ok. }
  cbn [bind]. rewrite !N.add_0_l.
  rewrite mul64_ok by lia. cbn [bind].
  replace ((8 * nlen l + 7) / 8) with (nlen l).
  2: { rewrite N.mul_comm. rewrite N.div_add_l by discriminate. change (7 / 8) with 0. lia. }
  rewrite mul64_ok by lia. cbn [bind]. rewrite size_info.
  rewrite mul64_ok by lia. cbn [bind]. rewrite add64_ok by lia. cbn [bind].
  rewrite add64_ok by lia. cbn [bind]. rewrite add64_ok by lia. cbn [bind].
  replace (8 + nlen l * 8 + 64 * sum_room list_infos l + sum_room (sum_room info_room) l)
    with (lists_room l) by (unfold lists_room; fold list_infos; lia).
  rewrite layout8_ok by auto. cbn [bind]. destruct (N.eqb_spec base 0); [lia|].
  assert (R : lists_room l = 8 + 8 * nlen l + 64 * sum_room list_infos l + sum_room (sum_room info_room) l)
    by reflexivity.
  set (SZ := lists_room l) in *. unfold alloc, put64.
  destruct (putn_ok 8 8 base SZ base SZ (fun _ => None)) as (g1 & E1 & N1 & F1); auto; try lia.
  rewrite E1. cbn [bind]. clear E1.
  destruct (convert_lists_ok l (base + 8) base SZ g1 (base + 8 + nlen l * 8)
              (base + 8 + nlen l * 8 + 64 * sum_room list_infos l))
    as (g3 & rs & E3 & S3 & F3 & Z3 & A3); try lia; auto.
  rewrite E3. cbn [bind cu_block]. clear E3.
  exists g3, rs. split; [reflexivity|]. split; auto. split; auto.
  split. { eapply zoned_inside; [exact Z3|lia..]. }
  apply free_ok; [|lia].
  eapply num_agree; [exact N1|]. intros i Hi. change (N.of_nat 8) with 8 in Hi.
  rewrite F3 by lia. reflexivity.
Qed.
Print Assumptions C48_infos.

(** Running out of memory is reported as [NULL]. *)
Theorem C48_no_memory : forall m l i, fits (results_room l) -> fits (lists_room i) ->
  convert_results m 0 l = Ok None /\ convert_syms_list m 0 i = Ok None.
Proof.
  intros m l i Hf Hi. unfold fits in *. assert (L64 : two64 = 2 ^ 64) by reflexivity. split.
  - unfold results_room in Hf. unfold convert_results.
    rewrite totals_ok by lia. cbn [bind]. rewrite !N.add_0_l. rewrite size_syms, size_sym, size_inlined.
    rewrite add64_ok by lia. cbn [bind]. rewrite add64_ok by lia. cbn [bind].
    rewrite mul64_ok by lia. cbn [bind]. rewrite add64_ok by lia. cbn [bind].
    rewrite mul64_ok by lia. cbn [bind]. rewrite add64_ok by lia. cbn [bind].
    rewrite layout8_ok by (unfold fits; lia). reflexivity.
  - unfold lists_room in Hi. fold list_infos in Hi. unfold convert_syms_list.
    rewrite (sum_ok _ _ _ list_infos).
    2: { lia. }
    2: { intros x Hx. now apply add64_ok. }
    cbn [bind].
    rewrite (sum_ok _ _ _ (sum_room info_room)).
    2: { lia. }
    2: { intros x Hx. apply (sum_ok _ _ _ info_room); auto. intros y Hy. now apply info_size_ok. }
    cbn [bind]. rewrite !N.add_0_l.
    rewrite mul64_ok by lia. cbn [bind].
    replace ((8 * nlen i + 7) / 8) with (nlen i).
    2: { rewrite N.mul_comm. rewrite N.div_add_l by discriminate. change (7 / 8) with 0. lia. }
    rewrite mul64_ok by lia. cbn [bind]. rewrite size_info.
    rewrite mul64_ok by lia. cbn [bind]. rewrite add64_ok by lia. cbn [bind].
    rewrite add64_ok by lia. cbn [bind]. rewrite add64_ok by lia. cbn [bind].
    rewrite layout8_ok by (unfold fits; lia). reflexivity.
Qed.
Print Assumptions C48_no_memory.

(** Two results, the first with a module, a location and two inlined calls. *)
Definition demo_sym : sym :=
  Sym [109; 97; 105; 110] (Some [47; 97]) 4096 18 (Some 64)
    (Some (CodeInfo (Some [47; 115]) [102; 46; 99] (Some 7) (Some 3)))
    [InlinedFn [105] None; InlinedFn [106; 0; 107] (Some (CodeInfo None [103] (Some 9) None))].
Definition demo : list symbolized := [Known demo_sym; Unknown MissingSyms].
Fixpoint show (g : N -> option N) (a : N) (n : nat) : list (option N) :=
  match n with O => [] | S n => g a :: show g (a + 1) n end.
Definition run (r : res (option (block * N))) (off : N) (n : nat) : option (list (option N)) :=
  match r with Ok (Some (b, p)) => Some (show (blk_get b) (p + off) n) | _ => None end.
Example demo_layout :
  let r := convert_results Checked 65536 demo in
  results_room demo = 343 /\
  (* the name of the symbol is at 65536 + 320 *)
  run r 8 8 = Some (map Some (le_bytes 8 65856)) /\
  run r 312 5 = Some (map Some [109; 97; 105; 110; 0]) /\
  (* two inlined functions at 65536 + 224 *)
  run r 80 16 = Some (map Some (le_bytes 8 2 ++ le_bytes 8 65760)) /\
  (* the reason of the second result *)
  run r (8 + 104 + 88) 1 = Some [Some 4].
Proof. repeat split; vm_compute; reflexivity. Qed.
Example demo_ok : place 65536 (results_room demo) /\ fits (results_room demo) /\ Forall result_ok demo.
Proof.
  split; [split; [reflexivity|split; [reflexivity|vm_compute; discriminate]]|].
  split; [vm_compute; discriminate|].
  repeat constructor; simpl; auto; reflexivity.
Qed.
Example demo_freed : match convert_results Checked 65536 demo with
  | Ok (Some (b, p)) => free_syms b p = Ok (65536, 343)
  | _ => False
  end.
Proof. vm_compute. reflexivity. Qed.
(** A name with a zero byte is cut. *)
Example demo_cut : c_string [106; 0; 107] = [106].
Proof. reflexivity. Qed.

Definition demo_infos : list (list sym_info) :=
  [[SymInfo [97] 4096 None TFunction (Some 64) (Some [47])]; []; [SymInfo [98] 8 (Some (2 ^ 63)) TVariable None None]].
Example demo_infos_layout :
  let r := convert_syms_list Checked 65536 demo_infos in
  lists_room demo_infos = 358 /\
  run r 0 24 = Some (map Some (le_bytes 8 65568 ++ le_bytes 8 65696 ++ le_bytes 8 65760)) /\
  (* size -1, offset 64 *)
  run r 40 16 = Some (map Some (le_bytes 8 (2 ^ 64 - 1) ++ le_bytes 8 64)) /\
  run r (24 + 320) 6 = Some (map Some [97; 0; 47; 0; 98; 0]).
Proof. repeat split; vm_compute; reflexivity. Qed.

(** ** What does not hold *)

(** Not every byte of the result is initialised: the members [reserved] of
    symbols that were found are left as the allocator returned them, where for
    unknown symbols they are zero. *)
Theorem C48_reserved_refuted : exists base l g i,
  place base (results_room l) /\ Forall result_ok l /\
  convert_results Wrapping base l = Ok (Some (Block base (results_room l) g, base + 8)) /\
  base <= i < base + results_room l /\ g i = None.
Proof.
  destruct (C48_results Wrapping 65536 demo) as (g & rs & E & _); try apply demo_ok.
  exists 65536, demo, g, (65536 + 16 + 89).
  split; [apply demo_ok|]. split; [apply demo_ok|]. split; auto.
  split; [vm_compute; split; [discriminate|reflexivity]|].
  vm_compute in E. injection E as <-. reflexivity.
Qed.
Print Assumptions C48_reserved_refuted.

(** A symbol without file offset cannot be told from one at file offset zero,
    nor sizes beyond [2^63 - 1] from each other. *)
Theorem C48_offset_refuted : exists l l', l <> l' /\ Forall (Forall info_ok) l /\ Forall (Forall info_ok) l' /\
  forall m base, convert_syms_list m base l = convert_syms_list m base l'.
Proof.
  exists [[SymInfo [97] 4096 (Some 8) TFunction None None]], [[SymInfo [97] 4096 (Some 8) TFunction (Some 0) None]].
  split; [discriminate|]. split; [repeat constructor|]. split; [repeat constructor|]. reflexivity.
Qed.
Print Assumptions C48_offset_refuted.
Theorem C48_size_refuted : exists s s', s <> s' /\ sym_ok s /\ sym_ok s' /\
  forall m base, convert_results m base [Known s] = convert_results m base [Known s'].
Proof.
  exists (Sym [97] None 0 0 (Some (2 ^ 63 - 1)) None []), (Sym [97] None 0 0 (Some (2 ^ 63)) None []).
  split; [discriminate|]. split; [repeat constructor|]. split; [repeat constructor|]. reflexivity.
Qed.
Print Assumptions C48_size_refuted.
