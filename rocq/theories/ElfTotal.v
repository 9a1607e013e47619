(** * ELF files that are corrupt *)

From Verif Require Import Base Lists Util UtilProofs Total Bytes Text Sym Inspect ByName Gsym Elf ElfSpec ElfFormat ElfProofs.
Local Open Scope N_scope.

Definition ext_total (x : ext) : Prop := forall d, safe (x_zlib x d) /\ safe (x_zstd x d) /\ safe (x_xz x d).

Create HintDb tot.
Ltac tot :=
  repeat first
    [ solve [auto 2 with tot nocore]
    | apply total_ok | apply total_err | apply total_of_option
    | apply total_ok_or | apply total_read_slice | apply total_uadd | apply total_usub
    | apply total_bind; [|let a := fresh "a" in let E := fresh "E" in intros a E]
    | progress (cbv beta iota)
    | match goal with
      | |- total _ (let (_, _) := ?a in _) => destruct a
      | |- total _ (if ?c then _ else _) => let E := fresh "Ec" in destruct c eqn:E
      | |- total _ (match ?c with _ => _ end) => let E := fresh "Ec" in destruct c eqn:E
      end ].

Section Mem.
  Variables (x : ext) (m : mode) (ptr : N) (data : list N).
  Hypothesis Hx : ext_total x.

  Local Notation b := (Mem ptr data).

  Lemma total_read_pod_obj : forall size al off, total m (read_pod_obj b size al off).
  Proof. intros. unfold read_pod_obj. tot. Qed.
  Local Hint Resolve total_read_pod_obj : tot.
  Lemma total_read_pod_slice : forall size al off count, total m (read_pod_slice b size al off count).
  Proof.
    intros. unfold read_pod_slice. tot.
  Qed.
  Local Hint Resolve total_read_pod_slice : tot.
  Lemma total_read_bytes : forall off count, total m (read_bytes b off count).
  Proof. intros. unfold read_bytes. tot. Qed.
  Local Hint Resolve total_read_bytes : tot.
  Lemma total_read_first_shdr : forall eh, total m (read_first_shdr b eh).
  Proof. intros. unfold read_first_shdr. tot; auto with tot. Qed.
  Local Hint Resolve total_read_first_shdr : tot.
  Lemma total_parse_ehdr : total m (parse_ehdr b).
  Proof.
    unfold parse_ehdr. apply total_bind; [apply total_read_bytes|]. intros ident E.
    destruct (negb _); [apply total_err|].
    assert (Hl : exists v, nnth 4 ident = Some v).
    { apply nnth_lt_some. unfold read_bytes in E. ib E r Er. ib E [d z] Ed. injection E as <-.
      apply ok_or_ok_inv, read_slice_ok in Ed. destruct Ed as (-> & -> & _). reflexivity. }
    destruct Hl as [v ->]. cbn [unwrap bind].
    tot; auto with tot.
  Qed.
  Local Hint Resolve total_parse_ehdr : tot.
  Lemma total_parse_shdrs : total m (parse_shdrs b).
  Proof. unfold parse_shdrs. tot; auto with tot. Qed.
  Local Hint Resolve total_parse_shdrs : tot.
  Lemma total_parse_phdrs : total m (parse_phdrs b).
  Proof. unfold parse_phdrs. tot; auto with tot. Qed.
  Local Hint Resolve total_parse_phdrs : tot.
  Lemma total_section_hdr : forall i, total m (section_hdr b i).
  Proof. intros. unfold section_hdr. tot; auto with tot. Qed.
  Local Hint Resolve total_section_hdr : tot.
  Lemma total_section_data_raw : forall i, total m (section_data_raw b i).
  Proof. intros. unfold section_data_raw. tot; auto with tot. Qed.
  Local Hint Resolve total_section_data_raw : tot.
  Lemma total_section_data : forall i, total m (section_data x m b i).
  Proof.
    intros. unfold section_data.
    apply total_bind; [apply total_section_hdr|]. intros sh _. destruct (negb _); [|apply total_ok].
    apply total_bind; [apply total_parse_ehdr|]. intros eh _.
    apply total_bind; [apply total_read_bytes|]. intros d _. destruct (negb _); [|apply total_ok].
    apply total_bind; [tot|]. intros [[ty sz] r] _. apply total_bind.
    - destruct (ty =? 1); [apply safe_total, Hx|]. destruct (ty =? 2); [apply safe_total, Hx|apply total_err].
    - intros out _. destruct m; [|apply total_ok]. destruct (_ =? _); [apply total_ok|]. split; discriminate.
  Qed.
  Local Hint Resolve total_section_data : tot.
  Lemma total_parse_shstrtab : total m (parse_shstrtab b).
  Proof.
    unfold parse_shstrtab, shstrndx. tot; auto with tot.
  Qed.
  Local Hint Resolve total_parse_shstrtab : tot.
  Lemma total_str_at : forall s o, total m (str_at s o).
  Proof. intros. unfold str_at. tot; auto with tot. Qed.
  Local Hint Resolve total_str_at : tot.
  Lemma total_to_str : forall s, total m (to_str s).
  Proof. intros. unfold to_str. tot. Qed.
  Local Hint Resolve total_to_str : tot.
  Lemma total_section_name : forall i, total m (section_name b i).
  Proof.
    intros. unfold section_name. tot; auto with tot.
  Qed.
  Local Hint Resolve total_section_name : tot.
  Lemma total_find_section : forall n, total m (find_section b n).
  Proof.
    intros n. unfold find_section. tot; auto with tot.
    generalize (tl a0) 1. intros l. induction l as [|s l IH]; intros i; cbn [find_section_loop]; [apply total_ok|].
    apply total_bind; [apply total_section_name|]. intros s' _. destruct (beq s' n); [apply total_ok|apply IH].
  Qed.
  Local Hint Resolve total_find_section : tot.
  Lemma total_parse_section_data : forall T size (dec : bool -> list N -> T) i, total m (parse_section_data size dec b i).
  Proof.
    intros. unfold parse_section_data. tot; auto with tot.
  Qed.
  Local Hint Resolve total_parse_section_data : tot.
  Lemma total_parse_syms : forall n, total m (parse_syms b n).
  Proof.
    intros. unfold parse_syms, parse_syms_for_idx. tot; auto with tot.
  Qed.
  Local Hint Resolve total_parse_syms : tot.
  Lemma total_parse_strs : forall n, total m (parse_strs b n).
  Proof.
    intros. unfold parse_strs. tot; auto with tot.
  Qed.
  Local Hint Resolve total_parse_strs : tot.
End Mem.
Global Hint Resolve total_read_pod_obj total_read_pod_slice total_read_bytes total_read_first_shdr total_parse_ehdr total_parse_shdrs total_parse_phdrs total_section_hdr total_section_data_raw total_section_data total_parse_shstrtab total_str_at total_to_str total_section_name total_find_section total_parse_section_data total_parse_syms total_parse_strs : tot.


Section Lookups.
  Variables (x : ext) (m : mode) (ptr : N) (data : list N).
  Hypotheses (Hx : ext_total x) (Hsort : sorts x).
  Local Notation b := (Mem ptr data).

  Lemma total_ensure_symtab : total m (ensure_symtab x b).
  Proof.
    unfold ensure_symtab. apply total_bind; [apply total_parse_syms|]. intros syms _.
    apply total_bind; [apply total_parse_strs|]. intros strs _. destruct syms; [|apply total_ok].
    apply total_bind.
    - unfold parse_debugdata. tot; auto with tot. apply safe_total, Hx.
    - intros [|d0 d] _; [apply total_ok|].
      apply total_bind; [apply total_parse_syms|]. intros syms _.
      apply total_bind; [apply total_parse_strs|]. intros; apply total_ok.
  Qed.
  Lemma total_ensure_dynsym : total m (ensure_dynsym b).
  Proof. unfold ensure_dynsym. tot; auto with tot. Qed.

  Lemma total_find_sym : forall module idx strs kind addr ty, total m (find_sym m module idx strs kind addr ty).
  Proof.
    intros. unfold find_sym. destruct (find_match_or_lower_bound_by_key idx addr st_value) as [i|]; [|apply total_ok].
    generalize (skipn i idx). intros l. induction l as [|s l IH]; cbn [find_sym_loop]; [apply total_ok|].
    destruct (addr <? st_value s); [apply total_ok|].
    apply total_bind; [tot|]. intros ma _. destruct (_ && _); [|exact IH].
    unfold symbol_name. tot; auto with tot.
  Qed.

  Definition good_idx (l : list (list N * esym)) : Prop := Forall (fun p => supported (snd p)) l.

  Lemma total_str2sym : forall t keep, (forall s, supported s -> total m (keep s)) ->
    total m (str2sym x t keep) /\ forall l, str2sym x t keep = Ok l -> good_idx l.
  Proof.
    intros t keep Hk.
    assert (H : forall l, Forall supported l -> total m (name_syms (t_strs t) keep l) /\
                  forall r, name_syms (t_strs t) keep l = Ok r -> good_idx r).
    { induction l as [|s l IH]; intros Hl; cbn [name_syms].
      - split; [apply total_ok|]. intros r [= <-]. constructor.
      - inversion Hl as [|? ? H1 H2]; subst. destruct (IH H2) as [IH1 IH2]. split.
        + apply total_bind; [now apply Hk|]. intros k _. destruct k; [|exact IH1].
          apply total_bind; [apply total_str_at|]. intros n _. apply total_bind; [exact IH1|]. intros; apply total_ok.
        + intros r Hr. ib Hr k Ek. destruct k; [|now apply IH2]. ib Hr n En. ib Hr r' Er. injection Hr as <-.
          constructor; auto. now apply IH2. }
    assert (Hb : Forall supported (by_addr x t)).
    { apply Forall_forall. intros s Hs. apply by_addr_in in Hs; tauto. }
    destruct (H _ Hb) as [H1 H2]. unfold str2sym. split.
    - apply total_bind; [exact H1|]. intros; apply total_ok.
    - intros l Hl. ib Hl r Er. injection Hl as <-. apply H2 in Er. unfold good_idx in *.
      rewrite Forall_forall in *. intros p Hp. apply Er.
      eapply Permutation_in; [symmetry; apply (Hsort _ name_leb r name_leb_total name_leb_trans)|exact Hp].
  Qed.
  Lemma total_not_in_symtab : forall st s, supported s -> total m (not_in_symtab x m st s).
  Proof.
    intros st s Hs. unfold not_in_symtab. destruct (type_of_elf_spec s Hs) as (ty & -> & _). cbn [unwrap bind].
    pose proof (total_find_sym None (by_addr x st) (t_strs st) Symtab (st_value s) ty) as [H1 H2].
    destruct (find_sym _ _ _ _ _ _ _) as [[?|]|?| |]; try apply total_ok.
    - split; [discriminate|]. intros Hm. now apply H2 in Hm.
    - contradiction.
  Qed.
  Lemma total_file_offset : forall shdrs s, total m (file_offset m shdrs s).
  Proof. intros. unfold file_offset. tot. Qed.
  Lemma total_make_info : forall opts shdrs module n s, supported s -> total m (make_info m opts shdrs module n s).
  Proof.
    intros opts shdrs module n s Hs. unfold make_info. apply total_bind; [apply total_to_str|]. intros n' _.
    destruct (type_of_elf_spec s Hs) as (ty & -> & _). cbn [unwrap bind].
    apply total_bind; [|intros; apply total_ok]. destruct (fa_file_offset opts); [apply total_file_offset|apply total_ok].
  Qed.
  Lemma good_skipn : forall l i, good_idx l -> good_idx (skipn i l).
  Proof.
    intros l i H. unfold good_idx in *. rewrite Forall_forall in *. intros p Hp. apply H. eapply in_skipn, Hp.
  Qed.
  Lemma total_find_addr_impl : forall opts shdrs module name idx, good_idx idx ->
    total m (find_addr_impl m opts shdrs module name idx).
  Proof.
    intros opts shdrs module name idx Hg. unfold find_addr_impl.
    destruct (find_name_or_lower_bound idx name fst) as [i|]; [|apply total_ok].
    pose proof (good_skipn idx i Hg) as Hg'. revert Hg'. generalize (skipn i idx). intros l.
    induction l as [|[n s] l IH]; intros Hl; cbn [find_addr_loop]; [apply total_ok|].
    inversion Hl as [|? ? H1 H2]; subst. cbn [snd] in H1. destruct (negb (beq n name)); [apply total_ok|].
    destruct (negb _); [|now apply IH].
    apply total_bind; [now apply total_make_info|]. intros i' _. apply total_bind; [now apply IH|].
    intros; apply total_ok.
  Qed.
  Lemma total_for_each_loop : forall S opts shdrs (f : for_each_fn S) l state, good_idx l ->
    total m (for_each_loop m opts shdrs f l state).
  Proof.
    intros S opts shdrs f. induction l as [|[n s] l IH]; intros state Hl; cbn [for_each_loop]; [apply total_ok|].
    inversion Hl as [|? ? H1 H2]; subst. cbn [snd] in H1. destruct (_ && _); [|now apply IH].
    apply total_bind; [now apply total_make_info|]. intros i' _. destruct (f state i') as [st []]; [apply total_ok|].
    now apply IH.
  Qed.

  Theorem total_elf_find_sym : forall module addr, total m (elf_find_sym x m (Parser module b) addr).
  Proof.
    intros. unfold elf_find_sym. cbn [p_backend p_module].
    apply total_bind; [apply total_ensure_symtab|]. intros st _.
    apply total_bind; [apply total_find_sym|]. intros [?|] _; [apply total_ok|].
    apply total_bind; [apply total_ensure_dynsym|]. intros dt _.
    apply total_bind; [apply total_find_sym|]. intros [?|] _; apply total_ok.
  Qed.
  Theorem total_elf_find_addr : forall module opts name, total m (find_addr x m (Parser module b) opts name).
  Proof.
    intros. unfold find_addr. cbn [p_backend p_module].
    apply total_bind; [apply total_parse_shdrs|]. intros shdrs _.
    apply total_bind; [apply total_ensure_symtab|]. intros st _.
    destruct (total_str2sym st (fun _ => Ok true)) as [H1 H2]; [intros; apply total_ok|].
    apply total_bind; [exact H1|]. intros idx Ei.
    apply total_bind; [now apply total_find_addr_impl, H2|]. intros [|i l] _; [|apply total_ok].
    apply total_bind; [apply total_ensure_dynsym|]. intros dt _.
    destruct (total_str2sym dt (not_in_symtab x m st)) as [H3 H4]; [intros; now apply total_not_in_symtab|].
    apply total_bind; [exact H3|]. intros idx2 Ei2. now apply total_find_addr_impl, H4.
  Qed.
  Theorem total_elf_for_each : forall S module opts (f : for_each_fn S) state,
    total m (for_each x m (Parser module b) opts f state).
  Proof.
    intros. unfold for_each. cbn [p_backend p_module].
    apply total_bind; [apply total_ensure_symtab|]. intros st _.
    destruct (total_str2sym st (fun _ => Ok true)) as [H1 H2]; [intros; apply total_ok|].
    apply total_bind; [exact H1|]. intros idx Ei.
    apply total_bind; [unfold for_each_sym_impl; apply total_bind; [apply total_parse_shdrs|intros; now apply total_for_each_loop, H2]|].
    intros state' _.
    apply total_bind; [apply total_ensure_dynsym|]. intros dt _.
    destruct (total_str2sym dt (not_in_symtab x m st)) as [H3 H4]; [intros; now apply total_not_in_symtab|].
    apply total_bind; [exact H3|]. intros idx2 Ei2.
    unfold for_each_sym_impl. apply total_bind; [apply total_parse_shdrs|]. intros. now apply total_for_each_loop, H4.
  Qed.
  Theorem total_find_file_offset : forall addr size, total m (find_file_offset m b addr size).
  Proof.
    intros. unfold find_file_offset. apply total_bind; [apply total_parse_phdrs|]. intros l _.
    induction l as [|p l IH]; cbn [find_file_offset_loop]; [apply total_ok|].
    destruct (_ =? _); [|exact IH]. apply total_bind; [apply total_uadd|]. intros lim _.
    destruct (_ || _); [|exact IH]. tot.
  Qed.
  Theorem total_to_virt : forall off, total m (file_offset_to_virt_offset m b off).
  Proof.
    intros. unfold file_offset_to_virt_offset. apply total_bind; [apply total_parse_phdrs|]. intros l _.
    induction l as [|p l IH]; cbn [to_virt_loop]; [apply total_ok|].
    destruct (_ =? _); [|exact IH]. apply total_bind; [apply total_uadd|]. intros lim _.
    destruct (_ && _); [|exact IH]. tot.
  Qed.
End Lookups.
