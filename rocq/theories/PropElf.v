(** * ELF symbols and offsets

    Claims C27 to C30 of /verif/properties.jsonl. *)

From Coq Require Import String.
From Verif Require Import Base Util UtilProofs Bytes Text Nom Sym Inspect ByName Elf ElfSpec ElfFormat ElfProofs Total ElfTotal ElfExample.
Local Close Scope string_scope.
Local Open Scope N_scope.

(** ** C27: symbols by address *)

(** A table is searched through for the symbol starting closest to the
    address. The largest one starting there is preferred. It can be missed
    only if it is among several starting at the lowest address in the table,
    and then only if the smallest of these will not do (and only for addresses
    past the start). *)
Theorem C27_find_sym : forall x m module t kind addr type, sorts x -> in_space t -> names_ok t ->
  exists o, find_sym m module (by_addr x t) (t_strs t) kind addr type = Ok o /\
  match o with
  | Some r => exists s, closest_symbol kind t type addr s /\ reported module t s r /\
      (~ lowest t s \/ st_value s = addr -> largest kind t type addr s)
  | None => forall s, closest_symbol kind t type addr s ->
      lowest t s /\ st_value s <> addr /\
      exists z, In z (t_syms t) /\ supported z /\ st_value z = st_value s /\ st_size z <= st_size s /\
        ~ closest_symbol kind t type addr z
  end.
Proof.
  intros x m module t kind addr type Hx Hsp Hn.
  destruct (find_sym_spec x m module t kind addr type Hx Hsp) as [(s & Hc & -> & Hl)|[-> H]].
  - pose proof Hc as (H1 & H2 & _). destruct (describe_named module t s Hn H1 H2) as (r & -> & Hr).
    exists (Some r). split; auto. exists s. auto.
  - exists None. auto.
Qed.
Print Assumptions C27_find_sym.

(** Looking up an address in a file: the symbol table is used, then the table
    of dynamic symbols. *)
Theorem C27_symbolize : forall x m ptr data e st dt module addr,
  sorts x -> elf_file ptr data e -> symtab_of x e st -> dynsym_of e dt ->
  in_space st -> in_space dt -> names_ok st -> names_ok dt ->
  let missed kind t := forall z, closest_symbol kind t TUndefined addr z -> lowest t z /\ st_value z <> addr in
  exists r, elf_find_sym x m (Parser module (Mem ptr data)) addr = Ok r /\
  match r with
  | inl y =>
      (exists s, closest_symbol Symtab st TUndefined addr s /\ reported module st s y) \/
      (missed Symtab st /\ exists s, closest_symbol Dynsym dt TUndefined addr s /\ reported module dt s y)
  | inr why =>
      missed Symtab st /\ missed Dynsym dt /\
      why = match t_syms st with [] => MissingSyms | _ => UnknownAddr end
  end.
Proof.
  intros x m ptr data e st dt module addr Hx Hf Hst Hdt Hs1 Hs2 Hn1 Hn2 missed.
  unfold elf_find_sym. cbn [p_backend p_module].
  rewrite (ensure_symtab_ok x ptr data e st Hf Hst). cbn [bind].
  destruct (C27_find_sym x m module st Symtab addr TUndefined Hx Hs1 Hn1) as ([y|] & -> & H); cbn [bind].
  { exists (inl y). split; auto. left. destruct H as (s & ? & ? & _). eauto. }
  assert (Hm1 : missed Symtab st) by (intros z Hz; destruct (H z Hz) as (? & ? & _); auto).
  rewrite (ensure_dynsym_ok ptr data e dt Hf Hdt). cbn [bind].
  destruct (C27_find_sym x m module dt Dynsym addr TUndefined Hx Hs2 Hn2) as ([y|] & -> & H'); cbn [bind].
  { exists (inl y). split; auto. right. split; auto. destruct H' as (s & ? & ? & _). eauto. }
  assert (Hm2 : missed Dynsym dt) by (intros z Hz; destruct (H' z Hz) as (? & ? & _); auto).
  eexists. split; [reflexivity|]. cbv beta iota. auto.
Qed.
Print Assumptions C27_symbolize.

(** Tables start with an empty entry; symbols at addresses other than zero
    are not missed, and the largest one of those at the same address is
    preferred. *)
Theorem C27_found : forall x m ptr data e st module addr s,
  sorts x -> elf_file ptr data e -> symtab_of x e st -> in_space st -> names_ok st ->
  In (ESym 0 0 0 0 0 0) (t_syms st) ->
  closest_symbol Symtab st TUndefined addr s -> st_value s <> 0 ->
  exists y z, elf_find_sym x m (Parser module (Mem ptr data)) addr = Ok (inl y) /\
    closest_symbol Symtab st TUndefined addr z /\ reported module st z y /\
    largest Symtab st TUndefined addr z.
Proof.
  intros x m ptr data e st module addr s Hx Hf Hst Hs1 Hn1 Hnull Hc Hv.
  unfold elf_find_sym. cbn [p_backend p_module].
  rewrite (ensure_symtab_ok x ptr data e st Hf Hst). cbn [bind].
  assert (Hlow : forall z, closest_symbol Symtab st TUndefined addr z -> ~ lowest st z).
  { intros z Hz Hl. assert (Hle : st_value z <= 0) by (apply (Hl _ Hnull); right; right; reflexivity).
    destruct Hc as (Hc1 & Hc2 & _ & _ & (Hc5 & _) & _). destruct Hz as (_ & _ & _ & _ & _ & Hz).
    specialize (Hz s Hc1 Hc2 Hc5). lia. }
  destruct (C27_find_sym x m module st Symtab addr TUndefined Hx Hs1 Hn1) as ([y|] & -> & H); cbn [bind].
  - destruct H as (z & Hz & Hr & Hl). exists y, z. split; auto. split; auto.
  - exfalso. destruct (H s Hc) as [Hl _]. now apply (Hlow s).
Qed.
Print Assumptions C27_found.

(** The example: a program with two functions, a variable, and two exported
    symbols more *)
Definition s64 := syms_data false.
Definition ex_strs : list N := [0] ++ bs "main"%string ++ [0] ++ bs "helper"%string ++ [0] ++ bs "table"%string ++ [0].
Definition ex_st : symtab := SymTab
  [null_sym; ESym 1 18 0 1 4096 32; ESym 6 18 0 1 4128 16; ESym 13 17 0 1 4144 16; ESym 6 18 0 1 4136 8] ex_strs.
Definition ex_dstrs : list N := [0] ++ bs "puts"%string ++ [0] ++ bs "start"%string ++ [0] ++ bs "extra"%string ++ [0].
Definition ex_dt : symtab := SymTab
  [null_sym; ESym 1 18 0 0 0 0; ESym 6 18 0 1 4096 32; ESym 12 18 0 2 8192 8] ex_dstrs.
Definition ex_segs := [Phdr 1 5 176 4096 4096 64 64 4096; Phdr 1 6 240 8192 8192 16 32 4096].
Definition ex_made := make false 3 ex_segs
  [Input (bs ".text"%string) 1 4096 0 0 (repeat 144 64); Input (bs ".data"%string) 1 8192 0 0 (repeat 7 16);
   Input n_symtab 2 0 4 0 (s64 (t_syms ex_st)); Input n_strtab 3 0 0 0 ex_strs;
   Input n_dynsym 11 0 6 0 (s64 (t_syms ex_dt)); Input n_dynstr 3 0 0 0 ex_dstrs].
Definition ex_e := fst ex_made.
Definition ex_data := snd ex_made.
Definition ex_p := Parser (Some (bs "prog"%string)) (Mem 4096 ex_data).

Lemma ex_file : elf_file 4096 ex_data ex_e.
Proof. apply elf_file_check. vm_compute. reflexivity. Qed.
Lemma ex_symtab : symtab_of no_ext ex_e ex_st.
Proof. apply symtab_check; [vm_compute; reflexivity|discriminate]. Qed.
Lemma ex_dynsym : dynsym_of ex_e ex_dt.
Proof. apply table_check. vm_compute. reflexivity. Qed.
Lemma ex_names : names_ok ex_st /\ names_ok ex_dt.
Proof.
  split.
  - apply (names_check _ [[]; bs "main"%string; bs "helper"%string; bs "table"%string; bs "helper"%string]).
    vm_compute. reflexivity.
  - apply (names_check _ [[]; bs "puts"%string; bs "start"%string; bs "extra"%string]). vm_compute. reflexivity.
Qed.
Lemma ex_space : in_space ex_st /\ in_space ex_dt.
Proof. split; apply space_check; reflexivity. Qed.
Example C27_example :
  closest_symbol Symtab ex_st TUndefined 4100 (ESym 1 18 0 1 4096 32) /\
  elf_find_sym no_ext Checked ex_p 4100 =
    Ok (inl (ResolvedSym (bs "main"%string) (Some (bs "prog"%string)) 4096 (Some 32) LangUnknown None [])) /\
  elf_find_sym no_ext Checked ex_p 8193 =
    Ok (inl (ResolvedSym (bs "extra"%string) (Some (bs "prog"%string)) 8192 (Some 8) LangUnknown None [])) /\
  elf_find_sym no_ext Checked ex_p 8200 = Ok (inr UnknownAddr).
Proof.
  split; [|vm_compute; auto].
  split; [right; now left|]. split; [left; now left|]. split; [left; now left|]. split; [discriminate|].
  split; [split; [cbn; lia|]; left; split; [discriminate|reflexivity]|].
  intros z Hz Hs Hle. repeat destruct Hz as [<-|Hz]; try destruct Hz; cbn in *; lia.
Qed.

(** A function at address 0, as object files have them, is missed (other than
    at its start): it starts where the empty first symbol does. *)
Definition obj_st : symtab := SymTab [null_sym; ESym 1 18 0 1 0 32] ([0] ++ bs "f"%string ++ [0]).
Definition obj_made := make false 1 [] [Input (bs ".text"%string) 1 0 0 0 (repeat 144 32);
  Input n_symtab 2 0 3 0 (s64 (t_syms obj_st)); Input n_strtab 3 0 0 0 (t_strs obj_st)].
Theorem C27_missed_refuted : exists ptr data e st addr s,
  elf_file ptr data e /\ symtab_of no_ext e st /\ in_space st /\ names_ok st /\
  closest_symbol Symtab st TUndefined addr s /\ largest Symtab st TUndefined addr s /\
  elf_find_sym no_ext Checked (Parser None (Mem ptr data)) addr = Ok (inr UnknownAddr).
Proof.
  exists 0, (snd obj_made), (fst obj_made), obj_st, 16, (ESym 1 18 0 1 0 32).
  split; [apply elf_file_check; vm_compute; reflexivity|].
  split; [apply symtab_check; [vm_compute; reflexivity|discriminate]|].
  split; [apply space_check; reflexivity|].
  split; [apply (names_check _ [[]; bs "f"%string]); vm_compute; reflexivity|].
  split; [|split; [|vm_compute; reflexivity]].
  - split; [right; now left|]. split; [left; now left|]. split; [left; now left|]. split; [discriminate|].
    split; [split; [cbn; lia|]; left; split; [discriminate|reflexivity]|].
    intros z Hz Hs Hle. repeat destruct Hz as [<-|Hz]; try destruct Hz; cbn in *; lia.
  - intros z (Hz & _ & _ & Hd & _). repeat destruct Hz as [<-|Hz]; try destruct Hz; cbn in *; lia.
Qed.
Print Assumptions C27_missed_refuted.

(** Nested symbols: past the end of the inner one, the outer one is not
    found. *)
Definition nest_st : symtab := SymTab [null_sym; ESym 1 18 0 1 4096 64; ESym 3 18 0 1 4112 8]
  ([0] ++ bs "f"%string ++ [0] ++ bs "g"%string ++ [0]).
Definition nest_made := make false 1 [] [Input (bs ".text"%string) 1 4096 0 0 (repeat 144 64);
  Input n_symtab 2 0 3 0 (s64 (t_syms nest_st)); Input n_strtab 3 0 0 0 (t_strs nest_st)].
Theorem C27_nested_refuted : exists ptr data e st addr s,
  elf_file ptr data e /\ symtab_of no_ext e st /\ in_space st /\ names_ok st /\
  In s (t_syms st) /\ is_function s /\ defined s /\ covers Symtab s addr /\
  elf_find_sym no_ext Checked (Parser None (Mem ptr data)) addr = Ok (inr UnknownAddr).
Proof.
  exists 0, (snd nest_made), (fst nest_made), nest_st, 4128, (ESym 1 18 0 1 4096 64).
  split; [apply elf_file_check; vm_compute; reflexivity|].
  split; [apply symtab_check; [vm_compute; reflexivity|discriminate]|].
  split; [apply space_check; reflexivity|].
  split; [apply (names_check _ [[]; bs "f"%string; bs "g"%string]); vm_compute; reflexivity|].
  split; [right; now left|]. split; [now left|]. split; [discriminate|].
  split; [split; [cbn; lia|]; left; split; [discriminate|reflexivity]|]. vm_compute. reflexivity.
Qed.
Print Assumptions C27_nested_refuted.

(** A dynamic symbol without a size inside of another one hides it. *)
Definition hide_dt : symtab := SymTab [null_sym; ESym 1 18 0 1 4096 64; ESym 3 16 0 1 4112 0]
  ([0] ++ bs "f"%string ++ [0] ++ bs "g"%string ++ [0]).
Definition hide_made := make false 1 [] [Input (bs ".text"%string) 1 4096 0 0 (repeat 144 64);
  Input n_dynsym 11 0 3 0 (s64 (t_syms hide_dt)); Input n_dynstr 3 0 0 0 (t_strs hide_dt)].
Theorem C27_hidden_refuted : exists ptr data e dt addr s,
  elf_file ptr data e /\ dynsym_of e dt /\ in_space dt /\ names_ok dt /\
  In s (t_syms dt) /\ is_function s /\ defined s /\ covers Dynsym s addr /\
  (forall z, In z (t_syms dt) -> defined z -> covers Dynsym z addr -> z = s) /\
  elf_find_sym no_ext Checked (Parser None (Mem ptr data)) addr = Ok (inr MissingSyms).
Proof.
  exists 0, (snd hide_made), (fst hide_made), hide_dt, 4128, (ESym 1 18 0 1 4096 64).
  split; [apply elf_file_check; vm_compute; reflexivity|].
  split; [apply table_check; vm_compute; reflexivity|].
  split; [apply space_check; reflexivity|].
  split; [apply (names_check _ [[]; bs "f"%string; bs "g"%string]); vm_compute; reflexivity|].
  split; [right; now left|]. split; [now left|]. split; [discriminate|].
  split; [split; [cbn; lia|]; left; split; [discriminate|reflexivity]|]. split; [|vm_compute; reflexivity].
  intros z Hz Hd (Hv & Hc). repeat destruct Hz as [<-|Hz]; try destruct Hz; auto; cbn in *.
  - now contradiction Hd.
  - destruct Hc as [[Hc _]|[_ [Hc|Hc]]]; [lia|discriminate|lia].
Qed.
Print Assumptions C27_hidden_refuted.

(** A symbol extending past the end of the address space: a panic, or not
    found. *)
Definition over_st : symtab := SymTab [null_sym; ESym 1 18 0 1 (two64 - 8) 16] ([0] ++ bs "f"%string ++ [0]).
Definition over_made := make false 1 [] [Input (bs ".text"%string) 1 (two64 - 8) 0 0 (repeat 144 8);
  Input n_symtab 2 0 3 0 (s64 (t_syms over_st)); Input n_strtab 3 0 0 0 (t_strs over_st)].
Theorem C27_overflow_refuted : exists ptr data e st addr s,
  elf_file ptr data e /\ symtab_of no_ext e st /\ names_ok st /\ addr < two64 /\
  closest_symbol Symtab st TUndefined addr s /\
  elf_find_sym no_ext Checked (Parser None (Mem ptr data)) addr = Panic /\
  elf_find_sym no_ext Wrapping (Parser None (Mem ptr data)) addr = Ok (inr UnknownAddr).
Proof.
  exists 0, (snd over_made), (fst over_made), over_st, (two64 - 4), (ESym 1 18 0 1 (two64 - 8) 16).
  split; [apply elf_file_check; vm_compute; reflexivity|].
  split; [apply symtab_check; [vm_compute; reflexivity|discriminate]|].
  split; [apply (names_check _ [[]; bs "f"%string]); vm_compute; reflexivity|]. split; [reflexivity|].
  split; [|vm_compute; auto].
  split; [right; now left|]. split; [left; now left|]. split; [left; now left|]. split; [discriminate|].
  split; [split; [vm_compute; discriminate|]; left; split; [discriminate|reflexivity]|].
  intros z Hz Hs Hle. repeat destruct Hz as [<-|Hz]; try destruct Hz; vm_compute; discriminate.
Qed.
Print Assumptions C27_overflow_refuted.

(** ** C28: file offsets and virtual offsets *)

Theorem C28_to_virt : forall m ptr data e off, elf_file ptr data e -> segments_ok e ->
  (exists p, loads e p /\ in_file p off /\
     file_offset_to_virt_offset m (Mem ptr data) off = Ok (Some (off - p_offset p + p_vaddr p))) \/
  ((forall p, loads e p -> ~ in_file p off) /\ file_offset_to_virt_offset m (Mem ptr data) off = Ok None).
Proof.
  intros m ptr data e off Hf Hok. unfold file_offset_to_virt_offset.
  rewrite (parse_phdrs_ok ptr data e Hf). cbn [bind].
  destruct (to_virt_loop_ok m e Hok (i_segments e) off (incl_refl _)) as [(p & ? & _ & ? & ?)|[H1 H2]].
  - left. eauto.
  - right. split; auto. intros p Hp. apply H2; auto. apply Hp.
Qed.
Print Assumptions C28_to_virt.

(** An empty symbol may also be at the very end of a segment. *)
Theorem C28_to_file : forall m ptr data e addr size, elf_file ptr data e -> segments_ok e ->
  let P p := in_memory p addr \/ (size = 0 /\ addr = p_vaddr p + p_filesz p) in
  (exists p, loads e p /\ P p /\
     find_file_offset m (Mem ptr data) addr size = Ok (Some (addr - p_vaddr p + p_offset p))) \/
  ((forall p, loads e p -> ~ P p) /\ find_file_offset m (Mem ptr data) addr size = Ok None).
Proof.
  intros m ptr data e addr size Hf Hok P. unfold find_file_offset.
  rewrite (parse_phdrs_ok ptr data e Hf). cbn [bind].
  destruct (find_file_offset_loop_ok m e Hok (i_segments e) addr size (incl_refl _)) as [(p & ? & _ & ? & ?)|[H1 H2]].
  - left. eauto.
  - right. split; auto. intros p Hp. apply H2; auto. apply Hp.
Qed.
Print Assumptions C28_to_file.

(** Where segments do not overlap, the translations are inverse. *)
Theorem C28_inverse : forall m ptr data e off addr size, elf_file ptr data e -> segments_ok e ->
  memory_disjoint e -> size <> 0 ->
  file_offset_to_virt_offset m (Mem ptr data) off = Ok (Some addr) ->
  find_file_offset m (Mem ptr data) addr size = Ok (Some off).
Proof.
  intros m ptr data e off addr size Hf Hok Hd Hs H.
  destruct (C28_to_virt m ptr data e off Hf Hok) as [(p & Hp & Hi & E)|[_ E]]; rewrite E in H; [|discriminate].
  injection H as <-. destruct Hi as [H1 H2].
  assert (Hm : in_memory p (off - p_offset p + p_vaddr p)) by (unfold in_memory; lia).
  destruct (C28_to_file m ptr data e (off - p_offset p + p_vaddr p) size Hf Hok) as [(q & Hq & [Hi|[Hi _]] & ->)|[Hn _]].
  - rewrite <- (Hd p q _ Hp Hq Hm Hi). do 2 f_equal. lia.
  - contradiction.
  - exfalso. apply (Hn p Hp). now left.
Qed.
Print Assumptions C28_inverse.
Theorem C28_inverse_back : forall m ptr data e off addr size, elf_file ptr data e -> segments_ok e ->
  file_disjoint e -> size <> 0 ->
  find_file_offset m (Mem ptr data) addr size = Ok (Some off) ->
  file_offset_to_virt_offset m (Mem ptr data) off = Ok (Some addr).
Proof.
  intros m ptr data e off addr size Hf Hok Hd Hs H.
  destruct (C28_to_file m ptr data e addr size Hf Hok) as [(p & Hp & [Hi|[Hi _]] & E)|[_ E]];
    [|contradiction|]; rewrite E in H; [|discriminate].
  injection H as <-. destruct Hi as [H1 H2].
  assert (Hm : in_file p (addr - p_vaddr p + p_offset p)) by (unfold in_file; lia).
  destruct (C28_to_virt m ptr data e (addr - p_vaddr p + p_offset p) Hf Hok) as [(q & Hq & Hi & ->)|[Hn _]].
  - rewrite <- (Hd p q _ Hp Hq Hm Hi). do 2 f_equal. lia.
  - exfalso. now apply (Hn p Hp).
Qed.
Print Assumptions C28_inverse_back.

Example C28_example :
  segments_ok ex_e /\ memory_disjoint ex_e /\ file_disjoint ex_e /\
  file_offset_to_virt_offset Checked (Mem 4096 ex_data) 178 = Ok (Some 4098) /\
  find_file_offset Checked (Mem 4096 ex_data) 4098 1 = Ok (Some 178) /\
  find_file_offset Checked (Mem 4096 ex_data) 8207 1 = Ok (Some 255) /\
  find_file_offset Checked (Mem 4096 ex_data) 8208 1 = Ok None /\
  file_offset_to_virt_offset Checked (Mem 4096 ex_data) 8 = Ok None.
Proof.
  assert (Hl : forall p, loads ex_e p -> In p ex_segs) by (intros p [Hp _]; exact Hp).
  split; [|split; [|split]].
  - intros p Hp. apply Hl in Hp. repeat destruct Hp as [<-|Hp]; try destruct Hp; split; reflexivity.
  - intros p q a Hp Hq H1 H2. apply Hl in Hp, Hq. unfold in_memory in *.
    repeat destruct Hp as [<-|Hp]; try destruct Hp; repeat destruct Hq as [<-|Hq]; try destruct Hq; auto; cbn in *; lia.
  - intros p q a Hp Hq H1 H2. apply Hl in Hp, Hq. unfold in_file in *.
    repeat destruct Hp as [<-|Hp]; try destruct Hp; repeat destruct Hq as [<-|Hq]; try destruct Hq; auto; cbn in *; lia.
  - vm_compute. auto 10.
Qed.

(** For an empty symbol this is not so: at the start of a segment following
    another one immediately, the offset reported is the end of the latter. *)
Definition adj_made := make false 3 [Phdr 1 5 176 4096 4096 16 16 8; Phdr 1 6 240 4112 4112 16 16 8]
  [Input (bs ".text"%string) 1 4096 0 0 (repeat 144 80)].
Theorem C28_empty_refuted : exists ptr data e off addr,
  elf_file ptr data e /\ segments_ok e /\ memory_disjoint e /\ file_disjoint e /\
  file_offset_to_virt_offset Checked (Mem ptr data) off = Ok (Some addr) /\
  exists off', find_file_offset Checked (Mem ptr data) addr 0 = Ok (Some off') /\ off' <> off.
Proof.
  exists 0, (snd adj_made), (fst adj_made), 240, 4112.
  assert (Hl : forall p, loads (fst adj_made) p -> In p (i_segments (fst adj_made))) by (intros p [Hp _]; exact Hp).
  split; [apply elf_file_check; vm_compute; reflexivity|].
  split; [|split; [|split]].
  - intros p Hp. apply Hl in Hp. repeat destruct Hp as [<-|Hp]; try destruct Hp; split; reflexivity.
  - intros p q a Hp Hq H1 H2. apply Hl in Hp, Hq. unfold in_memory in *.
    repeat destruct Hp as [<-|Hp]; try destruct Hp; repeat destruct Hq as [<-|Hq]; try destruct Hq; auto; cbn in *; lia.
  - intros p q a Hp Hq H1 H2. apply Hl in Hp, Hq. unfold in_file in *.
    repeat destruct Hp as [<-|Hp]; try destruct Hp; repeat destruct Hq as [<-|Hq]; try destruct Hq; auto; cbn in *; lia.
  - split; [vm_compute; reflexivity|]. exists 192. split; [vm_compute; reflexivity|discriminate].
Qed.
Print Assumptions C28_empty_refuted.

(** Segments ending past the end of the address space panic, or hide what is
    there. *)
Definition ov_made := make false 3 [Phdr 1 5 120 (two64 - 8) 0 16 16 8] [Input (bs ".text"%string) 1 4096 0 0 (repeat 144 16)].
Theorem C28_overflow_refuted : exists ptr data e p addr,
  elf_file ptr data e /\ loads e p /\ in_memory p addr /\ addr < two64 /\
  find_file_offset Checked (Mem ptr data) addr 1 = Panic /\
  find_file_offset Wrapping (Mem ptr data) addr 1 = Ok None.
Proof.
  exists 0, (snd ov_made), (fst ov_made), (Phdr 1 5 120 (two64 - 8) 0 16 16 8), (two64 - 4).
  split; [apply elf_file_check; vm_compute; reflexivity|]. split; [split; [now left|reflexivity]|].
  split; [split; [vm_compute; discriminate|reflexivity]|]. split; [reflexivity|]. vm_compute. auto.
Qed.
Print Assumptions C28_overflow_refuted.

(** The file offset reported for a symbol (by its section) is the one found by
    segments, if the section is loaded as part of a segment. *)
Theorem C28_sections : forall m ptr data e t s sec p, elf_file ptr data e -> segments_ok e -> memory_disjoint e ->
  sections_ok e t -> In s (t_syms t) -> st_shndx s < 65280 ->
  nnth (st_shndx s) (i_sections e) = Some sec -> sh_type (s_hdr sec) <> SHT_NOBITS ->
  loads e p -> p_vaddr p <= sh_addr (s_hdr sec) ->
  sh_addr (s_hdr sec) + sh_size (s_hdr sec) <= p_vaddr p + p_filesz p ->
  sh_offset (s_hdr sec) + p_vaddr p = sh_addr (s_hdr sec) + p_offset p ->
  sh_addr (s_hdr sec) <= st_value s -> st_value s < sh_addr (s_hdr sec) + sh_size (s_hdr sec) ->
  st_value s + sh_offset (s_hdr sec) < two64 -> st_size s <> 0 ->
  exists off,
    file_offset m (map s_hdr (i_sections e)) s = Ok (Some off) /\
    find_file_offset m (Mem ptr data) (st_value s) (st_size s) = Ok (Some off).
Proof.
  intros m ptr data e t s sec p Hf Hok Hd Hsok Hi Hx Hn Hnb Hp H1 H2 H3 H4 H5 H6 H7.
  destruct (file_offset_ok m e t s Hsok Hi) as (o & -> & [[Ho _]|(_ & sec' & Hn' & Ho)]); [lia|].
  rewrite Hn in Hn'. injection Hn' as <-. cbv zeta in Ho. apply N.eqb_neq in Hnb. rewrite Hnb in Ho.
  specialize (Ho H4 H6). apply N.ltb_lt in H5. rewrite H5 in Ho. cbn [orb] in Ho. apply N.ltb_lt in H5.
  exists (st_value s - sh_addr (s_hdr sec) + sh_offset (s_hdr sec)). split; [now rewrite Ho|].
  assert (Hm : in_memory p (st_value s)) by (unfold in_memory; lia).
  destruct (C28_to_file m ptr data e (st_value s) (st_size s) Hf Hok) as [(q & Hq & [Hin|[Hin _]] & ->)|[Hno _]].
  - rewrite <- (Hd p q _ Hp Hq Hm Hin). do 2 f_equal. lia.
  - contradiction.
  - exfalso. apply (Hno p Hp). now left.
Qed.
Print Assumptions C28_sections.
Example C28_sections_example :
  file_offset Checked (map s_hdr (i_sections ex_e)) (ESym 6 18 0 1 4128 16) = Ok (Some 208) /\
  find_file_offset Checked (Mem 4096 ex_data) 4128 16 = Ok (Some 208).
Proof. vm_compute. auto. Qed.

(** ** C29: symbols by name *)

Lemma filter_filter : forall A (p q : A -> bool) l, filter p (filter q l) = filter (fun a => q a && p a) l.
Proof.
  intros A p q. induction l as [|a l IH]; [reflexivity|]. cbn [filter]. destruct (q a); cbn [filter andb].
  - destruct (p a); now rewrite IH.
  - exact IH.
Qed.
Lemma picks_impl : forall A (P Q P' Q' : A -> Prop) all l, picks P Q all l ->
  (forall a, In a all -> P a -> P' a) -> (forall a, In a all -> Q a -> Q' a) -> picks P' Q' all l.
Proof.
  intros A P Q P' Q' all l (rest & Hp & H1 & H2) HP HQ. exists rest. split; auto.
  rewrite Forall_forall in H1, H2. split; apply Forall_forall; intros a Ha.
  - apply HP; auto. eapply Permutation_in; [symmetry; exact Hp|]. apply in_or_app. auto.
  - apply HQ; auto. eapply Permutation_in; [symmetry; exact Hp|]. apply in_or_app. auto.
Qed.
Definition name_test (name : list N) (p : list N * esym) : bool := beq (fst p) name && is_defined (snd p).
Lemma is_defined_spec : forall s, is_defined s = true <-> defined s.
Proof. intros s. unfold is_defined, defined, SHN_UNDEF. rewrite negb_true_iff, N.eqb_neq. reflexivity. Qed.
Lemma name_test_spec : forall t name s n, has_name t s n ->
  (name_test name (n, s) = true <-> has_name t s name /\ defined s).
Proof.
  intros t name s n H. unfold name_test. cbn [fst snd]. rewrite andb_true_iff, is_defined_spec. split.
  - intros [H1 H2]. apply beq_eq in H1. subst. auto.
  - intros [H1 H2]. split; auto. apply beq_eq. apply (string_at_fun _ _ _ _ H H1).
Qed.

(** One table, by name *)
Lemma by_name : forall x m e t module opts keep name, sorts x -> names_ok t ->
  (fa_file_offset opts = true -> sections_ok e t) ->
  (forall s, In s (t_syms t) -> supported s -> exists b, keep s = Ok b) ->
  exists idx r l, str2sym x t keep = Ok idx /\
    find_addr_impl m opts (map s_hdr (i_sections e)) module name idx = Ok r /\
    picks (fun s => named_symbol t name s /\ kept keep s = true)
          (fun s => named_symbol t name s -> kept keep s = false) (t_syms t) l /\
    Forall2 (info_of e opts module t) l r.
Proof.
  intros x m e t module opts keep name Hx Hn Hok Hk.
  destruct (str2sym_ok x t keep Hx) as (idx & Hidx & Hs & Hall & Hp); auto.
  { intros s Hi Hs. destruct (Hn s Hi Hs) as (n & ? & _). eauto. }
  rewrite Hidx. exists idx. rewrite (find_addr_impl_infos _ _ _ _ _ _ Hs), filter_filter.
  fold (name_test name).
  destruct (infos_ok m opts e module t (filter (name_test name) idx) Hn Hok) as (r & -> & Hr).
  { rewrite Forall_forall in *. intros p Hi. apply filter_In in Hi. now apply Hall. }
  exists r, (map snd (filter (name_test name) idx)). split; auto. split; auto. split; auto.
  eapply picks_impl; [apply Hp|..]; cbv beta.
  - intros s _ (H1 & H2 & n & H3 & H4). apply (name_test_spec t) in H4; auto. unfold named_symbol. tauto.
  - intros s _ H (H1 & H2 & H3). destruct (kept keep s) eqn:Ek; auto.
    destruct (H H1 eq_refl) as (n & H4 & H5). exfalso.
    assert (E : name_test name (n, s) = true) by (apply (name_test_spec t); auto). congruence.
Qed.

(** The symbols found are exactly those of the table having the name. *)
Theorem C29_symtab : forall x m ptr data e st module opts name,
  sorts x -> elf_file ptr data e -> symtab_of x e st -> names_ok st ->
  (fa_file_offset opts = true -> sections_ok e st) ->
  (exists s, In s (t_syms st) /\ named_symbol st name s) ->
  exists r l, find_addr x m (Parser module (Mem ptr data)) opts name = Ok r /\
    picks_all (named_symbol st name) (t_syms st) l /\
    Forall2 (info_of e opts module st) l r.
Proof.
  intros x m ptr data e st module opts name Hx Hf Hst Hn Hok (s & Hi & Hs). unfold find_addr. cbn [p_backend p_module].
  rewrite (parse_shdrs_ok ptr data e Hf). cbn [bind]. rewrite (ensure_symtab_ok x ptr data e st Hf Hst). cbn [bind].
  destruct (by_name x m e st module opts (fun _ => Ok true) name Hx Hn Hok) as (idx & r & l & H1 & H2 & H3 & H4); [eauto|].
  unfold str2symtab. rewrite H1. cbn [bind]. rewrite H2. cbn [bind].
  assert (Hp : picks_all (named_symbol st name) (t_syms st) l).
  { eapply picks_impl; [exact H3|..]; cbv beta; [tauto|]. intros a _ Ha Hc. apply Ha in Hc. discriminate. }
  destruct r as [|i r]; [|eauto].
  exfalso. inversion H4; subst. destruct Hp as (rest & Hp & _ & Hr). rewrite Forall_forall in Hr.
  apply (Hr s); auto. eapply Permutation_in; [exact Hp|exact Hi].
Qed.
Print Assumptions C29_symtab.

(** If there are none, dynamic symbols are looked at: those found have the
    name, and only those are left out where the symbol table has another
    symbol at the address. *)
Theorem C29_dynsym : forall x m ptr data e st dt module opts name,
  sorts x -> elf_file ptr data e -> symtab_of x e st -> dynsym_of e dt -> names_ok st -> names_ok dt -> in_space st ->
  (fa_file_offset opts = true -> sections_ok e st /\ sections_ok e dt) ->
  (forall s, In s (t_syms st) -> ~ named_symbol st name s) ->
  exists r l, find_addr x m (Parser module (Mem ptr data)) opts name = Ok r /\
    picks (named_symbol dt name) (fun s => named_symbol dt name s -> shadowed st s) (t_syms dt) l /\
    Forall2 (info_of e opts module dt) l r /\
    (t_syms st = [] -> picks_all (named_symbol dt name) (t_syms dt) l).
Proof.
  intros x m ptr data e st dt module opts name Hx Hf Hst Hdt Hn Hn2 Hsp Hok Hno. unfold find_addr. cbn [p_backend p_module].
  rewrite (parse_shdrs_ok ptr data e Hf). cbn [bind]. rewrite (ensure_symtab_ok x ptr data e st Hf Hst). cbn [bind].
  destruct (by_name x m e st module opts (fun _ => Ok true) name Hx Hn) as (idx & r & l & H1 & H2 & H3 & H4); [intros; now apply Hok|eauto|].
  unfold str2symtab. rewrite H1. cbn [bind]. rewrite H2. cbn [bind].
  destruct r as [|i r].
  2: { exfalso. inversion H4 as [|s ? l' ? Hs]; subst. destruct H3 as (rest & Hp & Hl & _).
       inversion Hl as [|? ? [Hs' _]]; subst. apply (Hno s); auto.
       eapply Permutation_in; [symmetry; exact Hp|]. now left. }
  clear H1 H2 H3 H4 idx l. rewrite (ensure_dynsym_ok ptr data e dt Hf Hdt). cbn [bind].
  assert (Hk : forall s, supported s -> exists b, not_in_symtab x m st s = Ok b /\ (b = false -> shadowed st s) /\ (t_syms st = [] -> b = true))
    by (intros; now apply not_in_symtab_ok).
  destruct (by_name x m e dt module opts (not_in_symtab x m st) name Hx Hn2) as (idx & r & l & H1 & H2 & H3 & H4).
  { intros. now apply Hok. }
  { intros s _ Hs. destruct (Hk s Hs) as (b & ? & _). eauto. }
  unfold str2dynsym. rewrite H1. cbn [bind]. rewrite H2. exists r, l. split; auto. split; [|split; auto].
  - eapply picks_impl; [exact H3|..]; cbv beta; [tauto|]. intros s _ Ha Hc. specialize (Ha Hc).
    destruct (Hk s (proj1 Hc)) as (b & E & Hb & _). unfold kept in Ha. rewrite E in Ha. auto.
  - intros Hemp. eapply picks_impl; [exact H3|..]; cbv beta; [tauto|]. intros s _ Ha Hc. specialize (Ha Hc).
    destruct (Hk s (proj1 Hc)) as (b & E & _ & Hb). unfold kept in Ha. rewrite E, (Hb Hemp) in Ha. discriminate.
Qed.
Print Assumptions C29_dynsym.

Definition no_opts := FindAddrOpts false TUndefined.
Definition off_opts := FindAddrOpts true TUndefined.
Lemma ex_sections : sections_ok ex_e ex_st /\ sections_ok ex_e ex_dt.
Proof. split; apply sections_check; vm_compute; reflexivity. Qed.
Example C29_example :
  find_addr no_ext Checked ex_p off_opts (bs "helper"%string) = Ok
    [SymInfo (bs "helper"%string) 4128 (Some 16) TFunction (Some 208) (Some (bs "prog"%string));
     SymInfo (bs "helper"%string) 4136 (Some 8) TFunction (Some 216) (Some (bs "prog"%string))] /\
  find_addr no_ext Checked ex_p off_opts (bs "extra"%string) = Ok
    [SymInfo (bs "extra"%string) 8192 (Some 8) TFunction (Some 240) (Some (bs "prog"%string))] /\
  find_addr no_ext Checked ex_p off_opts (bs "puts"%string) = Ok [].
Proof. vm_compute. auto. Qed.

(** A dynamic symbol at the same address as a symbol (of another name) cannot
    be found. *)
Theorem C29_alias_refuted : exists x ptr data e st dt name s,
  sorts x /\ elf_file ptr data e /\ symtab_of x e st /\ dynsym_of e dt /\
  names_ok st /\ names_ok dt /\ in_space st /\
  In s (t_syms dt) /\ named_symbol dt name s /\
  find_addr x Checked (Parser None (Mem ptr data)) no_opts name = Ok [].
Proof.
  exists no_ext, 4096, ex_data, ex_e, ex_st, ex_dt, (bs "start"%string), (ESym 6 18 0 1 4096 32).
  split; [exact no_ext_sorts|]. split; [exact ex_file|]. split; [exact ex_symtab|]. split; [exact ex_dynsym|].
  split; [apply ex_names|]. split; [apply ex_names|]. split; [apply ex_space|].
  split; [right; right; now left|]. split.
  - split; [left; now left|]. split; [discriminate|]. apply string_b_ok. vm_compute. reflexivity.
  - vm_compute. reflexivity.
Qed.
Print Assumptions C29_alias_refuted.

(** The type of symbol asked for is not taken into account. *)
Theorem C29_type_refuted : exists x ptr data e st name i,
  sorts x /\ elf_file ptr data e /\ symtab_of x e st /\ names_ok st /\
  find_addr x Checked (Parser None (Mem ptr data)) (FindAddrOpts false TFunction) name = Ok [i] /\
  si_type i = TVariable.
Proof.
  exists no_ext, 4096, ex_data, ex_e, ex_st, (bs "table"%string),
    (SymInfo (bs "table"%string) 4144 (Some 16) TVariable None None).
  split; [exact no_ext_sorts|]. split; [exact ex_file|]. split; [exact ex_symtab|].
  split; [apply ex_names|]. split; vm_compute; reflexivity.
Qed.
Print Assumptions C29_type_refuted.

(** ** C30: all symbols *)

Definition wanted_symbol (type : sym_type) (s : esym) : Prop := supported s /\ of_type type s /\ defined s.

(** Symbols of both tables are visited, each once, those of the symbol table
    first. Dynamic symbols are left out only if the symbol table has a symbol
    for the address. *)
Theorem C30_visits : forall S x m ptr data e st dt module opts (f : for_each_fn S),
  sorts x -> elf_file ptr data e -> symtab_of x e st -> dynsym_of e dt -> names_ok st -> names_ok dt -> in_space st ->
  (fa_file_offset opts = true -> sections_ok e st /\ sections_ok e dt) ->
  exists l1 r1 l2 r2,
    picks_all (wanted_symbol (fa_sym_type opts)) (t_syms st) l1 /\
    Forall2 (info_of e opts None st) l1 r1 /\
    picks (wanted_symbol (fa_sym_type opts))
      (fun s => wanted_symbol (fa_sym_type opts) s -> shadowed st s) (t_syms dt) l2 /\
    Forall2 (info_of e opts None dt) l2 r2 /\
    forall state, for_each x m (Parser module (Mem ptr data)) opts f state =
      Ok (visit f r2 (visit f r1 state)).
Proof.
  intros S x m ptr data e st dt module opts f Hx Hf Hst Hdt Hn Hn2 Hsp Hok.
  unfold for_each. cbn [p_backend p_module].
  rewrite (ensure_symtab_ok x ptr data e st Hf Hst). cbn [bind].
  assert (Hk : forall s, supported s -> exists b, not_in_symtab x m st s = Ok b /\ (b = false -> shadowed st s) /\ (t_syms st = [] -> b = true))
    by (intros; now apply not_in_symtab_ok).
  destruct (str2sym_ok x st (fun _ => Ok true) Hx) as (idx & Hidx & _ & Hall & Hp); [|eauto|].
  { intros s Hi Hs. destruct (Hn s Hi Hs) as (n & ? & _). eauto. }
  destruct (str2sym_ok x dt (not_in_symtab x m st) Hx) as (idx2 & Hidx2 & _ & Hall2 & Hp2).
  { intros s Hi Hs. destruct (Hn2 s Hi Hs) as (n & ? & _). eauto. }
  { intros s _ Hs. destruct (Hk s Hs) as (b & ? & _). eauto. }
  set (tb := fun p : list N * esym => matches (fa_sym_type opts) (snd p) && is_defined (snd p)) in *.
  destruct (for_each_loop_ok S m opts e st f idx Hn (fun H => proj1 (Hok H)) Hall) as (r1 & Hr1 & Hv1).
  destruct (for_each_loop_ok S m opts e dt f idx2 Hn2 (fun H => proj2 (Hok H)) Hall2) as (r2 & Hr2 & Hv2).
  fold tb in Hr1, Hr2.
  assert (Htb : forall n s, tb (n, s) = true <-> of_type (fa_sym_type opts) s /\ defined s).
  { intros n s. unfold tb. cbn [snd]. rewrite andb_true_iff, matches_spec, is_defined_spec. reflexivity. }
  exists (map snd (filter tb idx)), r1, (map snd (filter tb idx2)), r2.
  split.
  { eapply picks_impl; [apply Hp|..]; cbv beta.
    - intros s _ (H1 & _ & n & _ & H4). apply Htb in H4. unfold wanted_symbol. tauto.
    - intros s _ H (H1 & H2). destruct (H H1 eq_refl) as (n & _ & H5). apply (Htb n) in H2. congruence. }
  split; auto. split.
  { eapply picks_impl; [apply Hp2|..]; cbv beta.
    - intros s _ (H1 & _ & n & _ & H4). apply Htb in H4. unfold wanted_symbol. tauto.
    - intros s _ H (H1 & H2). destruct (Hk s H1) as (b & Eb & Hb & _).
      destruct b; [|now apply Hb]. unfold kept in H. rewrite Eb in H.
      destruct (H H1 eq_refl) as (n & _ & H5). apply (Htb n) in H2. congruence. }
  split; auto. intros state. unfold str2symtab. rewrite Hidx. cbn [bind].
  unfold for_each_sym_impl. rewrite (parse_shdrs_ok ptr data e Hf). cbn [bind].
  rewrite Hv1. cbn [bind]. rewrite (ensure_dynsym_ok ptr data e dt Hf Hdt). cbn [bind].
  unfold str2dynsym. rewrite Hidx2. cbn [bind]. apply Hv2.
Qed.
Print Assumptions C30_visits.

(** What a function is shown before it asks to stop *)
Definition collect (f : list sym_info -> bool) (seen : list sym_info) (i : sym_info) : list sym_info * bool :=
  (seen ++ [i], f (seen ++ [i])).
Example C30_example :
  match for_each no_ext Checked ex_p no_opts (collect (fun _ => false)) [] with
  | Ok l => map si_addr l
  | _ => []
  end = [4128; 4136; 4096; 4144; 8192] /\
  match for_each no_ext Checked ex_p (FindAddrOpts false TVariable) (collect (fun _ => false)) [] with
  | Ok l => map si_name l
  | _ => []
  end = [bs "table"%string].
Proof. vm_compute. auto. Qed.

(** Asking to stop ends only the visit of the one table: dynamic symbols still
    follow. *)
Theorem C30_stop_refuted : exists x ptr data e st dt,
  sorts x /\ elf_file ptr data e /\ symtab_of x e st /\ dynsym_of e dt /\
  names_ok st /\ names_ok dt /\ in_space st /\
  exists i j, for_each x Checked (Parser None (Mem ptr data)) no_opts (collect (fun _ => true)) [] = Ok [i; j].
Proof.
  exists no_ext, 4096, ex_data, ex_e, ex_st, ex_dt.
  split; [exact no_ext_sorts|]. split; [exact ex_file|]. split; [exact ex_symtab|]. split; [exact ex_dynsym|].
  split; [apply ex_names|]. split; [apply ex_names|]. split; [apply ex_space|].
  eexists. eexists. vm_compute. reflexivity.
Qed.
Print Assumptions C30_stop_refuted.

(** ** No crashes *)

(** Whatever the bytes in memory are, no request ever panics in a release
    build, nor does it run forever, given decompressors that do not. *)
Theorem C27_total : forall x ptr data module, ext_total x -> sorts x ->
  let p := Parser module (Mem ptr data) in
  (forall addr, safe (elf_find_sym x Wrapping p addr)) /\
  (forall opts name, safe (find_addr x Wrapping p opts name)) /\
  (forall S opts (f : for_each_fn S) state, safe (for_each x Wrapping p opts f state)) /\
  (forall addr size, safe (find_file_offset Wrapping (Mem ptr data) addr size)) /\
  (forall off, safe (file_offset_to_virt_offset Wrapping (Mem ptr data) off)).
Proof.
  intros x ptr data module Hx Hs p. subst p.
  split; [|split; [|split; [|split]]]; intros; apply total_safe.
  - now apply total_elf_find_sym.
  - now apply total_elf_find_addr.
  - now apply total_elf_for_each.
  - apply total_find_file_offset.
  - apply total_to_virt.
Qed.
Print Assumptions C27_total.
Example C27_total_example :
  elf_find_sym no_ext Wrapping (Parser None (Mem 0 (ntake 100 ex_data))) 4096 = Err EInvalidData /\
  elf_find_sym no_ext Wrapping (Parser None (Mem 1 ex_data)) 4096 = Err EInvalidData.
Proof. vm_compute. auto. Qed.

(** A file that is read from, instead, can claim a number of sections for
    which there cannot be memory. *)
Theorem C27_file_refuted : exists data, parse_shdrs (FileIo data) = Panic.
Proof.
  exists ([127; 69; 76; 70; 2; 1; 1] ++ repeat 0 33 ++ [64] ++ repeat 0 23 ++ repeat 0 32 ++ repeat 255 8 ++ repeat 0 24).
  vm_compute. reflexivity.
Qed.
Print Assumptions C27_file_refuted.

(** What does not start as ELF files of one of the two classes do is not taken
    for one, be it in memory or in a file. *)
Theorem C27_rejected : forall b ptr data magic class rest, b = Mem ptr data \/ b = FileIo data ->
  data = magic ++ class :: rest -> nlen magic = 4 -> 11 <= nlen rest ->
  (magic <> [127; 69; 76; 70] -> parse_shdrs b = Err EInvalidData /\ parse_phdrs b = Err EInvalidData) /\
  (magic = [127; 69; 76; 70] -> class <> 1 -> class <> 2 -> parse_shdrs b = Err EUnsupported /\ parse_phdrs b = Err EUnsupported).
Proof.
  intros b ptr data magic class rest Hb Hd Hm Hr.
  set (r1 := firstn 11 rest). set (r2 := skipn 11 rest).
  assert (Hl : nlen (magic ++ class :: r1) = 16).
  { unfold nlen in *. rewrite app_length. cbn [length]. unfold r1. rewrite firstn_length. lia. }
  assert (Hd' : data = (magic ++ class :: r1) ++ r2).
  { rewrite <- app_assoc. cbn [app]. unfold r1, r2. now rewrite firstn_skipn. }
  assert (E : read_bytes b 0 16 = Ok (magic ++ class :: r1)).
  { unfold read_bytes. destruct Hb as [->| ->].
    - unfold get_from. replace (0 <=? nlen data) with true by (symmetry; apply N.leb_le; lia). cbn [of_option bind].
      rewrite ndrop_0, Hd', read_slice_app by exact Hl. reflexivity.
    - cbn [N.leb N.compare N.pow Pos.pow Pos.iter Pos.mul]. rewrite ndrop_0, Hd', read_slice_app by exact Hl. reflexivity. }
  assert (Ht : ntake 4 (magic ++ class :: r1) = magic) by now apply ntake_app_exact.
  assert (Hc : nnth 4 (magic ++ class :: r1) = Some class).
  { destruct magic as [|m0 [|m1 [|m2 [|m3 [|m4 magic]]]]]; unfold nlen in Hm; cbn [length] in Hm; try lia. reflexivity. }
  split.
  - intros Hne. assert (H : parse_ehdr b = Err EInvalidData).
    { unfold parse_ehdr. rewrite E. cbn [bind]. rewrite Ht. destruct (beq magic [127; 69; 76; 70]) eqn:Eq; [|reflexivity].
      apply beq_eq in Eq. contradiction. }
    unfold parse_shdrs, parse_phdrs. rewrite H. auto.
  - intros Hmg H1 H2. assert (H : parse_ehdr b = Err EUnsupported).
    { unfold parse_ehdr. rewrite E. cbn [bind]. rewrite Ht. replace (beq magic [127; 69; 76; 70]) with true by (subst magic; reflexivity).
      cbn [negb]. rewrite Hc. cbn [unwrap bind].
      destruct (N.eqb_spec class 1); [contradiction|]. destruct (N.eqb_spec class 2); [contradiction|]. reflexivity. }
    unfold parse_shdrs, parse_phdrs. rewrite H. auto.
Qed.
Print Assumptions C27_rejected.
Example C27_rejected_example : parse_shdrs (Mem 0 ([127; 69; 76; 70; 3] ++ repeat 0 59)) = Err EUnsupported /\
  parse_shdrs (Mem 0 (repeat 0 64)) = Err EInvalidData.
Proof. vm_compute. auto. Qed.
