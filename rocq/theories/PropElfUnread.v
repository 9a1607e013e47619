(** * C27, C29 and C30, where names of the symbol table are no text

    Names of symbols may be any bytes. One that is no UTF-8 cannot be asked for
    and does not keep dynamic symbols at its address from being found. *)

From Coq Require Import String.
From Verif Require Import Base Util UtilProofs Bytes Text Nom Sym Inspect ByName Elf ElfSpec ElfFormat ElfProofs Total ElfTotal ElfExample PropElf.
Local Close Scope string_scope.
Local Open Scope N_scope.

(** All supported symbols have names, of whatever bytes. *)
Definition names_end (t : symtab) : Prop := forall s, In s (t_syms t) -> supported s -> exists name, has_name t s name.
(** The symbol table has a symbol there, and one that has a readable name. *)
Definition shadowed_by_text (t : symtab) (s : esym) : Prop :=
  exists type z name, type_is s type /\ closest_symbol Symtab t type (st_value s) z /\ has_name t z name /\ utf8_valid name = true.

Lemma not_in_symtab_text : forall x m st s, sorts x -> in_space st -> names_end st -> supported s ->
  exists b, not_in_symtab x m st s = Ok b /\ (b = false -> shadowed_by_text st s).
Proof.
  intros x m st s Hx Hsp Hn Hs. unfold not_in_symtab.
  destruct (type_of_elf_spec s Hs) as (ty & -> & Hty). cbn [unwrap bind].
  destruct (find_sym_spec x m None st Symtab (st_value s) ty Hx Hsp) as [(z & Hz & -> & _)|[-> _]].
  - pose proof Hz as (Hz1 & Hz2 & _). destruct (Hn z Hz1 Hz2) as (name & H1).
    unfold describe, symbol_name. pose proof (str_at_ok _ _ _ H1) as ->. cbn [bind]. unfold to_str.
    destruct (utf8_valid name) eqn:Eu; cbn [bind].
    + exists false. split; [reflexivity|]. intros _. exists ty, z, name. auto.
    + exists true. split; [reflexivity|]. discriminate.
  - exists true. split; auto. discriminate.
Qed.

(** Dynamic symbols that have the name are left out only where the symbol table
    has another symbol at the address, with a readable name. *)
Theorem C29_unreadable : forall x m ptr data e st dt module opts name,
  sorts x -> elf_file ptr data e -> symtab_of x e st -> dynsym_of e dt -> names_end st -> names_ok dt -> in_space st ->
  (fa_file_offset opts = true -> sections_ok e dt) ->
  (forall s, In s (t_syms st) -> ~ named_symbol st name s) ->
  exists r l, find_addr x m (Parser module (Mem ptr data)) opts name = Ok r /\
    picks (named_symbol dt name) (fun s => named_symbol dt name s -> shadowed_by_text st s) (t_syms dt) l /\
    Forall2 (info_of e opts module dt) l r.
Proof.
  intros x m ptr data e st dt module opts name Hx Hf Hst Hdt Hn Hn2 Hsp Hok Hno. unfold find_addr. cbn [p_backend p_module].
  rewrite (parse_shdrs_ok ptr data e Hf). cbn [bind]. rewrite (ensure_symtab_ok x ptr data e st Hf Hst). cbn [bind].
  destruct (str2sym_ok x st (fun _ => Ok true) Hx Hn) as (idx & Hidx & Hs & Hall & _); [eauto|].
  unfold str2symtab. rewrite Hidx. cbn [bind]. rewrite (find_addr_impl_infos _ _ _ _ _ _ Hs), filter_filter. fold (name_test name).
  assert (En : filter (name_test name) idx = []).
  { destruct (filter (name_test name) idx) as [|[n s] l] eqn:E; [reflexivity|]. exfalso.
    assert (Hi : In (n, s) (filter (name_test name) idx)) by (rewrite E; now left).
    apply filter_In in Hi. destruct Hi as [Hi Ht]. rewrite Forall_forall in Hall. destruct (Hall _ Hi) as (A & B & C). cbn [fst snd] in *.
    apply (name_test_spec st) in Ht; auto. apply (Hno s B). unfold named_symbol. tauto. }
  rewrite En. cbn [infos bind]. rewrite (ensure_dynsym_ok ptr data e dt Hf Hdt). cbn [bind].
  assert (Hk : forall s, supported s -> exists b, not_in_symtab x m st s = Ok b /\ (b = false -> shadowed_by_text st s))
    by (intros; now apply not_in_symtab_text).
  destruct (by_name x m e dt module opts (not_in_symtab x m st) name Hx Hn2 Hok) as (idx2 & r & l & H1 & H2 & H3 & H4).
  { intros s _ H. destruct (Hk s H) as (b & ? & _). eauto. }
  unfold str2dynsym. rewrite H1. cbn [bind]. rewrite H2. exists r, l. split; auto. split; [|auto].
  eapply picks_impl; [exact H3|..]; cbv beta; [tauto|]. intros s _ Ha Hc. specialize (Ha Hc).
  destruct (Hk s (proj1 Hc)) as (b & E & Hb). unfold kept in Ha. rewrite E in Ha. auto.
Qed.
Print Assumptions C29_unreadable.

(** The example of C29 with a byte of "main" replaced: "start", which
    [C29_alias_refuted] says cannot be found, is found then. *)
Definition un_strs : list N := [0; 255] ++ bs "ain"%string ++ [0] ++ bs "helper"%string ++ [0] ++ bs "table"%string ++ [0].
Definition un_st : symtab := SymTab (t_syms ex_st) un_strs.
Definition un_made := make false 3 ex_segs
  [Input (bs ".text"%string) 1 4096 0 0 (repeat 144 64); Input (bs ".data"%string) 1 8192 0 0 (repeat 7 16);
   Input n_symtab 2 0 4 0 (s64 (t_syms un_st)); Input n_strtab 3 0 0 0 un_strs;
   Input n_dynsym 11 0 6 0 (s64 (t_syms ex_dt)); Input n_dynstr 3 0 0 0 ex_dstrs].
Example C29_unreadable_example :
  elf_file 4096 (snd un_made) (fst un_made) /\ symtab_of no_ext (fst un_made) un_st /\ dynsym_of (fst un_made) ex_dt /\
  names_end un_st /\ ~ names_ok un_st /\
  find_addr no_ext Checked (Parser None (Mem 4096 (snd un_made))) no_opts (bs "start"%string) = Ok
    [SymInfo (bs "start"%string) 4096 (Some 32) TFunction None None] /\
  find_addr no_ext Checked (Parser None (Mem 4096 ex_data)) no_opts (bs "start"%string) = Ok [].
Proof.
  split; [apply elf_file_check; vm_compute; reflexivity|]. split; [apply symtab_check; [vm_compute; reflexivity|discriminate]|].
  split; [apply table_check; vm_compute; reflexivity|]. split; [|split; [|split; vm_compute; reflexivity]].
  - intros s Hi _. cbn [un_st t_syms ex_st In] in Hi. destruct Hi as [<-|[<-|[<-|[<-|[<-|[]]]]]].
    + exists []. apply string_b_ok. vm_compute. reflexivity.
    + exists (255 :: bs "ain"%string). apply string_b_ok. vm_compute. reflexivity.
    + exists (bs "helper"%string). apply string_b_ok. vm_compute. reflexivity.
    + exists (bs "table"%string). apply string_b_ok. vm_compute. reflexivity.
    + exists (bs "helper"%string). apply string_b_ok. vm_compute. reflexivity.
  - intros H. destruct (H (ESym 1 18 0 1 4096 32)) as (n & Hn & Hu); [right; now left|left; now left|].
    assert (H' : has_name un_st (ESym 1 18 0 1 4096 32) (255 :: bs "ain"%string)) by (apply string_b_ok; vm_compute; reflexivity).
    rewrite (string_at_fun _ _ _ _ Hn H') in Hu. vm_compute in Hu. discriminate.
Qed.

(** ** Symbols that cannot be reported *)

(** An address is not reported as unknown, and not as that of another symbol, if
    its symbol's name is no text. Asking for it is an error. *)
Theorem C27_unreadable : forall x m ptr data e st module addr,
  sorts x -> elf_file ptr data e -> symtab_of x e st -> in_space st ->
  (exists z, closest_symbol Symtab st TUndefined addr z /\ (~ lowest st z \/ st_value z = addr)) ->
  (forall z, closest_symbol Symtab st TUndefined addr z -> exists name, has_name st z name /\ utf8_valid name = false) ->
  elf_find_sym x m (Parser module (Mem ptr data)) addr = Err EInvalidData.
Proof.
  intros x m ptr data e st module addr Hx Hf Hst Hsp (z & Hz & Hl) Hno. unfold elf_find_sym. cbn [p_backend p_module].
  rewrite (ensure_symtab_ok x ptr data e st Hf Hst). cbn [bind].
  destruct (find_sym_spec x m module st Symtab addr TUndefined Hx Hsp) as [(s & Hs & -> & _)|[_ H]].
  - destruct (Hno s Hs) as (name & H1 & H2). unfold describe, symbol_name. pose proof (str_at_ok _ _ _ H1) as ->. cbn [bind].
    unfold to_str. rewrite H2. reflexivity.
  - exfalso. destruct (H z Hz) as (A & B & _). destruct Hl; auto.
Qed.
Print Assumptions C27_unreadable.

Lemma loop_unreadable : forall S m opts e t (f : for_each_fn S) l s n,
  (forall state i, snd (f state i) = false) -> (fa_file_offset opts = true -> sections_ok e t) ->
  Forall (reportable t) l -> In (n, s) l -> wanted_symbol (fa_sym_type opts) s -> utf8_valid n = false ->
  forall state, for_each_loop m opts (map s_hdr (i_sections e)) f l state = Err EInvalidData.
Proof.
  intros S m opts e t f l s n Hf Hok Hall Hi (Hs & Ht & Hd) Hu. induction l as [|[n' s'] l IH]; [destruct Hi|].
  inversion Hall as [|? ? (A & B & C) Hall']; subst. cbn [fst snd] in *. intros state. cbn [for_each_loop].
  destruct Hi as [E|Hi].
  - injection E as -> ->. apply matches_spec in Ht. apply is_defined_spec in Hd. unfold is_defined in Hd. rewrite Ht, Hd. cbn [andb].
    unfold make_info, to_str. rewrite Hu. reflexivity.
  - specialize (IH Hall' Hi). destruct (matches (fa_sym_type opts) s' && negb (st_shndx s' =? SHN_UNDEF)); [|apply IH].
    destruct (utf8_valid n') eqn:Eu.
    + destruct (make_info_ok m opts e None t n' s' B C A Eu Hok) as (i & -> & _). cbn [bind].
      pose proof (Hf state i) as Hb. destruct (f state i) as [state' b]. cbn [snd] in Hb. subst b. apply IH.
    + unfold make_info, to_str. rewrite Eu. reflexivity.
Qed.
(** One such symbol is enough for going over all symbols to fail. *)
Theorem C30_unreadable : forall S x m ptr data e st module opts (f : for_each_fn S) s name,
  sorts x -> elf_file ptr data e -> symtab_of x e st -> names_end st ->
  (fa_file_offset opts = true -> sections_ok e st) -> (forall state i, snd (f state i) = false) ->
  In s (t_syms st) -> wanted_symbol (fa_sym_type opts) s -> has_name st s name -> utf8_valid name = false ->
  forall state, for_each x m (Parser module (Mem ptr data)) opts f state = Err EInvalidData.
Proof.
  intros S x m ptr data e st module opts f s name Hx Hf Hst Hn Hok Hgo Hi Hw Hname Hu state. unfold for_each. cbn [p_backend].
  rewrite (ensure_symtab_ok x ptr data e st Hf Hst). cbn [bind].
  destruct (str2sym_ok x st (fun _ => Ok true) Hx Hn) as (idx & Hidx & _ & Hall & Hp); [eauto|].
  unfold str2symtab. rewrite Hidx. cbn [bind]. unfold for_each_sym_impl. rewrite (parse_shdrs_ok ptr data e Hf). cbn [bind].
  destruct (Hp (fun _ => true)) as (rest & Hperm & _ & Hrest).
  assert (Hin : In s (map snd (filter (fun _ => true) idx) ++ rest)) by (eapply Permutation_in; [exact Hperm|exact Hi]).
  apply in_app_or in Hin. destruct Hin as [Hin|Hin].
  - apply in_map_iff in Hin. destruct Hin as ([n s'] & E & Hin). cbn [snd] in E. subst s'. apply filter_In in Hin. destruct Hin as [Hin _].
    pose proof (proj1 (Forall_forall _ _) Hall _ Hin) as (A & _). cbn [fst snd] in A. rewrite (string_at_fun _ _ _ _ A Hname) in Hin.
    rewrite (loop_unreadable S m opts e st f idx s name Hgo Hok Hall Hin Hw Hu state). reflexivity.
  - exfalso. rewrite Forall_forall in Hrest. destruct (Hrest s Hin (proj1 Hw) eq_refl) as (n & _ & E). discriminate.
Qed.
Print Assumptions C30_unreadable.
Example C30_unreadable_example :
  elf_find_sym no_ext Checked (Parser None (Mem 4096 (snd un_made))) 4100 = Err EInvalidData /\
  for_each no_ext Checked (Parser None (Mem 4096 (snd un_made))) no_opts (fun n _ => (n + 1, false)) 0 = Err EInvalidData /\
  for_each no_ext Checked (Parser None (Mem 4096 ex_data)) no_opts (fun n _ => (n + 1, false)) 0 = Ok 5.
Proof. vm_compute. auto. Qed.
