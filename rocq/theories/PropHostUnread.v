(** * Files with symbols whose names are no text, on a host *)

From Verif Require Import Base Util UtilProofs Text Bytes Amap Maps Sym Inspect Mmap Elf ElfSpec Normalize NormalizeProofs FileCache
  Symbolizer SymbolizerSpec SymbolizerState SymbolizerProcess HistorySpec PropRemote Host HostSpec PropHost ElfBareSpec ElfBigSpec PropHostBare PropElfUnread.
Local Open Scope N_scope.

(** Addresses are independent of each other. *)
Lemma each_at : forall S (g : N -> res symbolized) fold addrs (s : S) l i a,
  fst (each (fun a s => (g a, s)) fold addrs s) = Ok l -> nth_error addrs i = Some a ->
  exists r, nth_error l i = Some r /\ match g a with Err k => fold k | r => r end = Ok r.
Proof.
  intros S g fold addrs. induction addrs as [|a0 addrs IH]; intros s l i a E Hi; [destruct i; discriminate|].
  assert (H : exists r0 l', match g a0 with Err k => fold k | r => r end = Ok r0 /\ fst (each (fun a s => (g a, s)) fold addrs s) = Ok l' /\ l = r0 :: l').
  { cbn [each] in E. destruct (g a0) as [r0|k| |]; [|destruct (fold k) as [r0|k'| |]|..]; cbn [then_ fst] in E; try discriminate;
    destruct (each (fun a s => (g a, s)) fold addrs s) as [[l'|k1| |] s']; cbn [then_ fst] in E; try discriminate; injection E as <-; cbn [fst]; eauto. }
  destruct H as (r0 & l' & E0 & El & ->). destruct i as [|i]; cbn in Hi.
  - injection Hi as ->. exists r0. auto.
  - cbn. now apply (IH s).
Qed.

Section Host.
  Context (x : ext) (m : mode) (pick : N -> N -> N) (rest : world (N * list N) parser) (h : host) (cf : config).
  Notation w := (host_world x m pick rest h).
  Context (Hx : sorts x).
  Notation lookup_in q ptr data := (elf_resolver_of x m (Parser (Some q) (Mem ptr data))).

  (** The symbol at the address has a name that is no text. *)
  Definition unreadable (st : symtab) (addr : N) : Prop :=
    (exists z, closest_symbol Symtab st TUndefined addr z /\ (~ lowest st z \/ st_value z = addr)) /\
    forall z, closest_symbol Symtab st TUndefined addr z -> exists name, has_name st z name /\ utf8_valid name = false.

  (** Alone, the address is an error. *)
  Theorem C72_unreadable : forall b p ptr data e st addr, is_bytes p -> file_at h p ptr data -> elf_file ptr data e -> symtab_of x e st -> in_space st ->
    unreadable st addr ->
    fst (symbolize_single m cf w (SElf (path_of p) false) VirtOffset addr (s_new b)) = Err EInvalidData.
  Proof.
    intros b p ptr data e st addr Hb Hf He Hst Hsp (Hz & Hno). rewrite (single_file x m pick rest h cf _ _ _ _ _ Hb Hf).
    unfold with_resolver. cbn [elf_resolver_of r_find]. now rewrite (C27_unreadable x m ptr data e st (Some p) addr Hx He Hst Hsp Hz Hno).
  Qed.
  (** Among others, it is reported as one that could not be looked at. *)
  Theorem C72_unreadable_among : forall b p ptr data e st addrs l i addr, is_bytes p -> file_at h p ptr data -> elf_file ptr data e -> symtab_of x e st -> in_space st ->
    fst (symbolize m cf w (SElf (path_of p) false) VirtOffset addrs (s_new b)) = Ok l ->
    nth_error addrs i = Some addr -> unreadable st addr ->
    nth_error l i = Some (Unknown IgnoredError).
  Proof.
    intros b p ptr data e st addrs l i addr Hb Hf He Hst Hsp E Hi (Hz & Hno). unfold symbolize in E. cbn [symbolize_impl] in E. unfold on_elf in E.
    pose proof (elf_fresh w (path_of p) (path_of p) b) as H. destruct (elf_resolver w (path_of p) (path_of p) false (s_elf (s_new b))) as [r0 c].
    cbn [fst] in H. subst r0. unfold parsed in E. rewrite (opened_at x m pick rest h _ _ _ Hf) in E.
    cbn [bind host_world w_elf_parse elf_from_file of_outcome fst snd then_ w_elf_plain er_resolver] in E. rewrite (unpath_path_of p Hb) in E.
    destruct (each_at _ (fun a => with_resolver m cf a (lookup_in p ptr data)) _ _ _ _ _ _ E Hi) as (r & Hr & Er).
    unfold with_resolver in Er. cbn [elf_resolver_of r_find] in Er. rewrite (C27_unreadable x m ptr data e st (Some p) addr Hx He Hst Hsp Hz Hno) in Er.
    cbn [bind] in Er. injection Er as <-. exact Hr.
  Qed.
End Host.
Print Assumptions C72_unreadable.
Print Assumptions C72_unreadable_among.

(** ** Example: the program of C29_unreadable_example *)
Definition un_host : host :=
  Host (fun p => Good (FileMeta 1 p 0 0%Z 0%Z)) (fun _ => Good (4096, snd un_made)) (fun _ => Bad ENotFound) (fun _ _ => []) 42 (fun _ => 8).
Definition un_w := host_world ElfExample.no_ext Checked (fun _ _ => 0) ex_rest un_host.
Example C72_unreadable_example :
  fst (symbolize_single Checked ex_cf un_w (SElf (path_of ex_q) false) VirtOffset 4096 (s_new true)) = Err EInvalidData /\
  (let* l := fst (symbolize Checked ex_cf un_w (SElf (path_of ex_q) false) VirtOffset [4130; 4096; 4129] (s_new true)) in Ok (map brief_of l)) =
    Ok [inl ([104; 101; 108; 112; 101; 114], Some ex_q, 4128, 2); inr IgnoredError; inl ([104; 101; 108; 112; 101; 114], Some ex_q, 4128, 1)].
Proof. vm_compute. auto. Qed.
Example C72_unreadable_hyp : unreadable un_st 4096 /\ in_space un_st.
Proof.
  assert (Hc : closest_symbol Symtab un_st TUndefined 4096 (ESym 1 18 0 1 4096 32)).
  { split; [right; now left|]. split; [left; now left|]. split; [left; now left|]. split; [discriminate|]. split.
    - split; [cbn; lia|left; cbn; split; [discriminate|lia]].
    - intros z _ _ H. exact H. }
  split; [|exact (proj1 PropElf.ex_space)]. split.
  - exists (ESym 1 18 0 1 4096 32). auto.
  - intros z (Hi & _ & _ & _ & (Hv & _) & Hm). specialize (Hm (ESym 1 18 0 1 4096 32) ltac:(right; now left) ltac:(left; now left) ltac:(cbn; lia)). cbn [st_value] in Hm.
    destruct (N.eq_dec (st_value z) 4096) as [E|E].
    + cbn [un_st t_syms PropElf.ex_st In] in Hi. destruct Hi as [<-|[<-|[<-|[<-|[<-|[]]]]]]; try discriminate E.
      exists [255; 97; 105; 110]. split; [apply ElfExample.string_b_ok; vm_compute; reflexivity|reflexivity].
    + exfalso. lia.
Qed.
