(** * Files without section headers or of the other byte order, on a host *)

From Verif Require Import Base Util UtilProofs Bytes Amap Maps Sym Inspect Mmap Elf ElfSpec Normalize NormalizeProofs FileCache
  Symbolizer SymbolizerSpec SymbolizerState SymbolizerProcess HistorySpec PropRemote Host HostSpec PropHost ElfBareSpec ElfBigSpec PropElfBare PropElfBig.
From Verif Require PropNormalize PropMaps.
Local Open Scope N_scope.

Section Host.
  Context (x : ext) (m : mode) (pick : N -> N -> N) (rest : world (N * list N) parser) (h : host) (cf : config).
  Notation w := (host_world x m pick rest h).
  Context (Hx : sorts x).
  Notation lookup_in q ptr data := (elf_resolver_of x m (Parser (Some q) (Mem ptr data))).

  (** What symbolizing with a file comes down to, whatever is in it *)
  Lemma single_file : forall b p ptr data addr, is_bytes p -> file_at h p ptr data ->
    fst (symbolize_single m cf w (SElf (path_of p) false) VirtOffset addr (s_new b)) = with_resolver m cf addr (lookup_in p ptr data).
  Proof.
    intros b p ptr data addr Hb Hf. unfold symbolize_single. cbn [symbolize_impl]. unfold on_elf.
    pose proof (elf_fresh w (path_of p) (path_of p) b) as H. destruct (elf_resolver w (path_of p) (path_of p) false (s_elf (s_new b))) as [r0 c].
    cbn [fst] in H. subst r0. unfold parsed. rewrite (opened_at x m pick rest h _ _ _ Hf).
    cbn [bind host_world w_elf_parse elf_from_file of_outcome fst snd then_ w_elf_plain er_resolver each].
    rewrite (unpath_path_of p Hb). destruct (with_resolver _ _ _ _); reflexivity.
  Qed.
  Context (Hdi : w_dispatch rest = None).
  Lemma single_process : forall b p o vs v a q ptr data, process h p vs -> mapped_at vs v a -> a < two64 ->
    po_debug o = false -> of_file v q -> is_bytes q -> ~ PropNormalize.is_archive q -> mapped_file h o p v q ptr data ->
    fst (symbolize_single m cf w (SProcess p o) AbsAddr a (s_new b)) = translated m cf (a - vma_start v + vma_offset v) (lookup_in q ptr data).
  Proof.
    intros b p o vs v a q ptr data Hp Hm Ha Hd Hq Hb Hn Hf.
    rewrite (in_process x m pick rest h cf Hdi b p o vs v a Hp Hm Ha). destruct (file_entry h v q p Hq) as (f & -> & Hmf). rewrite (no_archive_ext q Hn), Hd.
    specialize (Hf f Hmf). change (if po_map_files o then f else q) with (actual o f q) in Hf.
    pose proof (elf_fresh w (path_of (actual o f q)) (path_of q) b) as H. destruct (elf_resolver w _ _ false (s_elf (s_new b))) as [r0 c].
    cbn [fst] in H |- *. subst r0. unfold parsed. rewrite (opened_at x m pick rest h _ _ _ Hf). cbn [bind host_world w_elf_parse elf_from_file of_outcome fst snd w_elf_plain er_resolver].
    now rewrite (unpath_path_of q Hb).
  Qed.

  Definition without_sections (e : image) : Prop :=
    (i_32 e = true /\ h_version (i_hdr e) = EV_CURRENT) \/ (i_32 e = false /\ h_phoff (i_hdr e) = 0).

  (** ** C85: symbols are missing *)
  Theorem C85_elf : forall b p ptr data e addr, is_bytes p -> file_at h p ptr data -> bare_file ptr data e -> without_sections e ->
    fst (symbolize_single m cf w (SElf (path_of p) false) VirtOffset addr (s_new b)) = Ok (Unknown MissingSyms).
  Proof.
    intros b p ptr data e addr Hb Hf He Hc. rewrite (single_file _ _ _ _ _ Hb Hf).
    destruct (C85_missing x m ptr data e Hx He Hc) as (E & _). unfold with_resolver. cbn [elf_resolver_of r_find]. now rewrite E.
  Qed.
  Theorem C85_process : forall b p o vs v a q ptr data e, process h p vs -> mapped_at vs v a -> a < two64 ->
    po_debug o = false -> of_file v q -> is_bytes q -> ~ PropNormalize.is_archive q -> mapped_file h o p v q ptr data ->
    bare_file ptr data e -> segments_ok e -> without_sections e ->
    (exists s, loads e s /\ in_file s (a - vma_start v + vma_offset v)) ->
    fst (symbolize_single m cf w (SProcess p o) AbsAddr a (s_new b)) = Ok (Unknown MissingSyms).
  Proof.
    intros b p o vs v a q ptr data e Hp Hm Ha Hd Hq Hb Hn Hf He Hs Hc (s & Hl & Hi).
    rewrite (single_process b p o vs v a q ptr data Hp Hm Ha Hd Hq Hb Hn Hf). unfold translated. cbn [elf_resolver_of r_virt p_backend].
    destruct (C85_to_virt m ptr data e (a - vma_start v + vma_offset v) He Hs) as [(s' & _ & _ & ->)|[H _]]; [|exfalso; exact (H s Hl Hi)].
    cbn [bind]. destruct (C85_missing x m ptr data e Hx He Hc) as (E & _). unfold with_resolver. cbn [elf_resolver_of r_find]. now rewrite E.
  Qed.
  (** With most 64 bit programs it is an error instead. *)
  Theorem C85_process_error : forall b p o vs v a q ptr data e, process h p vs -> mapped_at vs v a -> a < two64 ->
    po_debug o = false -> of_file v q -> is_bytes q -> ~ PropNormalize.is_archive q -> mapped_file h o p v q ptr data ->
    bare_file ptr data e -> segments_ok e -> i_32 e = false -> 2 <= h_phoff (i_hdr e) -> nlen data < 64 * h_phoff (i_hdr e) ->
    (exists s, loads e s /\ in_file s (a - vma_start v + vma_offset v)) ->
    fst (symbolize_single m cf w (SProcess p o) AbsAddr a (s_new b)) = Err EInvalidData.
  Proof.
    intros b p o vs v a q ptr data e Hp Hm Ha Hd Hq Hb Hn Hf He Hs Hc H2 Hl (s & Hls & Hi).
    rewrite (single_process b p o vs v a q ptr data Hp Hm Ha Hd Hq Hb Hn Hf). unfold translated. cbn [elf_resolver_of r_virt p_backend].
    destruct (C85_to_virt m ptr data e (a - vma_start v + vma_offset v) He Hs) as [(s' & _ & _ & ->)|[H _]]; [|exfalso; exact (H s Hls Hi)].
    cbn [bind]. destruct (C85_error x m ptr data e He Hc H2 Hl) as (E & _). unfold with_resolver. cbn [elf_resolver_of r_find]. now rewrite E.
  Qed.

  (** ** C86 *)
  Theorem C86_elf : forall b p ptr data c e addr, is_bytes p -> file_at h p ptr data -> big_file ptr data c e -> usual data c (h_shoff e) ->
    fst (symbolize_single m cf w (SElf (path_of p) false) VirtOffset addr (s_new b)) =
    if (h_shnum e =? 256) && negb (h_phnum e =? 65535) then Ok (Unknown MissingSyms) else Err EInvalidData.
  Proof.
    intros b p ptr data c e addr Hb Hf He Hu. rewrite (single_file _ _ _ _ _ Hb Hf). unfold with_resolver. cbn [elf_resolver_of r_find].
    rewrite (C86_find_sym x m ptr data c e (Some p) addr Hx He Hu). destruct (_ && _); reflexivity.
  Qed.
  Theorem C86_process : forall b p o vs v a q ptr data c e, process h p vs -> mapped_at vs v a -> a < two64 ->
    po_debug o = false -> of_file v q -> is_bytes q -> ~ PropNormalize.is_archive q -> mapped_file h o p v q ptr data ->
    big_file ptr data c e -> usual data c (h_shoff e) -> usual data c (h_phoff e) ->
    fst (symbolize_single m cf w (SProcess p o) AbsAddr a (s_new b)) = Err EInvalidData.
  Proof.
    intros b p o vs v a q ptr data c e Hp Hm Ha Hd Hq Hb Hn Hf He Hs Hu.
    rewrite (single_process b p o vs v a q ptr data Hp Hm Ha Hd Hq Hb Hn Hf). unfold translated. cbn [elf_resolver_of r_virt p_backend].
    destruct (C86_offsets m ptr data c e He Hs Hu) as (E & _). now rewrite E.
  Qed.
End Host.
Print Assumptions C85_elf.
Print Assumptions C85_process.
Print Assumptions C85_process_error.
Print Assumptions C86_elf.
Print Assumptions C86_process.

(** ** Example: a process with a program, and mappings of a 32 bit file and of
    a 64 bit file without section headers, and of a big endian file *)
Definition hb_small32 : list N := [47; 115]. (* /s *)
Definition hb_small : list N := [47; 116]. (* /t *)
Definition hb_big : list N := [47; 117]. (* /u *)
Definition hb_vs : list (vma * (bool * PropMaps.layout)) :=
  [(Vma 4194304 4198400 5 0 ex_q [], (false, ex_ly)); (Vma 5242880 5246976 5 0 hb_small32 [], (false, ex_ly));
   (Vma 6291456 6299648 5 0 hb_small [], (false, ex_ly)); (Vma 7340032 7344128 5 0 hb_big [], (false, ex_ly))].
Definition hb_files : list (list N * (N * list N)) :=
  [(map_files_path 7 4194304 4198400, (4096, PropElf.ex_data)); (map_files_path 7 5242880 5246976, (4096, small32_data));
   (map_files_path 7 6291456 6299648, (4096, small_data)); (map_files_path 7 7340032 7344128, (4096, ppc 4))].
Definition hb_find (p : path) : outcome (list N * (N * list N)) :=
  match find (fun '(q, _) => path_of q =? p) hb_files with Some f => Good f | None => Bad ENotFound end.
Definition hb_host : host :=
  Host (fun p => match hb_find p with Good _ => Good (FileMeta 1 p 0 0%Z 0%Z) | Bad k => Bad k end)
       (fun p => match hb_find p with Good (_, f) => Good f | Bad k => Bad k end)
       (fun p => match p with Pid 7 => Good (PropNormalize.maps_text hb_vs) | _ => Bad ENotFound end)
       (fun _ _ => []) 42 (fun _ => 8).
Definition hb_w := host_world ElfExample.no_ext Checked (fun _ _ => 0) ex_rest hb_host.
Definition hb_src : source := SProcess (Pid 7) (POpts false true true true).
Lemma hb_process : process hb_host (Pid 7) hb_vs.
Proof.
  split; [reflexivity|]. split; [split; [repeat (constructor; [|repeat (constructor; try (cbn; lia))]); constructor|repeat (constructor; [cbn; vm_compute; split; [reflexivity|discriminate]|]); constructor]|].
  repeat (constructor; [a_vma|]). constructor.
Qed.
Lemma hb_path : forall b v, vma_name v = [47; b] -> of_file v [47; b].
Proof. intros b v E. split; [reflexivity|]. left. split; [exact E|]. intros r E'. apply (f_equal (@List.length N)) in E'. rewrite app_length in E'.
  change (List.length PropMaps.str_deleted) with 10%nat in E'. cbn [List.length] in E'. lia. Qed.
Lemma hb_no_archive : forall b, ~ PropNormalize.is_archive [47; b].
Proof.
  intros b (s & c & t & E & _ & H). apply (f_equal (@List.length N)) in E. rewrite app_length in E.
  destruct H as [<-|[<-|[]]]; cbn in E; lia.
Qed.
Example C85_process_ex :
  fst (symbolize_single Checked ex_cf hb_w hb_src AbsAddr (5242880 + 60) (s_new true)) = Ok (Unknown MissingSyms) /\
  fst (symbolize_single Checked ex_cf hb_w hb_src AbsAddr (6291456 + 130) (s_new true)) = Err EInvalidData /\
  fst (symbolize_single Checked ex_cf hb_w hb_src AbsAddr (7340032 + 400) (s_new true)) = Err EInvalidData.
Proof.
  assert (Hmf : forall v b d, file_at hb_host (map_files_path 7 (vma_start v) (vma_end v)) 4096 d ->
    mapped_file hb_host (POpts false true true true) (Pid 7) v [47; b] 4096 d).
  { intros v b d H f Hf. rewrite (map_file_unique _ _ _ f (map_files_path 7 (vma_start v) (vma_end v)) Hf (PropMaps.map_files_path_ok 7 _ _)). exact H. }
  split; [|split].
  - refine (C85_process ElfExample.no_ext Checked (fun _ _ => 0) ex_rest hb_host ex_cf ElfExample.no_ext_sorts eq_refl true (Pid 7) (POpts false true true true) hb_vs
      (Vma 5242880 5246976 5 0 hb_small32 []) (5242880 + 60) hb_small32 4096 small32_data small32 hb_process _ eq_refl eq_refl (hb_path 115 (Vma 5242880 5246976 5 0 hb_small32 []) eq_refl) _ (hb_no_archive 115) _ (proj1 C85_missing_ex) _ _ _).
    + split; [right; now left|]. split; [now left|]. cbn. lia.
    + repeat constructor.
    + apply Hmf. split; [eexists; vm_compute; reflexivity|vm_compute; reflexivity].
    + intros p [[<-|[]] _]. split; reflexivity.
    + left. split; reflexivity.
    + exists seg32. split; [split; [now left|reflexivity]|]. vm_compute. split; [discriminate|reflexivity].
  - refine (C85_process_error ElfExample.no_ext Checked (fun _ _ => 0) ex_rest hb_host ex_cf eq_refl true (Pid 7) (POpts false true true true) hb_vs
      (Vma 6291456 6299648 5 0 hb_small []) (6291456 + 130) hb_small 4096 small_data small hb_process _ eq_refl eq_refl (hb_path 116 (Vma 6291456 6299648 5 0 hb_small []) eq_refl) _ (hb_no_archive 116) _ (proj1 C85_error_ex) _ eq_refl _ _ _).
    + split; [do 2 right; now left|]. split; [now left|]. cbn. lia.
    + repeat constructor.
    + apply Hmf. split; [eexists; vm_compute; reflexivity|vm_compute; reflexivity].
    + intros p [[<-|[]] _]. split; reflexivity.
    + vm_compute. discriminate.
    + vm_compute. reflexivity.
    + exists seg. split; [split; [now left|reflexivity]|]. vm_compute. split; [discriminate|reflexivity].
  - destruct C86_ex as (H1 & H2 & H3 & _).
    refine (C86_process ElfExample.no_ext Checked (fun _ _ => 0) ex_rest hb_host ex_cf eq_refl true (Pid 7) (POpts false true true true) hb_vs
      (Vma 7340032 7344128 5 0 hb_big []) (7340032 + 400) hb_big 4096 (ppc 4) false _ hb_process _ eq_refl eq_refl (hb_path 117 (Vma 7340032 7344128 5 0 hb_big []) eq_refl) _ (hb_no_archive 117) _ H1 H2 H3).
    + split; [do 3 right; now left|]. split; [now left|]. cbn. lia.
    + repeat constructor.
    + apply Hmf. split; [eexists; vm_compute; reflexivity|vm_compute; reflexivity].
Qed.

(** Such a file being mapped, addresses of the program cannot be symbolized
    together with one in that file. *)
Definition hb_batch (addrs : list N) : res (list ((list N * option (list N) * N * N) + reason)) :=
  let* l := fst (symbolize Checked ex_cf hb_w hb_src AbsAddr addrs (s_new true)) in Ok (map brief_of l).
Theorem C85_batch_refuted : exists v a v' a' e, process hb_host (Pid 7) hb_vs /\ mapped_at hb_vs v a /\ mapped_at hb_vs v' a' /\
  mapped_file hb_host (POpts false true true true) (Pid 7) v' (vma_name v') 4096 small_data /\ bare_file 4096 small_data e /\
  hb_batch [a] = Ok [inl ([109; 97; 105; 110], Some (vma_name v), 4096, 2)] /\
  hb_batch [a; a'] = Err EInvalidData.
Proof.
  exists (Vma 4194304 4198400 5 0 ex_q []), (4194304 + 178), (Vma 6291456 6299648 5 0 hb_small []), (6291456 + 130), small.
  split; [exact hb_process|]. split; [split; [now left|]; split; [now left|cbn; lia]|]. split; [split; [do 2 right; now left|]; split; [now left|cbn; lia]|].
  split; [|split; [exact (proj1 C85_error_ex)|split; vm_compute; reflexivity]].
  intros f Hf. rewrite (map_file_unique _ _ _ f (map_files_path 7 6291456 6299648) Hf (PropMaps.map_files_path_ok 7 _ _)).
  split; [eexists; vm_compute; reflexivity|vm_compute; reflexivity].
Qed.
Print Assumptions C85_batch_refuted.
Example C85_batch_ex : hb_batch [4194304 + 178; 5242880 + 60] = Ok [inl ([109; 97; 105; 110], Some ex_q, 4096, 2); inr MissingSyms].
Proof. vm_compute. reflexivity. Qed.
