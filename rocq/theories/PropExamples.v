(** * Concrete cases of C08, C12 and C34

    Examples for theorems of PropFileCache.v, PropNormalize.v and PropKernel.v,
    and the assumptions of theorems that are not listed where they are proved. *)

From Coq Require Import String.
From Verif Require Import Base Lists Util Amap Nom FileCache FileCacheProofs PropFileCache Maps PropMaps Normalize PropNormalize Sym Kaslr
  Kernel PropKernel PropDepmod PropKaslr PropDwLines CapiNorm PropCapiNorm PropCapiInsp.
Local Close Scope string_scope.
Local Open Scope N_scope.

(** Paths 1 and 2 lead to version A, then path 1 to version B.  Evicting path 1
    removes B alone, although path 1 was handed A as well: path 2 still refers
    to it.  Evicting path 3, never seen, does nothing. *)
Example C08_ex :
  match fc_run (fc_new true) [OpEntry fs1 1 mk; OpEntry fs1 2 mk; OpEntry fs2 1 mk] with
  | Ok (tr, c) =>
      slot mA c = Some (77, Some 154) /\ slot mB c = Some (88, Some 176) /\ fc_step c (OpEvict 3) = Ok (ObsEvict false, c) /\
      match fc_step c (OpEvict 1) with
      | Ok (b, c') => b = ObsEvict true /\ slot mA c' = slot mA c /\ slot mB c' = None /\
          match fc_step c' (OpEvict 2) with
          | Ok (b, c'') => b = ObsEvict true /\ slot mA c'' = None
          | _ => False
          end
      | _ => False
      end
  | _ => False
  end.
Proof. vm_compute. auto 10. Qed.

(** A program mapped twice, memory without a file, and a library: four
    addresses of the first are of the same meta data, the reason for the second
    is there once, and nothing else is. *)
Section Meta.
  Let prog : list N := bs "/p"%string.
  Let lib : list N := bs "/l"%string.
  Let es : list maps_entry :=
    [MapsEntry 4096 8192 4 0 (Some (PPath [1] prog)) (Some [7]); MapsEntry 8192 12288 5 4096 (Some (PPath [2] prog)) (Some [7]);
     MapsEntry 12288 16384 6 0 None None; MapsEntry 20480 24576 5 0 (Some (PPath [3] lib)) None].
  Let env : nenv nat := NEnv (fun _ => Good (Some [9])) (fun _ => Bad ENotFound) (fun _ _ => Bad ENotFound).
  Let addrs : list N := [8193; 20485; 4097; 12300; 12301; 8194; 4098].
  Let run (o : nopts) := normalize_opts Checked env o false 9 (Text (map Ok (filter interesting es))) None addrs.
  Example C12_ex :
    wf_space es /\ wf_archives env /\ source_of es (Text (map Ok (filter interesting es))) (filter interesting es) /\
    run (NOpts false false true true) = Ok (UOutput
      [(4097, 0%nat); (5, 2%nat); (1, 0%nat); (12300, 1%nat); (12301, 1%nat); (4098, 0%nat); (2, 0%nat)]
      [UElf prog (Some [7]); UUnknown MissingComponent; UElf lib (Some [9])]) /\
    (* by the paths below map_files every mapping is a file of its own *)
    run (NOpts false true true true) = Ok (UOutput
      [(4097, 1%nat); (5, 3%nat); (1, 0%nat); (12300, 2%nat); (12301, 2%nat); (4098, 1%nat); (2, 0%nat)]
      [UElf [1] (Some [7]); UElf [2] (Some [7]); UUnknown MissingComponent; UElf [3] (Some [9])]).
  Proof.
    split; [|split; [|split; [|split]]].
    - split; [|split].
      + repeat constructor; cbn; lia.
      + repeat constructor; vm_compute; discriminate.
      + intros v w f p q Hv Hw Ev Ew. cbn [In es] in Hv, Hw. intuition subst; cbn in *; congruence.
    - intros p ms mb H. discriminate.
    - constructor.
    - vm_compute. reflexivity.
    - vm_compute. reflexivity.
  Qed.
End Meta.

(** What [new] makes of sources that are there and that are not. *)
Example C34_sources_ex :
  let gone := NewEnv (fun _ => Err ENotFound) (fun _ _ => Err ENotFound) (Ok (bs "6.1"%string)) (fun _ => false) (Err ENotFound) in
  let boot := NewEnv (fun _ => Ok (ex_list, ex_stext 9000)) (fun p _ => if beq p (bs "/boot/vmlinux-6.1"%string) then Ok (ex_vmlinux, ex_stext 8000) else Err ENotFound)
    (Ok (bs "6.1"%string)) (fun p => beq p (bs "/boot/vmlinux-6.1"%string)) (Err EPermissionDenied) in
  opens_ksym gone MDefault None /\ opens_image gone MDefault false None /\
  fst (kernel_new Checked gone None MDefault MDefault None false) = Err ENotFound /\
  opens_ksym boot MDefault (Some (ex_list, ex_stext 9000)) /\ opens_image boot MDefault false (Some (ex_vmlinux, ex_stext 8000)) /\
  kernel_new Checked boot None MDefault MDefault None false = (Ok (Kernel (Some ex_list) (Some ex_vmlinux) 1000 false), Some 1000) /\
  kernel_new Checked boot None MDefault MDefault (Some 5) false = (Ok (Kernel (Some ex_list) (Some ex_vmlinux) 5 false), None) /\
  kernel_new Checked boot None MDefault MNone None false = (Ok (Kernel (Some ex_list) None 0 false), None).
Proof.
  cbv zeta. split; [exists ENotFound; reflexivity|]. split.
  { exists (bs "6.1"%string). split; [reflexivity|]. intros p _. exists ENotFound. reflexivity. }
  split; [reflexivity|]. split; [reflexivity|]. split.
  { exists (bs "6.1"%string), (bs "/boot/vmlinux-6.1"%string). split; [reflexivity|]. split; [|reflexivity].
    left. split; reflexivity. }
  repeat split.
Qed.

Print Assumptions C34_low_refuted.
Print Assumptions C34_zst_refuted.
Print Assumptions C35_wide_refuted.
Print Assumptions C35_panic_refuted.
Print Assumptions C36_position_refuted.
Print Assumptions C36_fallback_refuted.
Print Assumptions C36_shared_refuted.
Print Assumptions C40_accepted.
Print Assumptions C82_free_null.
Print Assumptions C83_null.
