(** * Model of /repo/src/kernel/kaslr.rs

    How far the kernel was moved from where it was linked to. *)

From Coq Require Import String.
From Verif Require Import Base Util Bytes Nom Num Inspect Elf.
Local Close Scope string_scope.
Local Open Scope N_scope.

Definition PT_NOTE : N := 4.
(** line 27 *)
Definition n_vmcoreinfo : list N := bs "VMCOREINFO"%string ++ [0].

(** lines 40-43 [parse_vmcoreinfo_desc] *)
Fixpoint filter_map {A B} (f : A -> option B) (l : list A) : list B :=
  match l with
  | [] => []
  | a :: l => match f a with Some b => b :: filter_map f l | None => filter_map f l end
  end.
Definition parse_vmcoreinfo_desc (desc : list N) : list (list N * list N) :=
  filter_map (split_once (fun b => b =? 61)) (split (fun b => b =? 10) desc).

(** lines 77-86 *)
Definition desc_offset (m : mode) (desc : list N) : res (option N) :=
  match find (fun kv => beq (fst kv) (bs "KERNELOFFSET"%string)) (parse_vmcoreinfo_desc desc) with
  | Some (_, value) => let* v := ok_or EInvalidData (from_radix_16 m value) in Ok (Some v)
  | None => Ok None
  end.

(** lines 58-95, the notes of one segment; [Some r] is an early return. A note
    has at least a header; [fuel] bounds the number of those in the file. *)
Fixpoint kcore_notes (fuel : nat) (m : mode) (b : backend) (offset filesz : N) : res (option (option N)) :=
  match fuel with
  | O => NoFuel
  | S fuel =>
      let* e := add64 m offset 12 in
      if filesz <? e then Ok None else
      let* d := read_pod_obj b 12 4 offset in
      let* offset := add64 m offset 12 in
      let namesz := field 0 4 d in
      let descsz := field 4 4 d in
      let* '(name, offset) :=
        if 0 <? namesz then
          let* name := read_bytes b offset namesz in
          let* n := align_up m two32 namesz 4 in
          let* offset := add64 m offset n in
          Ok (Some name, offset)
        else Ok (None, offset) in
      let is_vmcoreinfo := match name with Some name => beq name n_vmcoreinfo | None => false end in
      if is_vmcoreinfo && (0 <? descsz) then
        let* desc := read_bytes b offset descsz in
        let* o := desc_offset m desc in
        Ok (Some o)
      else
        let* n := align_up m two32 descsz 4 in
        let* offset := add64 m offset n in
        kcore_notes fuel m b offset filesz
  end.

(** lines 47-98 [read_kcore_kaslr_offset] *)
Fixpoint kcore_segments (fuel : nat) (m : mode) (b : backend) (l : list phdr) : res (option N) :=
  match l with
  | [] => Ok None
  | p :: l =>
      if negb (p_type p =? PT_NOTE) then kcore_segments fuel m b l else
      let* r := kcore_notes fuel m b (p_offset p) (p_filesz p) in
      match r with
      | Some o => Ok o
      | None => kcore_segments fuel m b l
      end
  end.
Definition read_kcore_kaslr_offset (m : mode) (data : list N) : res (option N) :=
  let* phdrs := parse_phdrs (FileIo data) in
  kcore_segments (S (List.length data)) m (FileIo data) phdrs.

(** lines 100-113 [find_kcore_kaslr_offset]; [kcore] is what opening the file
    and reading from it gives. *)
Definition find_kcore_kaslr_offset (m : mode) (kcore : res (list N)) : res (option N) :=
  match kcore with
  | Ok data => read_kcore_kaslr_offset m data
  | Err ENotFound => Ok None
  | Err k => Err k
  | Panic => Panic
  | NoFuel => NoFuel
  end.

(** lines 117-126 [inspect_sym_addr]; an [Inspect] resolver is its [find_addr]
    with default options. *)
Definition inspector := list N -> res (list sym_info).
Definition inspect_sym_addr (r : inspector) (name : list N) : res (option N) :=
  let* syms := r name in
  Ok (option_map si_addr (find (fun s => beq (si_name s) name) syms)).

(** lines 135-152 [find_stext_kaslr_offset] *)
Definition n_stext : list N := bs "_stext"%string.
Definition find_stext_kaslr_offset (ksym vmlinux : inspector) : res (option N) :=
  let* a := inspect_sym_addr ksym n_stext in
  let* b := inspect_sym_addr vmlinux n_stext in
  match a, b with
  | Some a, Some b => Ok (if b <=? a then Some (a - b) else None)
  | _, _ => Ok None
  end.

(** lines 154-182 [find_kaslr_offset] *)
Definition find_kaslr_offset (m : mode) (kcore : res (list N)) (ksym vmlinux : option inspector) : res (option N) :=
  let result := find_kcore_kaslr_offset m kcore in
  match result with
  | Err EPermissionDenied | Err ENotFound =>
      match ksym, vmlinux with
      | Some ksym, Some vmlinux => find_stext_kaslr_offset ksym vmlinux
      | _, _ => result
      end
  | _ => result
  end.
