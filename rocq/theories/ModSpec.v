(** * /proc/modules and /proc/kallsyms

    As the Linux kernel prints them (kernel/module/procfs.c, kernel/kallsyms.c):
    one module or symbol per line, its fields separated by white space. *)

From Coq Require Import String Permutation.
From Verif Require Import Base Nom Text Num Sym ModMap.
Local Close Scope string_scope.
Local Open Scope N_scope.

Definition text_word (s : list N) : Prop := word s /\ text s.
(** What may follow the fields that matter *)
Definition line_rest (s : list N) : Prop :=
  s = [] \/ exists sp r, s = sp ++ r /\ spaces sp /\ text r /\ Forall (fun c => c <> 10) r.

(** A module's name, size, references, dependencies, state and address; with
    flags behind these, perhaps. *)
Inductive module_line : kmod -> list N -> Prop :=
| ModuleLine : forall name addr size sz insts deps state a rest s1 s2 s3 s4 s5,
    text_word name -> dec_text size sz -> text_word insts -> text_word deps -> text_word state ->
    hex_text addr a -> line_rest rest -> spaces s1 -> spaces s2 -> spaces s3 -> spaces s4 -> spaces s5 ->
    addr < 2 ^ 64 -> size < 2 ^ 64 ->
    module_line (KMod name addr size)
      (name ++ s1 ++ sz ++ s2 ++ insts ++ s3 ++ deps ++ s4 ++ state ++ s5 ++ (bs "0x"%string ++ a) ++ rest).
Definition modules_text := text_of module_line.

Definition in_module (k : kmod) (a : N) : Prop := km_addr k <= a < km_addr k + km_size k.
(** Modules with an address: it is shown as zero to those who may not see it. *)
Definition shown (k : kmod) : Prop := km_addr k <> 0.
Definition disjoint_modules (es : list kmod) : Prop :=
  forall i j k l a, nth_error es i = Some k -> nth_error es j = Some l -> shown k -> shown l ->
    in_module k a -> in_module l a -> i = j.
Definition module_ok (k : kmod) : Prop := 0 < km_size k /\ km_addr k + km_size k < 2 ^ 64.

(** A function that sorts by address, however it orders modules at the same
    address *)
Definition sorts_modules (sort : list kmod -> list kmod) : Prop :=
  forall l, Permutation l (sort l) /\ StronglySorted (fun a b => km_addr a <= km_addr b) (sort l).

(** ** Symbols *)
Record kentry := KEntry { ke_addr : N; ke_name : list N }.
Inductive ksym_line : kentry -> list N -> Prop :=
| KsymLine : forall addr name a typ rest s1 s2,
    hex_text addr a -> text_word typ -> text_word name -> line_rest rest -> spaces s1 -> spaces s2 ->
    addr < 2 ^ 64 ->
    ksym_line (KEntry addr name) (a ++ s1 ++ typ ++ s2 ++ name ++ rest).
Definition kallsyms_text := text_of ksym_line.
Definition visible (es : list kentry) : list kentry := filter (fun e => negb (ke_addr e =? 0)) es.

(** The entries at an address come in the order they are listed in. *)
Definition first_listed (es : list kentry) (e : kentry) : Prop :=
  exists l1 l2, es = l1 ++ e :: l2 /\ Forall (fun x => ke_addr x <> ke_addr e) l1.
Definition last_listed (es : list kentry) (e : kentry) : Prop :=
  exists l1 l2, es = l1 ++ e :: l2 /\ Forall (fun x => ke_addr x <> ke_addr e) l2.
Definition closest (es : list kentry) (e : kentry) (a : N) : Prop :=
  ke_addr e <= a /\ forall x, In x es -> ke_addr x <= a -> ke_addr x <= ke_addr e.

(** ** Names of BPF programs: a tag of eight bytes, in hexadecimal, and a name
    perhaps (kernel/bpf/core.c, [bpf_get_prog_name]) *)
Definition tag_text (t tx : list N) : Prop :=
  length t = 8%nat /\ exists ps, tx = concat ps /\
    Forall2 (fun b p => exists h l dh dl, p = [h; l] /\ hex_digit h dh /\ hex_digit l dl /\ b = 16 * dh + dl) t ps.
Definition bpf_name (name t : list N) : Prop :=
  exists tx rest, name = bs "bpf_prog_"%string ++ tx ++ rest /\ tag_text t tx /\
    (rest = [] \/ exists r, rest = bs "_"%string ++ r).
Definition is_bpf (name : list N) : Prop := exists t, bpf_name name t.
Definition lower_hex (c : N) : Prop := 48 <= c <= 57 \/ 97 <= c <= 102.
Definition ascii (s : list N) : Prop := Forall (fun c => c < 128) s.
Definition no_plus (s : list N) : Prop := Forall (fun c => c <> 43) s.
