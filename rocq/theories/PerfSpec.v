(** * The perf map format

    After tools/perf/Documentation/jit-interface.txt of the Linux kernel: one
    function per line, with its start and size in hexadecimal and its name up
    to the end of the line. *)

From Verif Require Import Base Text Num Sym PerfMap.
Local Open Scope N_scope.

Definition nl (c : N) : Prop := c = 10 \/ c = 13.
(** White space within a line *)
Definition gap (c : N) : Prop := c = 32 \/ c = 9 \/ c = 12.

Inductive perf_line : pfn -> list N -> Prop :=
| PerfLine : forall name addr size a c1 s c2,
    hex_text addr a -> gap c1 -> hex_text size s -> gap c2 ->
    Forall (fun c => ~ nl c) name -> (exists cs, Forall is_scalar cs /\ name = utf8_enc cs) ->
    addr < 2 ^ 64 -> size < 2 ^ 64 ->
    perf_line (PFn name addr size) (a ++ c1 :: s ++ c2 :: name).

Inductive perf_text : list pfn -> list N -> Prop :=
| PTNil : perf_text [] []
| PTBlank : forall es c t, nl c -> perf_text es t -> perf_text es (c :: t)
| PTLast : forall e s, perf_line e s -> perf_text [e] s
| PTCons : forall e s es c t, perf_line e s -> nl c -> perf_text es t -> perf_text (e :: es) (s ++ c :: t).

(** An address belonging to a function; one of unknown (no) size has its start
    only. *)
Definition at_fn (f : pfn) (a : N) : Prop :=
  pf_addr f <= a < pf_addr f + pf_size f \/ (pf_size f = 0 /\ a = pf_addr f).
Definition disjoint_fns (es : list pfn) : Prop :=
  forall i j f g a, nth_error es i = Some f -> nth_error es j = Some g -> at_fn f a -> at_fn g a -> i = j.
(** No function starts between [f] and [a]. *)
Definition closest_fn (es : list pfn) (f : pfn) (a : N) : Prop :=
  pf_addr f <= a /\ forall g, In g es -> pf_addr g <= a -> pf_addr g <= pf_addr f.
Definition fits (f : pfn) : Prop := pf_addr f + pf_size f < 2 ^ 64.
Definition reported_fn (f : pfn) (s : resolved_sym) : Prop :=
  s = ResolvedSym (pf_name f) None (pf_addr f) (Some (pf_size f)) LangUnknown None [].
