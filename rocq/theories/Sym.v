(** * Types shared by all symbol sources (/repo/src/symbolize/mod.rs) *)

From Verif Require Import Base.
Local Open Scope N_scope.

(** lines 459-498 [Reason] *)
Inductive reason :=
| Unmapped | InvalidFileOffset | MissingComponent | MissingSyms | Unsupported
| UnknownAddr | IgnoredError.
Definition reason_eqb (a b : reason) : bool :=
  match a, b with
  | Unmapped, Unmapped | InvalidFileOffset, InvalidFileOffset
  | MissingComponent, MissingComponent | MissingSyms, MissingSyms
  | Unsupported, Unsupported | UnknownAddr, UnknownAddr | IgnoredError, IgnoredError => true
  | _, _ => false
  end.
Lemma reason_eqb_spec : forall a b, reflect (a = b) (reason_eqb a b).
Proof. intros [] []; simpl; constructor; congruence. Qed.

(** lines 133-160 [FindSymOpts] *)
Inductive find_opts := Basic | WithCode | WithInlined.
Definition code_info_opt (o : find_opts) : bool :=
  match o with Basic => false | _ => true end.
Definition inlined_fns_opt (o : find_opts) : bool :=
  match o with WithInlined => true | _ => false end.

(** lines 241-262 [CodeInfo]. Paths and names are byte strings. *)
Record code_info := CodeInfo {
  ci_dir : option (list N);
  ci_file : list N;
  ci_line : option N;
  ci_column : option N
}.
(** lines 297-307 [InlinedFn] *)
Record inlined_fn := InlinedFn {
  if_name : list N;
  if_code_info : option code_info
}.
(** lines 329-339 [SrcLang] *)
Inductive src_lang := LangUnknown | LangCpp | LangRust.
(** lines 344-365 [ResolvedSym] *)
Record resolved_sym := ResolvedSym {
  rs_name : list N;
  rs_module : option (list N);
  rs_addr : N;
  rs_size : option N;
  rs_lang : src_lang;
  rs_code_info : option code_info;
  rs_inlined : list inlined_fn
}.

(** [Result<Result<ResolvedSym, Reason>>], what [Symbolize::find_sym] gives. *)
Definition find_result := res (resolved_sym + reason).

(** ** Lists of inlined functions under construction *)

(** Replace the last element's code info. *)
Fixpoint set_last_code (l : list inlined_fn) (ci : option code_info) : list inlined_fn :=
  match l with
  | [] => []
  | [x] => [InlinedFn (if_name x) ci]
  | x :: l => x :: set_last_code l ci
  end.
Fixpoint last_code (l : list inlined_fn) : option (option code_info) :=
  match l with
  | [] => None
  | [x] => Some (if_code_info x)
  | _ :: l => last_code l
  end.
