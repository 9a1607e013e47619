(** * Errors: src/error.rs *)

From Coq Require Import String.
From Verif Require Import Base.
Local Open Scope string_scope.

(** What is known of errors of other libraries, and of [std::io::Error]: how
    they are displayed with [{}] and with [{:#}], and their sources. *)
Inductive foreign := Foreign (text alternate : string) (source : option foreign).
(** [std::io::ErrorKind]: the kinds listed in [kind], and all others *)
Inductive io_kind :=
| IoNotFound | IoPermissionDenied | IoAlreadyExists | IoWouldBlock | IoInvalidInput | IoInvalidData
| IoTimedOut | IoWriteZero | IoUnsupported | IoUnexpectedEof | IoOutOfMemory | IoElse (n : N).

(** lines 102-133 [ErrorImpl]. A backtrace is its text, if it was captured. *)
Inductive error :=
| Dwarf (e : foreign) (backtrace : option string)
| Io (k : io_kind) (e : foreign) (backtrace : option string)
| Std (e : foreign) (backtrace : option string)
| ContextOwned (context : string) (source : error)
| ContextStatic (context : string) (source : error).

(** lines 136-159 *)
Fixpoint kind (e : error) : ekind :=
  match e with
  | Dwarf _ _ => EInvalidDwarf
  | Io k _ _ =>
      match k with
      | IoNotFound => ENotFound
      | IoPermissionDenied => EPermissionDenied
      | IoAlreadyExists => EAlreadyExists
      | IoWouldBlock => EWouldBlock
      | IoInvalidInput => EInvalidInput
      | IoInvalidData => EInvalidData
      | IoTimedOut => ETimedOut
      | IoWriteZero => EWriteZero
      | IoUnsupported => EUnsupported
      | IoUnexpectedEof => EUnexpectedEof
      | IoOutOfMemory => EOutOfMemory
      | IoElse _ => EOther
      end
  | Std _ _ => EOther
  | ContextOwned _ source | ContextStatic _ source => kind source
  end.

(** lines 161-172 *)
Fixpoint backtrace (e : error) : option string :=
  match e with
  | Dwarf _ b => b
  | Io _ _ b => b
  | Std _ b => b
  | ContextOwned _ source => backtrace source
  | ContextStatic _ source => backtrace source
  end.

(** Errors as seen by [std::error::Error]: lines 274-284, and 522-527 for [Error] *)
Inductive any := AErr (e : error) | AForeign (e : foreign).
Definition f_text (e : foreign) : string := match e with Foreign t _ _ => t end.
Definition f_alternate (e : foreign) : string := match e with Foreign _ a _ => a end.
Definition f_source (e : foreign) : option foreign := match e with Foreign _ _ s => s end.
Definition source (e : error) : option any :=
  match e with
  | Dwarf e _ => option_map AForeign (f_source e)
  | Io _ e _ => option_map AForeign (f_source e)
  | Std e _ => option_map AForeign (f_source e)
  | ContextOwned _ s | ContextStatic _ s => Some (AErr s)
  end.
Definition any_source (a : any) : option any :=
  match a with AErr e => source e | AForeign e => option_map AForeign (f_source e) end.

(** Enough steps for the loops over sources *)
Fixpoint f_depth (e : foreign) : nat := match e with Foreign _ _ s => S (match s with Some s => f_depth s | None => 0 end) end.
Fixpoint depth (e : error) : nat :=
  match e with
  | Dwarf e _ | Io _ e _ | Std e _ => f_depth e
  | ContextOwned _ s | ContextStatic _ s => S (depth s)
  end.

(** lines 254-261. The formatter is handed on, and its alternate flag with it. *)
Definition f_display (alternate : bool) (e : foreign) : string := if alternate then f_alternate e else f_text e.
Definition display_own (alternate : bool) (e : error) : string :=
  match e with
  | Dwarf e _ => f_display alternate e
  | Io _ e _ => f_display alternate e
  | Std e _ => f_display alternate e
  | ContextOwned c _ => c
  | ContextStatic c _ => c
  end.
(** [{err}] for a source *)
Definition any_text (a : any) : string := match a with AErr e => display_own false e | AForeign e => f_display false e end.
(** The loops over sources: lines 234-238 and 264-268 *)
Fixpoint causes (fuel : nat) (before : string) (e : option any) : string :=
  match fuel with
  | O => ""
  | S fuel =>
      match e with
      | None => ""
      | Some a => before ++ any_text a ++ causes fuel before (any_source a)
      end
  end.
(** lines 252-272 [Display] *)
Definition display (alternate : bool) (e : error) : string :=
  display_own alternate e ++ (if alternate then causes (depth e) ": " (source e) else "").
Definition newline : string := String (Ascii.ascii_of_nat 10) "".
(** lines 222-247 [Debug], without the alternate flag *)
Definition debug (e : error) : string :=
  "Error: " ++ display_own false e ++
  match source e with
  | Some s => newline ++ newline ++ "Caused by:" ++ causes (depth e) (newline ++ "    ") (Some s)
  | None => ""
  end ++
  match backtrace e with
  | Some b => newline ++ newline ++ "Stack backtrace:" ++ newline ++ b
  | None => ""
  end.

(** lines 439-446 [with_io_error]: [io::Error::new(kind, text)] has no source
    and its text has no alternate form. The backtrace captured when the error is
    made, if any, is an argument. *)
Definition with_io_error (k : io_kind) (text : string) (b : option string) : error := Io k (Foreign text text None) b.
(** [Cow<'static, Str>], lines 86-99 *)
Inductive cow := Borrowed (s : string) | Owned (s : string).
(** lines 487-505 *)
Definition layer_context (e : error) (c : cow) : error :=
  match c with
  | Owned c => ContextOwned c e
  | Borrowed c => ContextStatic c e
  end.
(** lines 611-637: on results *)
Definition context {A} (r : A + error) (c : cow) : A + error :=
  match r with inl a => inl a | inr e => inr (layer_context e c) end.
(** lines 716-725 [Option::ok_or_error], and its uses with a fixed kind, lines 671-713 *)
Definition ok_or_error {A} (o : option A) (k : io_kind) (text : string) (b : option string) : A + error :=
  match o with Some a => inl a | None => inr (with_io_error k text b) end.
Definition ok_or_invalid_data {A} (o : option A) text b := ok_or_error o IoInvalidData text b.
Definition ok_or_invalid_input {A} (o : option A) text b := ok_or_error o IoInvalidInput text b.
Definition ok_or_not_found {A} (o : option A) text b := ok_or_error o IoNotFound text b.
Definition ok_or_unexpected_eof {A} (o : option A) text b := ok_or_error o IoUnexpectedEof text b.

(** An error of this library as another one sees it, and lines 554-568 for a
    box with such an error in it, or an [io::Error] made of one (lines 542-552) *)
Fixpoint source_as_foreign (fuel : nat) (a : any) : foreign :=
  match fuel with
  | O => Foreign "" "" None
  | S fuel =>
      Foreign (any_text a) (match a with AErr e => display true e | AForeign e => f_alternate e end)
              (option_map (source_as_foreign fuel) (any_source a))
  end.
Definition as_foreign (e : error) : foreign := source_as_foreign (S (depth e)) (AErr e).
Definition from_box (e : foreign) (b : option string) : error := Std e b.
Definition from_io (k : io_kind) (e : foreign) (b : option string) : error := Io k e b.
