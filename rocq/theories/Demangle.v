(** * Model of names and options in /repo/src/symbolize/symbolizer.rs

    The demanglers of Rust and C++ names are libraries: arbitrary functions here. *)

From Verif Require Import Base Sym Symbolizer.
Local Open Scope N_scope.

Section Demangle.
  Context (rust cpp : list N -> option (list N)).

  Definition or_else {A} (a b : option A) : option A := match a with Some x => Some x | None => b end.
  (** lines 124-144 [maybe_demangle_impl] *)
  Definition maybe_demangle_impl (name : list N) (lang : src_lang) : list N :=
    match
      match lang with
      | LangRust => rust name
      | LangCpp => cpp name
      | LangUnknown => or_else (rust name) (cpp name)
      end
    with
    | Some x => x
    | None => name
    end.
  (** lines 153-159 [maybe_demangle] *)
  Definition maybe_demangle (name : list N) (lang : src_lang) (demangle : bool) : list N :=
    if demangle then maybe_demangle_impl name lang else name.

  (** lines 303-330, 422-487 [Builder]: options of a [Symbolizer]; the process ID
      is given *)
  Definition build (code_info inlined_fns demangle : bool) (self : N) : config :=
    Config (find_sym_opts code_info inlined_fns) (fun name lang => maybe_demangle name lang demangle) self.
  Definition build_default (self : N) : config := build true true true self.
End Demangle.
