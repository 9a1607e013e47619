(** * The process dispatcher of C programs: capi/src/symbolize.rs

    The function of the program is any function of the addresses of two strings,
    the pointer it was registered with, and the memory; what it does is a part of
    the contract in CapiDispSpec.v. A resolver is what opening the file gives,
    [open], for the directories the symbolizer was configured with. Memory the
    library itself needs for resolvers and errors is not modelled. *)

From Coq Require Import ZArith.
From Verif Require Import Base Util UtilProofs Bytes Maps Sym Symbolizer Normalize CapiIn CapiSpec CapiOut CapiCalls CapiNorm CapiInsp.
Local Open Scope N_scope.

(** lines 670-681 [blaze_symbolizer_dispatch], the type of [dispatch_cb]:
    [maps_file], [symbolic_path] and [ctx] *)
Definition callback := N -> N -> N -> heap -> res (N * heap).

Section Dispatch.
  Context (al : allocator) (fuel : nat) {R : Type}.
  (** [ElfResolver::open] without directories, [ElfResolver::open_with_debug_dirs]
      with them *)
  Context (open : option (list (list N)) -> list N -> outcome R).

  (** lines 844-848: what is registered; functions are known by their addresses *)
  Definition registered (functions : N -> callback) (dispatch : N) (h : heap) : res (option (callback * N)) :=
    if dispatch =? 0 then Ok None
    else
      let* cb := get_num 8 dispatch h in
      let* ctx := get_num 8 (dispatch + 8) h in
      Ok (Some (functions cb, ctx)).

  (** Dropping a [CString], which knows its length *)
  Definition drop_cstring (p : N) (s : list N) (h : heap) : res heap := h_free p (nlen s + 1) 1 h.

  (** lines 849-878, the closure *)
  Definition dispatch_call (dirs : option (list (list N))) (cb : callback) (ctx : N) (member_entry : path_name) (h : heap)
    : res (outcome (option R) * heap) :=
    match member_entry with
    | PPath maps_file symbolic_path =>
        if existsb (fun b => b =? 0) maps_file then Ok (Bad EInvalidData, h)
        else
          let* '(p, h) := cstring_new al maps_file h in
          if existsb (fun b => b =? 0) symbolic_path then
            let* h := drop_cstring p maps_file h in Ok (Bad EInvalidData, h)
          else
            let* '(q, h) := cstring_new al symbolic_path h in
            let* '(result, h) := cb p q ctx h in
            let* '(r, h) :=
              (if result =? 0 then Ok (Good None, h)
               else
                 let* path := read_cstr (hp_get h) fuel result in
                 let resolver := open dirs path in
                 let* h := c_free result h in
                 Ok (match resolver with Good r => Good (Some r) | Bad k => Bad k end, h)) in
            let* h := drop_cstring q symbolic_path h in
            let* h := drop_cstring p maps_file h in
            Ok (r, h)
    | PComponent _ => Ok (Good None, h)
    end.
End Dispatch.
