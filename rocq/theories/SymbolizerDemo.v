(** * Small worlds for examples *)

From Verif Require Import Base Util Amap Maps FileCache Sym Inspect Normalize Symbolizer SymbolizerSpec.
Local Open Scope N_scope.

Definition meta_of (n : N) : file_meta := FileMeta 1 n 0 0%Z 0%Z.
(** Functions of 16 bytes, named by module and address *)
Definition fn (name a : N) : resolved_sym :=
  ResolvedSym [name; a] None a (Some 16) LangUnknown None [].
Definition demo_info (o : find_addr_opts) (n : list N) (name : N) : sym_info :=
  SymInfo n (16 * name) (Some 16) TFunction (if fa_file_offset o then Some name else None) None.
Definition demo_resolver (name : N) : resolver :=
  Resolver (fun a _ => if a <? 4096 then Ok (inr UnknownAddr)
                       else if a =? 5000 then Err EInvalidData
                       else Ok (inl (fn name (16 * (a / 16)))))
           (fun off => if off <? 65536 then Ok (Some (off + 4096)) else Ok None)
           (fun n o => if nlen n =? 0 then Err EInvalidInput else Ok [demo_info o n name])
           (fun o go => let a := demo_info o [1] name in let b := demo_info o [2] name in
                        (if go [a] then [a; b] else [a], Ok tt)).

(** Files are numbers, and those from 100 on are not in the ELF format. [file]
    is the one a path stands for; it is identified by that number. *)
Record setup := Setup {
  su_file : path -> option N;
  su_maps : pid -> outcome (list (res maps_entry));
  su_link : N -> res (option (path * N));
  su_dwp : N -> option path;
  su_dispatch : option (N -> N -> path_name -> outcome (option resolver))
}.
Definition demo (u : setup) : world N N :=
  World
    (Fs (fun p => match su_file u p with Some f => Good (meta_of f) | None => Bad ENotFound end)
        (fun p => match su_file u p with Some f => Good f | None => Bad ENotFound end))
    (fun f _ => if f <? 100 then Good f else Bad EInvalidData)
    demo_resolver
    (fun _ => Good tt)
    (su_link u) (fun _ => 0) (su_dwp u)
    (fun P link dwp => Good (demo_resolver (1000 + P)))
    (fun f => Good [Good (Member [f] 100 50 (Some (0, [])))])
    None
    (fun r mb debug => Good (demo_resolver (if debug then 3000 else 2000)))
    (fun f _ => Good (demo_resolver f)) (fun f _ => Good (demo_resolver f)) (fun f _ => Good (demo_resolver f))
    (fun _ => Good (demo_resolver 0)) (fun n => Good (demo_resolver n))
    (su_maps u) (fun _ _ => demo_resolver 7) (su_dispatch u).
Definition plain_setup : setup :=
  Setup (fun p => Some (p mod 100)) (fun _ => Bad ENotFound) (fun _ => Ok None) (fun _ => None) None.
Definition with_file (f : path -> option N) (u : setup) := Setup f (su_maps u) (su_link u) (su_dwp u) (su_dispatch u).
Definition with_entries (es : list maps_entry) (u : setup) :=
  Setup (su_file u) (fun _ => Good (map Ok es)) (su_link u) (su_dwp u) (su_dispatch u).
Definition with_dwp (f : N -> option path) (u : setup) := Setup (su_file u) (su_maps u) (su_link u) f (su_dispatch u).
Definition with_dispatch (d : N -> N -> path_name -> outcome (option resolver)) (u : setup) :=
  Setup (su_file u) (su_maps u) (su_link u) (su_dwp u) (Some d).
Definition demo_config : config := Config WithInlined (fun name _ => name) 1.
Definition demo_new : state N N := s_new true.
Lemma demo_reachable : reachable demo_new.
Proof. exists true, []. reflexivity. Qed.
(** Names, addresses, and offsets *)
Definition brief (x : symbolized) : (list N * N * N) + reason :=
  match x with Known s => inl (sy_name s, sy_addr s, sy_offset s) | Unknown r => inr r end.
Definition brief_all (r : res (list symbolized)) := let* l := r in Ok (map brief l).
Definition brief_one (r : res symbolized) := let* x := r in Ok (brief x).
