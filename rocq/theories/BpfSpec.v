(** * Specification of BPF programs and their source lines

    What the kernel knows about its BPF programs and how it tells
    (include/uapi/linux/bpf.h, include/uapi/linux/btf.h), and what source line an
    address belongs to. *)

From Verif Require Import Base Util UtilProofs Bytes Sym Bpf.
Local Open Scope N_scope.

(** A machine instruction starting a source line *)
Record src_line := SrcLine { sl_addr : N; sl_file : list N; sl_line : N; sl_column : N }.
(** A program, with its sub-programs; [bp_lines] is [None] if there is no BTF. *)
Record bprog := BProg { bp_id : N; bp_tag : list N; bp_sub : list (list N); bp_lines : option (list src_line) }.
Definition has_tag (p : bprog) (t : list N) : Prop := t = bp_tag p \/ In t (bp_sub p).

(** ** What the kernel tells *)

(** A string in a table of NUL-terminated strings *)
Definition str_at (strs : list N) (off : N) (name : list N) : Prop :=
  exists pre post, strs = pre ++ name ++ 0 :: post /\ nlen pre = off /\ ~ In 0 name.
(** BTF: a header of at least 24 bytes giving its own length and the place of the
    strings after it *)
Definition btf_image (data strs : list N) : Prop :=
  exists flags hdr_len type_off type_len str_off rest pre post,
    data = le_bytes 2 0xeb9f ++ [1; flags] ++ le_bytes 4 hdr_len ++ le_bytes 4 type_off ++ le_bytes 4 type_len ++
           le_bytes 4 str_off ++ le_bytes 4 (nlen strs) ++ rest /\
    hdr_len < 2 ^ 32 /\ type_off < 2 ^ 32 /\ type_len < 2 ^ 32 /\ str_off < 2 ^ 32 /\ nlen strs < 2 ^ 32 /\
    data = pre ++ strs ++ post /\ nlen pre = hdr_len + str_off.
Definition line_told (strs : list N) (told : line_info * N) (l : src_line) : Prop :=
  let '(i, addr) := told in
  addr = sl_addr l /\ str_at strs (li_file_name_off i) (sl_file l) /\
  li_line_col i = sl_line l * 2 ^ 10 + sl_column l /\ sl_column l < 2 ^ 10.
(** Without BTF nothing is said about lines. There may be no addresses, or fewer
    than lines. *)
Definition told (s : sys) (p : bprog) : Prop :=
  exists btf_id lines addrs,
    sys_info s (bp_id p) = Ok (ProgInfo (bp_id p) (bp_tag p) (bp_sub p) btf_id 16 8) /\
    sys_lines s (bp_id p) = Ok (lines, addrs) /\
    match bp_lines p with
    | None => btf_id = 0
    | Some ls =>
        exists data strs, btf_id <> 0 /\ sys_btf s btf_id = Ok data /\ btf_image data strs /\
          (length addrs <= length lines)%nat /\ Forall2 (line_told strs) (combine lines addrs) ls
    end.
(** Programs are enumerated by increasing ID. *)
Definition next_id (s : sys) (ps : list bprog) : Prop :=
  forall x, match sys_next s x with
            | Ok id => x < id /\ (exists p, In p ps /\ bp_id p = id) /\ (forall p, In p ps -> x < bp_id p -> id <= bp_id p)
            | Err ENotFound => forall p, In p ps -> bp_id p <= x
            | _ => False
            end.
Definition kernel_runs (s : sys) (ps : list bprog) : Prop :=
  next_id s ps /\ (forall p, In p ps -> 0 < bp_id p /\ told s p) /\
  (forall p q, In p ps -> In q ps -> bp_id p = bp_id q -> p = q).
(** Tags tell programs apart. *)
Definition tags_differ (ps : list bprog) : Prop :=
  forall p q t, In p ps -> In q ps -> has_tag p t -> has_tag q t -> p = q.

(** ** The source line of an address *)
Definition belongs (ls : list src_line) (addr : N) (l : src_line) : Prop :=
  In l ls /\ sl_addr l <= addr /\ forall l', In l' ls -> sl_addr l' <= addr -> sl_addr l' <= sl_addr l.
Definition line_of (p : bprog) (addr : N) (o : option code_info) : Prop :=
  match o with
  | Some ci =>
      exists ls l, bp_lines p = Some ls /\ belongs ls addr l /\
        ci = CodeInfo None (sl_file l) (Some (sl_line l)) (Some (sl_column l))
  | None => forall ls l, bp_lines p = Some ls -> In l ls -> addr < sl_addr l
  end.
