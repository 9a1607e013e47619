(** * Model of archive reading: src/zip.rs

    Archives are byte strings.  [usize] has 64 bits. *)

From Verif Require Import Base Util Bytes Mmap.
Local Open Scope N_scope.

(** lines 25-27 *)
Definition cd_file_header_magic : N := 33639248.    (* 0x02014b50 *)
Definition end_of_cd_record_magic : N := 101010256. (* 0x06054b50 *)
Definition local_file_header_magic : N := 67324752. (* 0x04034b50 *)

(** lines 120-132 [Entry] *)
Record entry := Entry {
  e_compression : N; e_path : list N; e_data_offset : N; e_data : list N
}.

(** lines 167-210 [parse_entry_at_offset], with [entry_impl]; the layout of
    [LocalFileHeader] is that of lines 98-114. Converting the name to a path
    cannot fail on Unix. *)
Definition local_entry (data : list N) (offset : N) : res entry :=
  let* d := of_option ENone (get_from offset data) in
  let start := nlen d in
  let* '(lfh, d) := read_slice 30 d in
  if negb (field 0 4 lfh =? local_file_header_magic) then Err EInvalidData
  else if N.testbit (field 6 2 lfh) 0 || N.testbit (field 6 2 lfh) 3 then Err EInvalidData
  else
    let* '(path, d) := read_slice (field 26 2 lfh) d in
    let* '(_, d) := read_slice (field 28 2 lfh) d in
    let data_offset := offset + (start - nlen d) in
    let* '(contents, _) := read_slice (field 18 4 lfh) d in
    Ok (Entry (field 8 2 lfh) path data_offset contents).
Definition parse_entry_at_offset (data : list N) (offset : N) : res entry :=
  ok_or EInvalidData (local_entry data offset).

(** lines 211-242 [parse_next_entry]: also gives the new [cd_record_data];
    the layout of [CdFileHeader] is that of lines 66-90. *)
Definition next_entry (archive_data : list N) (r : reader) : res entry * reader :=
  match read_slice 46 r with
  | Ok (cdfh, r) =>
      if negb (field 0 4 cdfh =? cd_file_header_magic) then (Err EInvalidData, r)
      else
        match read_slice (field 28 2 cdfh) r with
        | Ok (_, r) =>
            match read_slice (field 30 2 cdfh) r with
            | Ok (_, r) =>
                match read_slice (field 32 2 cdfh) r with
                | Ok (_, r) => (parse_entry_at_offset archive_data (field 42 4 cdfh), r)
                | _ => (Err EInvalidData, r)
                end
            | _ => (Err EInvalidData, r)
            end
        | _ => (Err EInvalidData, r)
        end
  | _ => (Err EInvalidData, r)
  end.

(** lines 248-251 [next], iterated *)
Fixpoint iter_entries (remaining_records : nat) (archive_data : list N) (r : reader)
    : list (res entry) :=
  match remaining_records with
  | O => []
  | S n => let '(e, r) := next_entry archive_data r in e :: iter_entries n archive_data r
  end.

(** lines 296-314 [try_parse_end_of_cd]; [None] is [Err ENone]; the layout of
    [EndOfCdRecord] is that of lines 33-58. *)
Definition try_parse_end_of_cd (data : list N) : res (N * N) :=
  let* '(eocd, data) := read_slice 22 data in
  if negb (field 0 4 eocd =? end_of_cd_record_magic) then Err ENone
  else if nlen data <? field 20 2 eocd then Err ENone
  else if negb (field 4 2 eocd =? 0) || negb (field 6 2 eocd =? 0)
            || negb (field 10 2 eocd =? field 8 2 eocd) then Err EInvalidData
  else Ok (field 16 4 eocd, field 8 2 eocd).

(** lines 318-354 [find_cd]: [n] offsets are left to be tried, the next being
    [start + n - 1]. *)
Fixpoint find_cd_loop (n : nat) (start : N) (data : list N) : res (N * N) :=
  match n with
  | O => Err EInvalidData
  | S n' =>
      let* tail := unwrap (get_from (start + N.of_nat n') data) in
      match try_parse_end_of_cd tail with
      | Err ENone => find_cd_loop n' start data
      | Ok (cd_offset, cd_records) =>
          let* _ := of_option EUnexpectedEof
                      (get_range cd_offset (cd_offset + cd_records * 46) data) in
          Ok (cd_offset, cd_records)
      | Err k => Err k
      | Panic => Panic
      | NoFuel => NoFuel
      end
  end.
Definition find_cd (data : list N) : res (N * N) :=
  let* end_ := of_option EInvalidData (chk_sub (nlen data) 22) in
  let start := sat_sub end_ (2 ^ 16) in
  find_cd_loop (S (N.to_nat (end_ - start))) start data.

(** lines 265-269 [Archive], 284-294 [with_mmap] *)
Record archive := Archive { a_mmap : mmap; a_cd_offset : N; a_cd_records : N }.
Definition with_mmap (v : mmap) : res archive :=
  let* '(cd_offset, cd_records) := find_cd (deref v) in
  Ok (Archive v cd_offset cd_records).

(** lines 356-369 [entries] *)
Definition entries (a : archive) : res (list (res entry)) :=
  let* cd_record_data := unwrap (get_from (a_cd_offset a) (deref (a_mmap a))) in
  Ok (iter_entries (N.to_nat (a_cd_records a)) (deref (a_mmap a)) cd_record_data).
