(** * Lines of traces handed to C programs: capi/src/trace.rs *)

From Verif Require Import Base Util CapiSpec.
Local Open Scope N_scope.

(** [BufRead::read_until] on a cursor: the number of bytes read, the buffer
    with them appended, and what is left to read *)
Fixpoint read_until (delim : N) (buf l : list N) : N * list N * list N :=
  match l with
  | [] => (0, buf, [])
  | b :: l =>
      if b =? delim then (1, buf ++ [b], l)
      else let '(n, buf, l) := read_until delim (buf ++ [b]) l in (n + 1, buf, l)
  end.
Definition last_is (delim : N) (l : list N) : bool :=
  match rev l with b :: _ => b =? delim | [] => false end.
(** [CStr::from_ptr] *)
Fixpoint cstr_from (l : list N) : res (list N) :=
  match l with
  | [] => Panic
  | b :: l => if b =? 0 then Ok [] else let* s := cstr_from l in Ok (b :: s)
  end.

(** lines 78-102 [write]: what the callback gets, the buffer afterwards, and the
    number of bytes taken *)
Fixpoint write_loop (fuel : nat) (buf chunk : list N) (read : N) : res (list (list N) * list N * N) :=
  match fuel with
  | O => NoFuel
  | S fuel =>
      let '(n, buf, chunk) := read_until 10 buf chunk in
      if n =? 0 then Ok ([], buf, read)
      else
        let read := read + n in
        if last_is 10 buf then
          let* s := cstr_from (buf ++ [0]) in
          let* '(out, buf, read) := write_loop fuel [] chunk read in
          Ok (s :: out, buf, read)
        else Ok ([], buf, read)
  end.
Definition lw_write (buf chunk : list N) : res (list (list N) * list N * N) :=
  write_loop (S (length chunk)) buf chunk 0.

(** Writing chunks one after the other, with [flush] (lines 104-107) doing
    nothing in between. A chunk is written again from where the writer stopped
    ([write_all]). *)
Fixpoint lw_write_all (fuel : nat) (buf chunk : list N) : res (list (list N) * list N) :=
  match fuel with
  | O => NoFuel
  | S fuel =>
      match chunk with
      | [] => Ok ([], buf)
      | _ =>
          let* '(out, buf, n) := lw_write buf chunk in
          if n =? 0 then Err EWriteZero
          else
            let* '(out', buf) := lw_write_all fuel buf (ndrop n chunk) in
            Ok (out ++ out', buf)
      end
  end.
Fixpoint lw_run (buf : list N) (chunks : list (list N)) : res (list (list N) * list N) :=
  match chunks with
  | [] => Ok ([], buf)
  | c :: chunks =>
      let* '(out, buf) := lw_write_all (S (length c)) buf c in
      let* '(out', buf) := lw_run buf chunks in
      Ok (out ++ out', buf)
  end.
(** lines 126-143 [blaze_trace]: every event gets a writer of its own. *)
Fixpoint trace_events (events : list (list (list N))) : res (list (list N)) :=
  match events with
  | [] => Ok []
  | e :: events =>
      let* '(out, _) := lw_run [] e in
      let* out' := trace_events events in
      Ok (out ++ out')
  end.
