(** * The archive format (PKWARE APPNOTE 4.3.7, 4.3.12, 4.3.16)

    Little endian structures without padding. *)

From Verif Require Import Base UtilProofs Bytes.
Local Open Scope N_scope.

(** 4.3.7: a local file header, followed by the file's data. *)
Record local := Local {
  l_version : N; l_flags : N; l_method : N; l_time : N; l_date : N; l_crc : N;
  l_csize : N; l_usize : N; l_name : list N; l_extra : list N
}.
Definition wf_local (l : local) : Prop :=
  u16s [l_version l; l_flags l; l_method l; l_time l; l_date l; nlen (l_name l); nlen (l_extra l)] /\
  u32s [l_crc l; l_csize l; l_usize l].
Definition enc_local (l : local) : list N :=
  [80; 75; 3; 4] ++
  le_bytes 2 (l_version l) ++ le_bytes 2 (l_flags l) ++ le_bytes 2 (l_method l) ++
  le_bytes 2 (l_time l) ++ le_bytes 2 (l_date l) ++ le_bytes 4 (l_crc l) ++
  le_bytes 4 (l_csize l) ++ le_bytes 4 (l_usize l) ++
  le_bytes 2 (nlen (l_name l)) ++ le_bytes 2 (nlen (l_extra l)) ++
  l_name l ++ l_extra l.
Definition encrypted (l : local) : bool := N.testbit (l_flags l) 0.
(** Bit 3: the sizes follow the data. *)
Definition streamed (l : local) : bool := N.testbit (l_flags l) 3.

(** A file that is neither encrypted nor streamed, with its data. *)
Definition member_at (data : list N) (off : N) (l : local) (contents : list N) : Prop :=
  wf_local l /\ at_ data off (enc_local l ++ contents) /\ nlen contents = l_csize l /\
  encrypted l = false /\ streamed l = false.
Definition data_start (off : N) (l : local) : N := off + 30 + nlen (l_name l) + nlen (l_extra l).

(** 4.3.12: a record of the central directory. *)
Record cdrec := Cdrec {
  r_version : N; r_min_version : N; r_flags : N; r_method : N; r_time : N; r_date : N;
  r_crc : N; r_csize : N; r_usize : N; r_disk : N; r_iattr : N; r_eattr : N; r_offset : N;
  r_name : list N; r_extra : list N; r_comment : list N
}.
Definition wf_cdrec (r : cdrec) : Prop :=
  u16s [r_version r; r_min_version r; r_flags r; r_method r; r_time r; r_date r; r_disk r; r_iattr r;
        nlen (r_name r); nlen (r_extra r); nlen (r_comment r)] /\
  u32s [r_crc r; r_csize r; r_usize r; r_eattr r; r_offset r].
Definition enc_cdrec (r : cdrec) : list N :=
  [80; 75; 1; 2] ++
  le_bytes 2 (r_version r) ++ le_bytes 2 (r_min_version r) ++ le_bytes 2 (r_flags r) ++
  le_bytes 2 (r_method r) ++ le_bytes 2 (r_time r) ++ le_bytes 2 (r_date r) ++
  le_bytes 4 (r_crc r) ++ le_bytes 4 (r_csize r) ++ le_bytes 4 (r_usize r) ++
  le_bytes 2 (nlen (r_name r)) ++ le_bytes 2 (nlen (r_extra r)) ++ le_bytes 2 (nlen (r_comment r)) ++
  le_bytes 2 (r_disk r) ++ le_bytes 2 (r_iattr r) ++ le_bytes 4 (r_eattr r) ++ le_bytes 4 (r_offset r) ++
  r_name r ++ r_extra r ++ r_comment r.
Definition directory_at (data : list N) (off : N) (rs : list cdrec) : Prop :=
  Forall wf_cdrec rs /\ at_ data off (flat_map enc_cdrec rs).

(** 4.3.16: the end of central directory record, without its comment. *)
Record eocd := Eocd {
  z_disk : N; z_cd_disk : N; z_records : N; z_total : N; z_size : N; z_offset : N; z_comment_len : N
}.
Definition wf_eocd (z : eocd) : Prop :=
  u16s [z_disk z; z_cd_disk z; z_records z; z_total z; z_comment_len z] /\
  u32s [z_size z; z_offset z].
Definition enc_eocd (z : eocd) : list N :=
  [80; 75; 5; 6] ++
  le_bytes 2 (z_disk z) ++ le_bytes 2 (z_cd_disk z) ++ le_bytes 2 (z_records z) ++
  le_bytes 2 (z_total z) ++ le_bytes 4 (z_size z) ++ le_bytes 4 (z_offset z) ++
  le_bytes 2 (z_comment_len z).
Definition end_record_at (data : list N) (off : N) (z : eocd) : Prop :=
  wf_eocd z /\ exists comment, nlen comment = z_comment_len z /\ at_ data off (enc_eocd z ++ comment).
(** The whole archive is in one file. *)
Definition single_file (z : eocd) : Prop := z_disk z = 0 /\ z_cd_disk z = 0 /\ z_total z = z_records z.
