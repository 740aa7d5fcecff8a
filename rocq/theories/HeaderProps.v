(* C06 integrity, C07 version, C08 header layout, C09 byte order *)
From Verif Require Import Base Bytes FnvModel FnvProofs HeaderModel HeaderSpec HeaderProofs.

(* C06: any change of a single byte at or behind the stored checksum of an accepted buffer is
   rejected by an exception. *)
Theorem C06_single_byte_corruption_detected :
  forall (host_be : bool) (m th : N) (b b' : list N) (i : nat),
  bytes_ok b -> bytes_ok b' -> is_mode_enabled m WITH_INTEGRITY = true ->
  check host_be m th b = Ok tt ->
  integrity_start m <= i -> differ_at i b b' ->
  check host_be m th b' = Throw.
Proof. exact corruption. Qed.
Print Assumptions C06_single_byte_corruption_detected.

(* C06/C07: what serialize produced is accepted, whatever the object serializers put behind the
   header ([b'] is any buffer that starts with the header bytes serialize wrote). *)
Theorem C06_unmodified_accepted :
  forall (host_be : bool) (m th : N) (base : nat -> nat) root ra b io off b',
  writer_mode m -> (th < W64)%N ->
  serialize_start host_be m th base root ra = (b, io, off) ->
  bytes_ok b' -> data_start m < length b' -> firstn (data_start m) b' = firstn (data_start m) b ->
  exists out, serialize_finish host_be m b' io = Ok out /\ length out = length b' /\
    skipn (data_start m) out = skipn (data_start m) b' /\ check host_be m th out = Ok tt.
Proof. exact writer_accepted'. Qed.
Print Assumptions C06_unmodified_accepted.

(* C07: check accepts a buffer exactly if it is longer than the header, its first 8 bytes (in the
   byte order the mode asks for) are the type hash, and the checksum matches; otherwise it throws,
   and it never reads outside the buffer. *)
Theorem C07_check_exact : forall (host_be : bool) (m th : N) (b : list N), bytes_ok b ->
  let value8 i := if is_mode_enabled m SERIALIZE_BIG_ENDIAN then big_endian_value (slice i 8 b)
                  else little_endian_value (slice i 8 b) in
  (check host_be m th b = Ok tt <->
   data_start m < length b /\
   (version_enabled m = true -> value8 0 = th) /\
   (is_mode_enabled m WITH_INTEGRITY = true ->
    value8 (integrity_start m) = hash (skipn (data_start m) b) BASE_HASH)) /\
  (check host_be m th b = Ok tt \/ check host_be m th b = Throw).
Proof.
  intros host_be m th b H. exact (conj (check_ok_iff host_be m th b H) (check_cases host_be m th b H)).
Qed.
Print Assumptions C07_check_exact.

(* C08: for a root alignment that divides the header size the writer puts the root where the
   reader looks for it. Covers every alignment up to 8 (see the example). *)
Theorem C08_root_offset_agrees :
  forall (host_be : bool) (m th : N) (base : nat -> nat) root ra,
  writer_mode m -> (forall n, base n mod ra = 0) -> 0 < ra -> data_start m mod ra = 0 ->
  snd (serialize_start host_be m th base root ra) = data_start m.
Proof. exact root_offset. Qed.
Print Assumptions C08_root_offset_agrees.

(* Finding: a root with alignment 16 and one header word is written at 16 and read at 8. *)
Theorem C08_alignment_16_refuted : exists m root ra (base : nat -> nat),
  writer_mode m /\ (forall n, base n mod ra = 0) /\ length root = 16 /\ ra = 16 /\
  snd (serialize_start false m 0 base root ra) = 16 /\ data_start m = 8.
Proof.
  exists WITH_VERSION, (zeros 16), 16, (fun _ => 4096). unfold writer_mode.
  repeat split; vm_compute; reflexivity.
Qed.
Print Assumptions C08_alignment_16_refuted.

(* Finding: the SKIP_ flags are reader-only; a writer given one writes no header word for it. *)
Theorem C08_skip_flag_writer_refuted : exists m root ra (base : nat -> nat),
  (forall n, base n mod ra = 0) /\ ra = 8 /\
  snd (serialize_start false m 0 base root ra) <> data_start m.
Proof.
  exists SKIP_VERSION, (zeros 8), 8, (fun _ => 4096). repeat split. vm_compute. discriminate.
Qed.
Print Assumptions C08_skip_flag_writer_refuted.

(* C09 *)
Theorem C09_convert_involutive : forall (big host_be : bool) (w : nat) (x : N),
  (x < 256 ^ N.of_nat w)%N ->
  convert_endian big host_be w (convert_endian big host_be w x) = x.
Proof. exact convert_involutive. Qed.
Print Assumptions C09_convert_involutive.

(* C09: the bytes in the buffer depend on the mode only, not on the host. *)
Theorem C09_written_bytes_host_independent : forall (big host_be : bool) (w : nat) (x : N),
  host_bytes host_be w (convert_endian big host_be w x) =
  if big then rev (le_enc w x) else le_enc w x.
Proof. exact written_bytes. Qed.
Print Assumptions C09_written_bytes_host_independent.

(* C09: written on any host, read back on any host. *)
Theorem C09_cross_host_roundtrip : forall (big writer_be reader_be : bool) (w : nat) (x : N),
  (x < 256 ^ N.of_nat w)%N ->
  convert_endian big reader_be w
    (host_value reader_be (host_bytes writer_be w (convert_endian big writer_be w x))) = x.
Proof.
  exact cross_host.
Qed.
Print Assumptions C09_cross_host_roundtrip.

(* ---- concrete cases meeting the hypotheses ---- *)
Definition ex_mode : N := (WITH_VERSION + WITH_INTEGRITY + SERIALIZE_BIG_ENDIAN)%N.
Definition ex_out : list N :=
  match serialize_start false ex_mode 81985529216486895 (fun _ => 4096) [1; 2; 3; 4; 5; 6; 7; 8]%N 8 with
  | (b, io, _) => match serialize_finish false ex_mode (b ++ [9; 10])%N io with Ok o => o | _ => [] end
  end.
Example C06_example :
  check false ex_mode 81985529216486895 ex_out = Ok tt /\
  check false ex_mode 81985529216486895 (upd 20 7%N ex_out) = Throw /\
  check false ex_mode 81985529216486894 ex_out = Throw /\
  firstn 8 ex_out = [1; 35; 69; 103; 137; 171; 205; 239]%N /\ length ex_out = 26.
Proof. vm_compute. repeat split. Qed.
Example C08_example : forall ra, In ra [1; 2; 4; 8] ->
  snd (serialize_start false ex_mode 5 (fun _ => 4096) (zeros 24) ra) = data_start ex_mode.
Proof. intros ra H. repeat (destruct H as [<-|H]; [vm_compute; reflexivity|]). destruct H. Qed.
Example C09_example : convert_endian true false 4 305419896 = 2018915346%N.
Proof. reflexivity. Qed.
