(* C41-C43: the converting reader: raw pointers, files in the other byte order, UNCHECKED. *)
From Verif Require Import Base Bytes HeaderModel HeaderSpec HashModel SerialModel SerialSpec SerialDeser SerialRead SerialFinal SerialLimits
  SerialProps ConvModel ConvSpec ConvProofs ConvTop ConvSafe.
Local Open Scope Z_scope.

(* C41: what serialize wrote for a graph with contents v is accepted on every host (byte order hb),
   with raw or offset pointers, checked or UNCHECKED (m' agrees with m on the file format only).
   Afterwards the host sees the same contents v and corresponding pointers, all inside the buffer. *)
Theorem C41_every_representation : forall env A t be_src rel src m th f a v tr out,
  types_ok A env t -> no_cstring env t -> total_mem src -> writer_mode m -> (th < W64)%N ->
  Z.of_nat (data_start m) mod align_of t = 0 ->
  graph_at env be_src rel src f t a v tr ->
  serialize env be_src rel m th src f t a = Ok out -> Z.of_nat (length out) < 2 ^ 62 ->
  forall B, 0 < B < 2 ^ 62 -> (A | B) ->
  forall hb raw strict m', same_format m m' ->
  let root := B + Z.of_nat (data_start m) in
  exists m1 tr', convert env hb raw strict m' th f t B out = Ok (root, m1) /\
    host_image env hb raw B (Z.of_nat (length out)) m1 clean_table f t root v tr' /\ mirrors tr tr' /\
    Forall (in_buffer B (B + Z.of_nat (length out))) tr' /\
    outside_same B (Z.of_nat (length out)) (at_base B out) m1.
Proof. exact converts_serialized. Qed.
Print Assumptions C41_every_representation.

(* C41: the same for every buffer that holds an object graph (whoever wrote it) in which no byte
   belongs to two members. *)
Theorem C41_unshared_buffers : forall env A t m th f B b v tr hb0,
  types_ok A env t -> no_cstring env t -> bytes_ok b -> Z.of_nat (length b) < 2 ^ 62 -> 0 < B < 2 ^ 62 ->
  let root := B + Z.of_nat (data_start m) in
  check hb0 m th b = Ok tt ->
  image_at env (is_mode_enabled m SERIALIZE_BIG_ENDIAN) B b ctrl_tab f t root v tr -> unshared tr ->
  forall hb raw strict m', same_format m m' ->
  exists m1, convert env hb raw strict m' th f t B b = Ok (root, m1) /\
    host_image env hb raw B (Z.of_nat (length b)) m1 ctrl_tab f t root v tr /\
    outside_same B (Z.of_nat (length b)) (at_base B b) m1.
Proof. exact converts_unshared. Qed.
Print Assumptions C41_unshared_buffers.

(* C41: with offset pointers and the byte order of the host nothing is written, and the decision
   is that of the checking reader (C01-C05), for all bytes. *)
Theorem C41_native_unchanged : forall env be strict m th f t B b,
  is_mode_enabled m SERIALIZE_BIG_ENDIAN = be -> is_mode_enabled m UNCHECKED = false ->
  convert env be false strict m th f t B b =
  (let* r := deserialize env be strict m th f t B b in Ok (r, at_base B b)).
Proof. exact native_file. Qed.
Print Assumptions C41_native_unchanged.

(* Finding: generic_cstring has no conversion. A heap string in a file is accepted with raw
   pointers, but its pointer stays an offset. *)
Definition cstr_src : mem := mem_of [(1000, le_enc 8 2000 ++ le_enc 4 20 ++ [1; 0; 0; 255]%N); (2000, repeat 65%N 20 ++ [0]%N)].
Theorem C41_cstring_not_converted_refuted : exists v tr out m1,
  total_mem cstr_src /\ graph_at [] false false cstr_src 3 TCStr 1000 v tr /\
  serialize [] false false 0 0 cstr_src 3 TCStr 1000 = Ok out /\
  convert [] false true false 0 0 3 TCStr 4096 out = Ok (4096, m1) /\
  forall f v' tr', ~ host_image [] false true 4096 (Z.of_nat (length out)) m1 ctrl_tab f TCStr 4096 v' tr'.
Proof.
  eexists. eexists. set (out := out_of (serialize [] false false 0 0 cstr_src 3 TCStr 1000)).
  exists out, (after (convert [] false true false 0 0 3 TCStr 4096 out)).
  split; [apply mem_of_total; vm_compute; reflexivity|]. split.
  { split; [vm_compute; reflexivity|]. split.
    - split; [constructor|]. intros ix a n al q H _. cbn in H. repeat (destruct H as [H|H]; [discriminate H|]). destruct H.
    - intros slot q sz al ix a n al' H _. cbn in H. repeat (destruct H as [H|H]; [discriminate H|]). destruct H. }
  split; [apply out_ok; vm_compute; reflexivity|]. split; [apply after_ok; vm_compute; reflexivity|].
  intros [|f] v' tr' H; [discriminate H|]. unfold host_image in H. vm_compute in H. discriminate H.
Qed.
Print Assumptions C41_cstring_not_converted_refuted.

(* Finding: float, double and enum members are not swapped. Written in big endian mode on a little
   endian host and read on a big endian host, a double has another value. *)
Definition one_src : mem := mem_of [(1000, le_enc 8 4607182418800017408)].
Theorem C41_float_not_swapped_refuted : exists out m1 l l1,
  total_mem one_src /\ rdn one_src 1000 8 = Some l /\
  serialize [] false false SERIALIZE_BIG_ENDIAN 0 one_src 3 (TRaw 8) 1000 = Ok out /\
  convert [] true false false SERIALIZE_BIG_ENDIAN 0 3 (TRaw 8) 4096 out = Ok (4096, m1) /\
  rdn m1 4096 8 = Some l1 /\ to_int true l1 <> to_int false l.
Proof.
  set (out := out_of (serialize [] false false SERIALIZE_BIG_ENDIAN 0 one_src 3 (TRaw 8) 1000)).
  exists out, (after (convert [] true false false SERIALIZE_BIG_ENDIAN 0 3 (TRaw 8) 4096 out)). eexists. eexists.
  split; [apply mem_of_total; vm_compute; reflexivity|]. split; [vm_compute; reflexivity|].
  split; [apply out_ok; vm_compute; reflexivity|]. split; [apply after_ok; vm_compute; reflexivity|].
  split; [vm_compute; reflexivity|]. vm_compute. discriminate.
Qed.
Print Assumptions C41_float_not_swapped_refuted.

(* Finding: the size of a bit vector is not swapped: its cista_members (bitvec.h:47) leave out size_ (bitvec.h:481-482: 4 bytes at 0, the blocks at 8).
   Three bits written in big endian mode on a little endian host are 50331648 bits, in the same one block, on a big endian host. *)
Definition bitvec_env : list ty := [TInt 8].
Definition bitvec_ty : ty := TAgg [(8, TVec 4 true 0)] 32 8.
Definition bitvec_src : mem := mem_of [(1000, le_enc 4 3 ++ repeat 0%N 4 ++ le_enc 8 2000 ++ le_enc 4 1 ++ le_enc 4 1 ++ 1%N :: repeat 0%N 7); (2000, le_enc 8 5)].
Theorem C41_bitvec_size_refuted : exists out m1,
  total_mem bitvec_src /\ dint false bitvec_src 1000 4 = Ok 3 /\ dint false bitvec_src 1016 4 = Ok 1 /\ dint false bitvec_src 2000 8 = Ok 5 /\
  serialize bitvec_env false false SERIALIZE_BIG_ENDIAN 0 bitvec_src 3 bitvec_ty 1000 = Ok out /\
  convert bitvec_env true false false SERIALIZE_BIG_ENDIAN 0 3 bitvec_ty 4096 out = Ok (4096, m1) /\
  dint true m1 4096 4 = Ok 50331648 /\ dint true m1 4112 4 = Ok 1 /\ dint true m1 4128 8 = Ok 5.
Proof.
  set (out := out_of (serialize bitvec_env false false SERIALIZE_BIG_ENDIAN 0 bitvec_src 3 bitvec_ty 1000)).
  exists out, (after (convert bitvec_env true false false SERIALIZE_BIG_ENDIAN 0 3 bitvec_ty 4096 out)).
  split; [apply mem_of_total; vm_compute; reflexivity|]. split; [vm_compute; reflexivity|]. split; [vm_compute; reflexivity|]. split; [vm_compute; reflexivity|].
  split; [apply out_ok; vm_compute; reflexivity|]. split; [apply after_ok; vm_compute; reflexivity|].
  split; [vm_compute; reflexivity|]. split; [vm_compute; reflexivity|]. vm_compute. reflexivity.
Qed.
Print Assumptions C41_bitvec_size_refuted.

(* C42: whatever the bytes, the checked converting reader does nothing undefined (a read or write
   outside of the buffer is UB in the model) and changes no memory outside of the buffer. Partial:
   entries of hash tables own no memory elsewhere; pointer arithmetic of offset pointers wraps. *)
Theorem C42_safe_on_any_bytes_partial : forall env A t hb raw strict m th f B b,
  types_ok A env t -> inline_tables env t -> raw = true \/ strict = false ->
  0 < B < 2 ^ 62 -> Z.of_nat (length b) < 2 ^ 62 -> bytes_ok b -> is_mode_enabled m UNCHECKED = false ->
  convert env hb raw strict m th f t B b <> UB /\
  forall r m1, convert env hb raw strict m th f t B b = Ok (r, m1) ->
    r = B + Z.of_nat (data_start m) /\ outside_same B (Z.of_nat (length b)) (at_base B b) m1.
Proof.
  intros env A t hb raw strict m th f B b Ht Hi Hr HB Hl Hb Hm.
  pose proof (convert_safe env A t hb raw strict m th f B b True Ht Hi Hr HB Hl Hb Hm (or_introl I)) as H.
  destruct (convert env hb raw strict m th f t B b) as [[r' m']| | |]; cbn [pst fst snd] in H.
  - split; [discriminate|]. intros r m1 E. injection E as <- <-. exact H.
  - split; [discriminate|]. discriminate.
  - destruct H.
  - split; discriminate.
Qed.
Print Assumptions C42_safe_on_any_bytes_partial.

(* Finding: the control bytes of a table are read while its entries are converted. If an entry owns
   memory, it can lead to the control bytes of its own table: the end marker moves, and the
   iteration reads past the end of the buffer. *)
Theorem C42_hash_table_refuted : exists b,
  bytes_ok b /\ types_ok 8 [TUniq 1; TInt 4] (THash 0) /\ nesting [TUniq 1; TInt 4] 4 (THash 0) /\
  convert [TUniq 1; TInt 4] false false false SERIALIZE_BIG_ENDIAN 0 4 (THash 0) 4096 b = UB /\
  exists r, deserialize [TUniq 1; TInt 4] true false SERIALIZE_BIG_ENDIAN 0 4 (THash 0) 4096 b = Ok r.
Proof.
  exists ((let be8 x := rev (le_enc 8 x) in
    be8 48 ++ be8 88 ++ be8 1 ++ be8 3 ++ be8 2 ++ repeat 0 8 ++ repeat 0 32 ++ be8 16 ++ repeat 0 8 ++
    [128; 128; 5; 255] ++ repeat 128 8)%N).
  split; [unfold bytes_ok; vm_compute; repeat constructor|].
  split. { split; [split; [exists 1; reflexivity|split; [lia|repeat constructor; cbn; tauto]]|].
           split; [lia|]. split; [constructor|]. repeat (constructor; [cbn; lia|]). constructor. }
  split; [repeat constructor|]. split; [vm_compute; reflexivity|].
  eexists. vm_compute. reflexivity.
Qed.
Print Assumptions C42_hash_table_refuted.

(* Finding: with raw pointers acceptance does not imply that the result is an object graph in the
   buffer. struct { unique_ptr<big> p; unique_ptr<unique_ptr<char>> q; }, p null, q points to p: p is
   converted twice, the second time its null is taken for the offset 0, so it points to itself and
   big reaches out of the buffer. *)
Definition twice_env : list ty := [TAgg [(0, TInt 8)] 64 8; TUniq 2; TInt 1].
Definition twice_ty : ty := TAgg [(0, TUniq 0); (16, TUniq 1)] 32 8.
Definition twice : list N := le_enc 8 (u_of_z NULLPTR_OFFSET) ++ le_enc 8 0 ++ le_enc 8 (u_of_z (-16)) ++ le_enc 8 0.
Theorem C42_raw_result_refuted : bytes_ok twice /\ length twice = 32%nat /\
  exists m1, convert twice_env false true false 0 0 9 twice_ty 4096 twice = Ok (4096, m1) /\
    dint false m1 4096 8 = Ok 4096 /\
    forall f v tr, ~ host_image twice_env false true 4096 32 m1 ctrl_tab f twice_ty 4096 v tr.
Proof.
  split; [unfold bytes_ok; vm_compute; repeat constructor|]. split; [reflexivity|].
  exists (after (convert twice_env false true false 0 0 9 twice_ty 4096 twice)).
  split; [apply after_ok; vm_compute; reflexivity|]. split; [vm_compute; reflexivity|].
  unfold host_image. intros [|[|[|f]]] v tr H; vm_compute in H; discriminate H.
Qed.
Print Assumptions C42_raw_result_refuted.

(* Finding: the same with a file in the other byte order. struct { vector<uint32_t> v;
   unique_ptr<uint32_t> q; }, q points to the size of v: it is swapped again after v was checked. *)
Definition again_ty : ty := TAgg [(0, TVec 4 true 0); (24, TUniq 0)] 40 8.
Definition again : list N :=
  let be8 x := rev (le_enc 8 x) in
  be8 40%N ++ rev (le_enc 4 1) ++ rev (le_enc 4 1) ++ repeat 0%N 8 ++ be8 (u_of_z (-16)) ++ be8 0%N ++ repeat 7%N 4.
Theorem C42_endian_result_refuted : bytes_ok again /\ length again = 44%nat /\
  exists m1, convert [TInt 4] false false false SERIALIZE_BIG_ENDIAN 0 9 again_ty 4096 again = Ok (4096, m1) /\
    dint false m1 4104 4 = Ok (2 ^ 24) /\
    forall f v tr, ~ host_image [TInt 4] false false 4096 44 m1 ctrl_tab f again_ty 4096 v tr.
Proof.
  split; [unfold bytes_ok; vm_compute; repeat constructor|]. split; [reflexivity|].
  exists (after (convert [TInt 4] false false false SERIALIZE_BIG_ENDIAN 0 9 again_ty 4096 again)).
  split; [apply after_ok; vm_compute; reflexivity|]. split; [vm_compute; reflexivity|].
  intros [|[|f]] v tr H; [discriminate H|discriminate H|]. unfold host_image in H. vm_compute in H. discriminate H.
Qed.
Print Assumptions C42_endian_result_refuted.

(* C43: on any bytes the recursion of the checked converting reader is bounded by the nesting of
   the type. Partial like C42. *)
Theorem C43_terminates_partial : forall env A t hb raw strict m th k f B b,
  types_ok A env t -> inline_tables env t -> raw = true \/ strict = false ->
  0 < B < 2 ^ 62 -> Z.of_nat (length b) < 2 ^ 62 -> bytes_ok b -> is_mode_enabled m UNCHECKED = false ->
  nesting env k t -> (k <= f)%nat ->
  convert env hb raw strict m th f t B b <> Fuel.
Proof.
  intros env A t hb raw strict m th k f B b Ht Hi Hr HB Hl Hb Hm Hk Hf E.
  pose proof (convert_safe env A t hb raw strict m th f B b False Ht Hi Hr HB Hl Hb Hm (or_intror (ex_intro _ k (conj Hk Hf)))) as H.
  rewrite E in H. exact H.
Qed.
Print Assumptions C43_terminates_partial.

(* Finding: without that restriction the checked reader can run forever. An entry of a raw
   hash_set<unique_ptr<char*>> owns memory inside of the control bytes of its own table; turning the
   offset found there into an address writes 129 over a control byte. The iterator takes it for an
   empty slot (hash_storage.h:157-162, 181-187), but the number of empty slots to skip, computed from the lowest
   bit (139-142), is zero: operator++ stays where it is, whatever the number of steps. *)
Definition endless_env : list ty := [TUniq 1; TPtr 2; TInt 1].
Definition endless : list N :=
  (le_enc 8 48 ++ le_enc 8 296 ++ le_enc 8 9 ++ le_enc 8 16 ++ le_enc 8 14 ++ repeat 0 8 ++
   le_enc 8 264 ++ repeat 0 248 ++
   [5] ++ repeat 128 7 ++ le_enc 8 73 ++ [255] ++ repeat 128 8 ++ repeat 0 71)%N.
Definition got {X} (d : X) (r : res X) : X := match r with Ok x => x | _ => d end.
Lemma got_ok {X} (d : X) (r : res X) : (match r with Ok _ => true | _ => false end) = true -> r = Ok (got d r).
Proof. destruct r; try discriminate. reflexivity. Qed.
Theorem C43_endless_loop_refuted :
  bytes_ok endless /\ length endless = 400%nat /\
  types_ok 8 endless_env (THash 0) /\ nesting endless_env 3 (THash 0) /\
  (forall f, (3 <= f)%nat -> convert endless_env false true true 0 0 f (THash 0) 4096 endless = Fuel) /\
  exists m0 m1 t,
    (let* m := conv_slot false false true true true 4096 4496 (at_base 4096 endless) 4096 (TUniq 1) in
     conv_slot false false true true true 4096 4496 m 4104 (TInt 1)) = Ok m0 /\
    conv endless_env false false true true true 4096 4496 2 (TUniq 1) m0 4144 = Ok m1 /\
    ctrl_at m1 4400 16 = Ok t /\
    forall steps, skip unit unit steps t 1 = Fuel.
Proof.
  split; [unfold bytes_ok; vm_compute; repeat constructor|]. split; [reflexivity|].
  split. { split; [split; [exists 1; reflexivity|split; [lia|repeat constructor; cbn; tauto]]|].
           split; [lia|]. split; [constructor|]. repeat (constructor; [cbn; lia|]). constructor. }
  split; [repeat constructor|].
  split. { intros f H. destruct f as [|[|[|f]]]; try (exfalso; lia). vm_compute. reflexivity. }
  set (r0 := let* m := conv_slot false false true true true 4096 4496 (at_base 4096 endless) 4096 (TUniq 1) in
             conv_slot false false true true true 4096 4496 m 4104 (TInt 1)).
  exists (got (fun _ => None) r0).
  set (r1 := conv endless_env false false true true true 4096 4496 2 (TUniq 1) (got (fun _ => None) r0) 4144).
  set (t := Tbl unit unit [] ([5] ++ repeat 128 7 ++ [129; 17] ++ repeat 0 6 ++ [255] ++ repeat 128 8)%N 0 16 0).
  exists (got (fun _ => None) r1), t.
  split; [apply got_ok; vm_compute; reflexivity|].
  split; [apply got_ok; vm_compute; reflexivity|].
  split; [vm_compute; reflexivity|].
  assert (S8 : forall steps, skip unit unit steps t 8 = Fuel).
  { induction steps as [|s IH]; [reflexivity|]. cbn [skip].
    replace (rd_ctrl unit unit t 8) with (Ok 129%N) by reflexivity.
    replace (group (t_ctrl unit unit t) 8) with (Ok 4481%N) by (vm_compute; reflexivity).
    exact IH. }
  intros [|s]; [reflexivity|]. cbn [skip].
  replace (rd_ctrl unit unit t 1) with (Ok 128%N) by reflexivity.
  replace (group (t_ctrl unit unit t) 1) with (Ok 9331599717311742080%N) by (vm_compute; reflexivity).
  exact (S8 s).
Qed.
Print Assumptions C43_endless_loop_refuted.

(* ---- the graph of SerialProps, written in big endian with version, integrity and checked raw ---- *)
Definition ex_out : list N := out_of (serialize ex_env false false 14 12345 ex_src 5 ex_ty 1000).
Definition ex_run (raw : bool) (m : N) : res (Z * mem) := convert ex_env false raw true m 12345 5 ex_ty 4096 ex_out.
Example C41_example :
  serialize ex_env false false 14 12345 ex_src 5 ex_ty 1000 = Ok ex_out /\ writer_mode 14 /\ same_format 14 15 /\
  (exists m1 tr, ex_run true 14 = Ok (4112, m1) /\
    host_image ex_env false true 4096 (Z.of_nat (length ex_out)) m1 clean_table 5 ex_ty 4112 ex_contents tr) /\
  (exists m1 tr, ex_run false 15 = Ok (4112, m1) /\
    host_image ex_env false false 4096 (Z.of_nat (length ex_out)) m1 clean_table 5 ex_ty 4112 ex_contents tr) /\
  inline_tables ex_env ex_ty.
Proof.
  split; [apply out_ok; vm_compute; reflexivity|].
  split; [repeat split; vm_compute; reflexivity|]. split; [repeat constructor|].
  split. { exists (after (ex_run true 14)). eexists. split; [apply after_ok; vm_compute; reflexivity|]. unfold host_image. vm_compute. reflexivity. }
  split. { exists (after (ex_run false 15)). eexists. split; [apply after_ok; vm_compute; reflexivity|]. unfold host_image. vm_compute. reflexivity. }
  split; repeat constructor.
Qed.
