(* C01-C05, C40: serialization and checked deserialization of object graphs. *)
From Verif Require Import Base Bytes ArithModel HeaderModel HeaderSpec HeaderProofs HashModel HashSpec
  SerialModel SerialSpec SerialDeser SerialRead SerialFinal SerialLimits.
Local Open Scope Z_scope.

(* C01: whatever graph the source holds, the written bytes are accepted by the checked reader at
   every load address (aligned, and whether or not signed overflow is UB) and hold the same
   contents v. The reader runs on a host with the byte order of the file. *)
Theorem C01_round_trip : forall env A t be_src rel src m th f a v tr out,
  types_ok A env t -> total_mem src -> writer_mode m -> (th < W64)%N ->
  Z.of_nat (data_start m) mod align_of t = 0 ->
  graph_at env be_src rel src f t a v tr ->
  serialize env be_src rel m th src f t a = Ok out -> Z.of_nat (length out) < 2 ^ 62 ->
  let be := is_mode_enabled m SERIALIZE_BIG_ENDIAN in
  forall B, 0 < B < 2 ^ 62 -> (A | B) ->
    let root := B + Z.of_nat (data_start m) in
    (forall strict, deserialize env be strict m th f t B out = Ok root) /\
    exists tr', image_at env be B out clean_table f t root v tr'.
Proof.
  intros env A t be_src rel src m th f a v tr out Ht Hs Hm Hth Hr Hg Ho Hl be B HB HA root.
  destruct (trip_ok env A t Ht be_src rel src Hs m th Hm Hth Hr f a v tr Hg out Ho Hl) as (_ & _ & H).
  destruct (H B HB HA) as ((tr' & H1 & _) & H2). split; [exact H2|exact (ex_intro _ tr' H1)].
Qed.
Print Assumptions C01_round_trip.

(* C01: the writer does not fail, unless more than 2^62 bytes would be written. *)
Theorem C01_serialize_succeeds : forall env A t be_src rel src m th f a v tr,
  types_ok A env t -> total_mem src -> writer_mode m -> (th < W64)%N ->
  Z.of_nat (data_start m) mod align_of t = 0 ->
  graph_at env be_src rel src f t a v tr ->
  (exists out, serialize env be_src rel m th src f t a = Ok out) \/
  (exists root b io pos s, sbytes src a (Z.to_nat (size_of t)) = Ok root /\
     serialize_start be_src m th (fun _ => 0%nat) root (Z.to_nat (align_of t)) = (b, io, pos) /\
     ser env be_src (is_mode_enabled m SERIALIZE_BIG_ENDIAN) rel src f t a (Z.of_nat pos) (St b [] [] []) = Ok s /\
     2 ^ 62 < Z.of_nat (length (s_buf s))).
Proof.
  intros env A t be_src rel src m th f a v tr Ht Hs Hm Hth Hr Hg.
  destruct (trip env A t Ht be_src rel src Hs m th Hm Hth Hr f a v tr Hg) as [H|(out & H & _)];
    [right; exact H|left; exact (ex_intro _ out H)].
Qed.
Print Assumptions C01_serialize_succeeds.

(* C02: the blocks owned by the copy correspond one to one to those of the source, and every
   non-owning pointer of the copy points to the corresponding place: null stays null, a pointer
   to nothing the graph owns becomes null. *)
Theorem C02_pointers : forall env A t be_src rel src m th f a v tr out,
  types_ok A env t -> total_mem src -> writer_mode m -> (th < W64)%N ->
  Z.of_nat (data_start m) mod align_of t = 0 ->
  graph_at env be_src rel src f t a v tr ->
  serialize env be_src rel m th src f t a = Ok out -> Z.of_nat (length out) < 2 ^ 62 ->
  forall B, 0 < B < 2 ^ 62 -> (A | B) ->
    exists tr', image_at env (is_mode_enabled m SERIALIZE_BIG_ENDIAN) B out clean_table f t
                  (B + Z.of_nat (data_start m)) v tr' /\ mirrors tr tr'.
Proof.
  intros env A t be_src rel src m th f a v tr out Ht Hs Hm Hth Hr Hg Ho Hl B HB HA.
  destruct (trip_ok env A t Ht be_src rel src Hs m th Hm Hth Hr f a v tr Hg out Ho Hl) as (_ & _ & H).
  exact (proj1 (H B HB HA)).
Qed.
Print Assumptions C02_pointers.

(* C03: a buffer that is accepted at two addresses holds the same contents at both, and
   everything met on the way is at the same place relative to the buffer. *)
Theorem C03_position_independent : forall env A t be b m th f B B' strict strict' r r',
  types_ok A env t -> no_cstring env t -> bytes_ok b -> Z.of_nat (length b) < 2 ^ 62 ->
  0 < B < 2 ^ 62 -> 0 < B' < 2 ^ 62 ->
  deserialize env be strict m th f t B b = Ok r ->
  deserialize env be strict' m th f t B' b = Ok r' ->
  r' = r + (B' - B) /\
  exists v tr, image_at env be B b ctrl_tab f t r v tr /\
               image_at env be B' b ctrl_tab f t r' v (map (moved (B' - B)) tr).
Proof. exact same_everywhere. Qed.
Print Assumptions C03_position_independent.

(* C03: what serialize writes is accepted everywhere, so its contents and its inner references
   are the same at all addresses. *)
Theorem C03_serialized_everywhere : forall env A t be_src rel src m th f a v tr out,
  types_ok A env t -> total_mem src -> writer_mode m -> (th < W64)%N ->
  Z.of_nat (data_start m) mod align_of t = 0 ->
  graph_at env be_src rel src f t a v tr ->
  serialize env be_src rel m th src f t a = Ok out -> Z.of_nat (length out) < 2 ^ 62 ->
  exists tr', forall B, 0 < B < 2 ^ 62 -> (A | B) ->
    image_at env (is_mode_enabled m SERIALIZE_BIG_ENDIAN) B out clean_table f t
      (B + Z.of_nat (data_start m)) v (map (moved B) tr').
Proof. exact everywhere. Qed.
Print Assumptions C03_serialized_everywhere.

(* Finding: for hostile data acceptance itself depends on the load address: an offset that leads
   to address 0 reads as null at one address and is out of bounds at another. *)
Theorem C03_hostile_acceptance_refuted : exists b,
  bytes_ok b /\
  deserialize [TInt 4] false false 0 0 5 (TPtr 0) 4096 b = Ok 4096 /\
  deserialize [TInt 4] false false 0 0 5 (TPtr 0) 8192 b = Throw.
Proof.
  exists (le_enc 8 (u_of_z (-4096))).
  split; [apply le_enc_ok|]. split; vm_compute; reflexivity.
Qed.
Print Assumptions C03_hostile_acceptance_refuted.

(* C04: whatever the bytes, an accepted buffer holds an object graph, and everything met while
   reading it (bytes read, blocks owned, pointer targets) is inside the buffer and aligned. *)
Theorem C04_in_bounds_partial : forall env A t be strict b m th f B r,
  types_ok A env t -> no_cstring env t -> bytes_ok b -> Z.of_nat (length b) < 2 ^ 62 -> 0 < B < 2 ^ 62 ->
  deserialize env be strict m th f t B b = Ok r ->
  exists v tr, image_at env be B b ctrl_tab f t r v tr /\ Forall (in_buffer B (B + Z.of_nat (length b))) tr.
Proof. exact in_bounds. Qed.
Print Assumptions C04_in_bounds_partial.

(* C04: while deciding, no byte outside the buffer is read (such a read is UB in the model). With
   wrap-around semantics for pointer arithmetic; all types including generic_cstring. *)
Theorem C04_reads_inside_partial : forall env A t be b m th f B,
  types_ok A env t -> bytes_ok b -> Z.of_nat (length b) < 2 ^ 62 -> 0 < B < 2 ^ 62 ->
  deserialize env be false m th f t B b <> UB.
Proof.
  intros env A t be b m th f B Ht Hb Hl HB.
  exact (never_ub env A t Ht be false m th f B b HB Hl Hb eq_refl).
Qed.
Print Assumptions C04_reads_inside_partial.

(* Finding: generic_cstring has no check, any pointer is accepted. *)
Theorem C04_cstring_unchecked_refuted : exists b,
  bytes_ok b /\
  deserialize [] false false 0 0 5 TCStr 4096 b = Ok 4096 /\
  forall f v tr, ~ image_at [] false 4096 b ctrl_tab f TCStr 4096 v tr.
Proof.
  exists (le_enc 8 1000 ++ le_enc 4 5 ++ [0; 0; 0; 255]%N).
  split; [unfold bytes_ok; vm_compute; repeat constructor|]. split; [vm_compute; reflexivity|].
  intros [|f] v tr H; [discriminate H|]. unfold image_at in H. vm_compute in H. discriminate H.
Qed.
Print Assumptions C04_cstring_unchecked_refuted.

(* Finding: the address of a hostile offset is computed before the checked addition looks at it;
   in C++ the signed overflow is undefined behaviour. *)
Theorem C04_signed_overflow_refuted : exists b,
  bytes_ok b /\ deserialize [TInt 4] false true 0 0 5 (TPtr 0) 4096 b = UB.
Proof.
  exists (le_enc 8 (u_of_z (2 ^ 63 - 1))).
  split; [apply le_enc_ok|]. vm_compute. reflexivity.
Qed.
Print Assumptions C04_signed_overflow_refuted.

(* C05: the recursion depth is bounded by the nesting depth of the type, whatever the bytes. *)
Theorem C05_terminates_partial : forall env be strict m th k t f B b,
  nesting env k t -> (k <= f)%nat -> deserialize env be strict m th f t B b <> Fuel.
Proof. exact terminates. Qed.
Print Assumptions C05_terminates_partial.

(* Finding: for a recursive type hostile data makes the reader recurse forever. *)
Theorem C05_recursive_type_refuted : exists env t b,
  types_ok 8 env t /\ bytes_ok b /\
  forall f, deserialize env false false 0 0 f t 4096 b = Fuel.
Proof.
  exists node_env, node_ty, node_loop. split; [exact node_types_ok|].
  split; [exact (Forall_repeat_lt 16)|exact loop_all].
Qed.
Print Assumptions C05_recursive_type_refuted.

(* C40: a table built by any history without an erase since the last rehash (or since the
   beginning) is in the state C01 asks for. *)
Theorem C40_reachable_partial : forall K V hash keq dv max_cap ops1 ops2 t xs,
  key_laws K keq hash -> cap_bounded max_cap ->
  (ops1 = [] \/ exists o, ops1 = o ++ [Rehash K V]) ->
  forallb (fun o => negb (is_erase K V o)) ops2 = true ->
  run K V hash keq dv max_cap (empty_tbl K V) (ops1 ++ ops2) = Ok (t, xs) ->
  clean_table (t_size K V t) (N.of_nat (t_cap K V t)) (t_growth K V t) (firstn (t_cap K V t + 9) (t_ctrl K V t)) = true.
Proof. exact reachable_clean. Qed.
Print Assumptions C40_reachable_partial.
(* C40: more generally every reachable table that holds no tombstone (DELETED control byte). *)
Theorem C40_tombstone_free_partial : forall K V hash keq dv max_cap ops t xs,
  key_laws K keq hash -> cap_bounded max_cap ->
  run K V hash keq dv max_cap (empty_tbl K V) ops = Ok (t, xs) ->
  Forall (fun c => is_deleted c = false) (t_ctrl K V t) ->
  clean_table (t_size K V t) (N.of_nat (t_cap K V t)) (t_growth K V t) (firstn (t_cap K V t + 9) (t_ctrl K V t)) = true.
Proof.
  intros K V hash keq dv max_cap ops t xs Hl Hc.
  exact (free_clean K V hash keq dv max_cap Hl Hc ops t xs).
Qed.
Print Assumptions C40_tombstone_free_partial.

(* C40: such a table, written and read back, gives the answer of the original to every lookup. *)
Theorem C40_lookups_partial : forall K (key : val -> K) hash keq env A n be_src rel src m th f a v tr out k,
  types_ok A env (THash n) -> total_mem src -> writer_mode m -> (th < W64)%N ->
  graph_at env be_src rel src f (THash n) a v tr ->
  serialize env be_src rel m th src f (THash n) a = Ok out -> Z.of_nat (length out) < 2 ^ 62 ->
  forall B, 0 < B < 2 ^ 62 -> (A | B) ->
  exists v' tr', image_at env (is_mode_enabled m SERIALIZE_BIG_ENDIAN) B out clean_table f (THash n)
                   (B + Z.of_nat (data_start m)) v' tr' /\
    find_ K val hash keq (table_of key v') k = find_ K val hash keq (table_of key v) k /\
    iterate K val (table_of key v') = iterate K val (table_of key v).
Proof. exact same_lookups. Qed.
Print Assumptions C40_lookups_partial.

(* Finding: a reachable table that holds a tombstone is rejected after serialization. Twenty keys
   are inserted in twenty consecutive slots, one in the middle is erased. *)
Theorem C40_tombstone_rejected_refuted : exists ops t xs,
  key_laws N N.eqb slot_hash /\ cap_bounded 1000 /\
  run N N slot_hash N.eqb 0%N 1000 (empty_tbl N N) ops = Ok (t, xs) /\
  ctrl_tab (t_size N N t) (N.of_nat (t_cap N N t)) (t_growth N N t) (firstn (t_cap N N t + 9) (t_ctrl N N t)) = false.
Proof.
  exists tomb_ops. eexists. eexists. split; [exact slot_laws|]. split; [exact bounded_1000|].
  split; [vm_compute; reflexivity|]. vm_compute. reflexivity.
Qed.
Print Assumptions C40_tombstone_rejected_refuted.

(* Finding: rehash() on an empty map leaves a table that is written but not accepted any more. *)
Theorem C40_rehashed_empty_refuted : exists src out,
  total_mem src /\ serialize [TInt 8] false false 0 0 src 3 (THash 0) 1000 = Ok out /\
  deserialize [TInt 8] false false 0 0 3 (THash 0) 4096 out = Throw.
Proof.
  exists (mem_of [(1000, words [5000; 5000; 0; 0; 0; 1]%N); (5000, firstn 9 empty_group)]). eexists.
  split; [apply mem_of_total; vm_compute; reflexivity|]. split; [vm_compute; reflexivity|]. vm_compute. reflexivity.
Qed.
Print Assumptions C40_rehashed_empty_refuted.

(* Finding: the reader accepts a table without an empty slot; looking up an absent key never ends. *)
Theorem C40_lookup_endless_refuted : exists b v tr,
  bytes_ok b /\
  deserialize [TInt 8] false false 0 0 3 (THash 0) 4096 b = Ok 4096 /\
  image_at [TInt 8] false 4096 b ctrl_tab 3 (THash 0) 4096 v tr /\
  forall fuel, find_loop N val N.eqb fuel (table_of num v) 9%N 9%N (probe_start 9 7, 0%nat) = Fuel.
Proof.
  exists full_table, full_contents. eexists.
  split; [unfold bytes_ok; vm_compute; repeat constructor|]. split; [vm_compute; reflexivity|].
  split; [vm_compute; reflexivity|]. intros fuel. apply full_loop. apply Nat.ltb_lt. vm_compute. reflexivity.
Qed.
Print Assumptions C40_lookup_endless_refuted.

(* Finding: the bytes behind the end marker are not compared with the first slots. The reader
   accepts a table on which a lookup leaves the table (entry 1 of 1). *)
Theorem C40_lookup_outside_refuted : exists b v tr,
  bytes_ok b /\
  deserialize [TInt 8] false false 0 0 3 (THash 0) 4096 b = Ok 4096 /\
  image_at [TInt 8] false 4096 b ctrl_tab 3 (THash 0) 4096 v tr /\
  find_ N val (fun k => k) N.eqb (table_of num v) 9%N = UB.
Proof.
  exists bad_clone, bad_clone_contents. eexists.
  split; [unfold bytes_ok; vm_compute; repeat constructor|]. split; [vm_compute; reflexivity|].
  split; vm_compute; reflexivity.
Qed.
Print Assumptions C40_lookup_outside_refuted.

(* Finding: a string that owns heap memory but is empty is written but not accepted. *)
Theorem C01_empty_heap_string_refuted : exists src out,
  total_mem src /\ serialize [] false false 0 0 src 3 TStr 1000 = Ok out /\
  deserialize [] false false 0 0 3 TStr 4096 out = Throw.
Proof.
  exists (mem_of [(1000, [0; 1; 0; 0; 0; 0; 0; 0]%N ++ le_enc 8 5000)]). eexists.
  split; [apply mem_of_total; vm_compute; reflexivity|]. split; [vm_compute; reflexivity|]. vm_compute. reflexivity.
Qed.
Print Assumptions C01_empty_heap_string_refuted.

(* ---- a concrete graph ---- *)
(* struct root { vector<uint32_t> v; ptr<uint32_t> p; string s; unique_ptr<item> u; hash_set<uint64_t> h; };
   struct item { ptr<uint32_t> q; optional<uint16_t> o; variant<uint8_t, uint16_t> w; }; p points to v[1], q points
   outside, u is owned. *)
Definition ex_env : list ty :=
  [TInt 4; TAgg [(0, TPtr 0); (8, TOpt (TInt 2) 2 4 2); (12, TVar [TInt 1; TInt 2] 2 4 2)] 16 8; TInt 8].
Definition ex_ty : ty :=
  TAgg [(0, TVec 4 true 0); (24, TPtr 0); (32, TStr); (48, TUniq 1); (64, THash 2)] 112 8.
Definition ex_src : mem :=
  mem_of [(1000, le_enc 8 2000 ++ le_enc 4 3 ++ le_enc 4 4 ++ le_enc 8 1);     (* v *)
          (1024, le_enc 8 2004);                                               (* p *)
          (1032, [0; 1; 0; 0]%N ++ le_enc 4 20 ++ le_enc 8 3000);              (* s *)
          (1048, le_enc 8 4000 ++ le_enc 8 1);                                 (* u *)
          (1064, words [5000; 5008; 1; 1; 0; 1]%N);                            (* h *)
          (2000, le_enc 4 7 ++ le_enc 4 8 ++ le_enc 4 9);
          (3000, repeat 65%N 20);
          (4000, le_enc 8 1048 ++ [1; 0; 3; 4; 1; 0; 5; 6]%N);
          (5000, le_enc 8 77 ++ [5; 255; 5]%N ++ repeat 128%N 7)].
Definition ex_contents : val :=
  VAgg [VVec [VInt 7; VInt 8; VInt 9]; VPtr; VStr (repeat 65%N 20);
        VObj (VAgg [VPtr; VSome (VInt 1027); VAlt 1 (VInt 1541)]);
        VTab 1 0 ([5; 255; 5]%N ++ repeat 128%N 7) [Some (VInt 77)]].

Example C01_example : exists tr out tr',
  graph_at ex_env false false ex_src 5 ex_ty 1000 ex_contents tr /\
  serialize ex_env false false 6 12345 ex_src 5 ex_ty 1000 = Ok out /\
  deserialize ex_env false true 6 12345 5 ex_ty 4096 out = Ok 4112 /\
  image_at ex_env false 4096 out clean_table 5 ex_ty 4112 ex_contents tr' /\
  (* p leads to the copy of v[1], q is null *)
  ptrs tr = [(1024, Some 2004, 4, 4); (4000, Some 1048, 4, 4)] /\
  blks tr = [(true, 2000, 12, 4); (false, 4000, 16, 8)] /\
  blks tr' = [(true, 4224, 12, 4); (false, 4256, 16, 8)] /\
  ptrs tr' = [(4136, Some 4228, 4, 4); (4256, None, 4, 4)].
Proof.
  eexists. eexists. eexists. split.
  { split; [vm_compute; reflexivity|]. split.
    - split; [cbn [blks flat_map app]; repeat (constructor; try (left; lia))|].
      intros ix a n al q _ H. exfalso. cbn in H. repeat (destruct H as [H|H]; [discriminate H|]). exact H.
    - intros slot q sz al ix a n al' H H' Hq. cbn in H, H'.
      repeat (destruct H as [H|H]; [try discriminate H; injection H as <- <- <- <-|]); try contradiction H;
      repeat (destruct H' as [H'|H']; [try discriminate H'; injection H' as <- <- <- <-; cbn in Hq; try lia|]); try contradiction H'.
      split; [lia|]. split; [exists 1; reflexivity|exists 1; reflexivity]. }
  do 6 (split; [vm_compute; reflexivity|]). vm_compute. reflexivity.
Qed.
Example C01_types_example : types_ok 8 ex_env ex_ty /\ total_mem ex_src /\ no_cstring ex_env ex_ty /\ nesting ex_env 5 ex_ty.
Proof.
  assert (W1 : wf 8 (nth 1 ex_env (TInt 1))).
  { apply wf_agg; try (split; [lia|]); try lia; try (exists 1; reflexivity); try (exists 2; reflexivity).
    - intros o t [H|[H|[H|[]]]]; injection H as <- <-.
      + split; [constructor|]. cbn. repeat split; try lia; [exists 0|exists 1]; reflexivity.
      + split.
        { apply wf_opt; try (split; [lia|]); cbn; try lia; try (exists 1; reflexivity); try (exists 2; reflexivity); [exists 4; reflexivity|].
          constructor; cbn; tauto. }
        cbn. repeat split; try lia; exists 4; reflexivity.
      + split.
        { apply wf_var; try (split; [lia|]); cbn; try lia; try (exists 1; reflexivity); try (exists 2; reflexivity); [exists 4; reflexivity|].
          intros t [<-|[<-|[]]]; (split; [constructor; cbn; tauto|]); cbn; repeat split; try lia; try (exists 1; reflexivity); exists 2; reflexivity. }
        cbn. repeat split; try lia; [exists 6|exists 4]; reflexivity.
    - repeat (first [apply FOP_cons | apply FOP_nil | apply Forall_cons | apply Forall_nil]; try (unfold apart; cbn; lia)). }
  assert (W : wf 8 ex_ty).
  { apply wf_agg; try (split; [lia|]); try lia; try (exists 1; reflexivity); try (exists 14; reflexivity).
    - intros o t [H|[H|[H|[H|[H|[]]]]]]; injection H as <- <-; (split; [constructor; cbn; tauto|]); cbn;
      repeat split; try lia; try (exists 1; reflexivity); [exists 0|exists 3|exists 4|exists 6|exists 8]; reflexivity.
    - repeat (first [apply FOP_cons | apply FOP_nil | apply Forall_cons | apply Forall_nil]; try (unfold apart; cbn; lia)). }
  split; [|split; [|split]].
  - split; [|split; [lia|split; [exact W|]]].
    + split; [exists 1; reflexivity|]. split; [lia|]. repeat (constructor; [try exact W1; constructor; cbn; tauto|]). constructor.
    + repeat (constructor; [cbn; lia|]). constructor.
  - apply mem_of_total; vm_compute; reflexivity.
  - split; repeat constructor.
  - repeat constructor.
Qed.

Example C40_example : exists t xs,
  run N N slot_hash N.eqb 0%N 1000 (empty_tbl N N) [Emplace N N 1%N 5%N; Erase N N 1%N; Rehash N N; Emplace N N 2%N 6%N; Emplace N N 3%N 7%N] = Ok (t, xs) /\
  t_size N N t = 2%N /\ t_cap N N t = 3%nat.
Proof. eexists. eexists. split; [vm_compute; reflexivity|]. split; reflexivity. Qed.
