(* C60: a save that was interrupted leaves a file that is refused. *)
From Verif Require Import Base Bytes FnvModel HeaderModel HeaderSpec HashModel SerialModel SerialSpec SerialLimits SerialProps CrashModel CrashSpec CrashProofs.
Local Open Scope Z_scope.

(* The recorded writes are those of serialize: together they produce the same bytes, and they fail in the same cases. *)
Theorem C60_same_image : forall env A t be_src rel src m th f a,
  types_ok A env t -> writer_mode m ->
  (let* ops := save env be_src rel m th src f t a in Ok (image ops)) = serialize env be_src rel m th src f t a.
Proof. intros env A t be_src rel src m th f a (We & _ & Wt & _) Wm. exact (saved_image env A We be_src rel m th src f t a Wt Wm). Qed.
Print Assumptions C60_same_image.

(* A file left behind by an interrupted save with a checksum (whichever point, also in the middle of a write) is accepted only if it is the
   complete file. Missing: files whose contents so far happen to have the checksum 0. The reader may have either byte order. *)
Theorem C60_file_partial : forall env A t be_src rel src m th f a ops host_be b,
  types_ok A env t -> writer_mode m -> is_mode_enabled m WITH_INTEGRITY = true ->
  save env be_src rel m th src f t a = Ok ops -> left_in_file ops b ->
  check host_be m th b = Ok tt ->
  b = image ops \/ hash (skipn (data_start m) b) BASE_HASH = 0%N.
Proof.
  intros env A t be_src rel src m th f a ops host_be b (We & _ & Wt & _) Wm EI Es Hb Hc.
  destruct (saved_shape env A We be_src rel m th src f t a Wt Wm ops EI Es) as (ops0 & Hh & Len & ->). exact (cut_file m th be_src _ ops0 EI eq_refl Hh Len host_be b Hb Hc).
Qed.
Print Assumptions C60_file_partial.

(* The same for a file written through a memory map: it is accepted only if it is the complete file, possibly followed by unused space. *)
Theorem C60_map_partial : forall env A t be_src rel src m th f a ops host_be b,
  types_ok A env t -> writer_mode m -> is_mode_enabled m WITH_INTEGRITY = true ->
  save env be_src rel m th src f t a = Ok ops -> left_in_map ops b ->
  check host_be m th b = Ok tt ->
  (exists z, b = (image ops ++ zeros z)%list) \/ hash (skipn (data_start m) b) BASE_HASH = 0%N.
Proof.
  intros env A t be_src rel src m th f a ops host_be b (We & _ & Wt & _) Wm EI Es Hb Hc.
  destruct (saved_shape env A We be_src rel m th src f t a Wt Wm ops EI Es) as (ops0 & Hh & Len & ->). exact (cut_map m th be_src _ ops0 EI eq_refl Hh Len host_be b Hb Hc).
Qed.
Print Assumptions C60_map_partial.

(* Loading: what deserialize returns after an interrupted save is the saved graph, or nothing. *)
Theorem C60_load_partial : forall env A t be_src rel src m th f a ops host_be strict B b r,
  types_ok A env t -> writer_mode m -> is_mode_enabled m WITH_INTEGRITY = true ->
  save env be_src rel m th src f t a = Ok ops -> left_in_file ops b -> hash (skipn (data_start m) b) BASE_HASH <> 0%N ->
  deserialize env host_be strict m th f t B b = Ok r ->
  serialize env be_src rel m th src f t a = Ok b.
Proof.
  intros env A t be_src rel src m th f a ops host_be strict B b r Ht Wm EI Es Hb Hz Hd.
  unfold deserialize in Hd. destruct (check host_be m th b) as [[]| | |] eqn:Hc; try discriminate Hd.
  destruct (C60_file_partial _ _ _ _ _ _ _ _ _ _ _ _ _ Ht Wm EI Es Hb Hc) as [->|H]; [|contradiction].
  rewrite <- (C60_same_image env A t be_src rel src m th f a Ht Wm), Es. reflexivity.
Qed.
Print Assumptions C60_load_partial.

(* ---- what is missing ---- *)
(* The value pair (a, 5) saved through a memory map: the eight bytes of a have the checksum 0, and so has every continuation with zeros. The
   process stops after the first half of the pair was copied; the file is accepted and holds (a, 0). *)
Definition zs_ty : ty := TAgg [(0, TInt 8); (8, TInt 8)] 16 8.
Definition zs_val : N := le_dec [0xd5; 0x6b; 0xb9; 0x53; 0x42; 0x87; 0x08; 0x36]%N.
Definition zs_src : mem := mem_of [(1000, words [zs_val; 5]%N)].
Lemma zs_wf : wf 8 zs_ty.
Proof.
  apply wf_agg; try (split; [lia|]); try lia; try (exists 1; reflexivity); try (exists 2; reflexivity).
  - intros o t [H|[H|[]]]; injection H as <- <-; (split; [apply wf_int; do 3 right; left; reflexivity|]); cbn; repeat split; try lia; try (exists 1; reflexivity); exists 0; reflexivity.
  - repeat (first [apply FOP_cons | apply FOP_nil | apply Forall_cons | apply Forall_nil]; try (unfold apart; cbn; lia)).
Qed.
Theorem C60_zero_checksum_refuted :
  exists ops b tr, save [] false false 4 0 zs_src 3 zs_ty 1000 = Ok ops /\
    types_ok 8 [] zs_ty /\ writer_mode 4 /\
    left_in_map ops b /\ deserialize [] false true 4 0 3 zs_ty 4096 b = Ok 4104 /\
    image_at [] false 4096 (image ops) clean_table 3 zs_ty 4104 (VAgg [VInt zs_val; VInt 5]) tr /\
    image_at [] false 4096 b clean_table 3 zs_ty 4104 (VAgg [VInt zs_val; VInt 0]) tr.
Proof.
  eexists. exists (zeros 8 ++ le_enc 8 zs_val ++ zeros 48)%list. eexists. split; [vm_compute; reflexivity|].
  split; [|split; [split; reflexivity|]].
  { split; [|split; [lia|split; [exact zs_wf|]]]; [split; [exists 1; reflexivity|]; split; [lia|constructor]|]. repeat (constructor; [cbn; lia|]). constructor. }
  split; [exists [(0%nat, zeros 8)], (8%nat, words [zs_val; 5]%N), [(8%nat, [213; 107; 185; 83; 66; 135; 8; 54]%N); (16%nat, [5; 0; 0; 0; 0; 0; 0; 0]%N); (0%nat, [165; 114; 172; 54; 45; 227; 229; 154]%N)], 8%nat, 48%nat; split; [vm_compute; reflexivity|]; split; [vm_compute; reflexivity|]; cbn; lia|].
  split; [vm_compute; reflexivity|]. split; vm_compute; reflexivity.
Qed.
Print Assumptions C60_zero_checksum_refuted.

(* Without a checksum: struct { int* p; unique_ptr<int> u; } with p pointing to what u owns. The pointer is entered last; a file without this
   last write is accepted, and p is null. *)
Definition pp_ty : ty := TAgg [(0, TPtr 0); (8, TUniq 0)] 24 8.
Definition pp_src : mem := mem_of [(1000, words [2000; 2000; 1]%N); (2000, le_enc 4 7)].
Theorem C60_without_integrity_refuted :
  exists ops b v tr tr', save [TInt 4] false false 2 9 pp_src 3 pp_ty 1000 = Ok ops /\ left_in_file ops b /\
    deserialize [TInt 4] false true 2 9 3 pp_ty 4096 b = Ok 4104 /\
    image_at [TInt 4] false 4096 (image ops) clean_table 3 pp_ty 4104 v tr /\ ptrs tr = [(4104, Some 4128, 4, 4)] /\
    image_at [TInt 4] false 4096 b clean_table 3 pp_ty 4104 v tr' /\ ptrs tr' = [(4104, None, 4, 4)].
Proof.
  eexists. eexists. exists (VAgg [VPtr; VObj (VInt 7)]). eexists. eexists. split; [vm_compute; reflexivity|].
  split; [match goal with |- left_in_file [?a; ?b; ?c; ?d; ?e; ?f; ?g; ?h] _ => exists [a; b; c; d; e; f; g], h, [], 0%nat; split; [reflexivity|vm_compute; reflexivity] end|].
  do 4 (split; [vm_compute; reflexivity|]). vm_compute. reflexivity.
Qed.
Print Assumptions C60_without_integrity_refuted.

(* ---- a concrete save ---- *)
(* The graph of C01_example with version and checksum, in a reader's hands after each of its 32 writes, and after parts of each. *)
Definition cuts (ops : list wop) : list (list N) :=
  flat_map (fun i => match skipn i ops with [] => [] | o :: _ => map (fun k => over (image (firstn i ops)) (torn o k)) [0; 1; 4; 7]%nat end) (seq 0 (length ops)).
Example C60_example : exists ops, save ex_env false false 6 12345 ex_src 5 ex_ty 1000 = Ok ops /\ length ops = 32%nat /\
  forallb (fun b => match check false 6 12345 b with Throw => true | _ => false end) (cuts ops) = true /\ check false 6 12345 (image ops) = Ok tt.
Proof. eexists. split; [vm_compute; reflexivity|]. split; [vm_compute; reflexivity|]. split; vm_compute; reflexivity. Qed.
