(* C56: every way to call deserialize sees the same object. *)
From Verif Require Import Base Bytes HeaderModel HeaderSpec HashModel SerialModel SerialSpec SerialDeser SerialRead SerialFinal SerialLimits
  SerialProps ConvModel ConvSpec ConvTop ConvProps EntryModel EntryProofs.
Local Open Scope Z_scope.

(* Whatever the bytes: two pointers and a container accept the same buffers and give the same object and memory. *)
Theorem C56_same_result : forall env hb raw strict m th f t B b,
  is_mode_enabled m CAST = false -> b <> [] ->
  deserialize_to env hb raw strict th f t B b m (B + Z.of_nat (length b)) = convert env hb raw strict m th f t B b /\
  deserialize_container env hb raw strict th f t B b m = convert env hb raw strict m th f t B b.
Proof.
  intros env hb raw strict m th f t B b Hm Hb. rewrite <- (to_convert env hb strict th raw f t B b m Hm).
  split; [reflexivity|]. unfold deserialize_container. destruct b; [congruence|reflexivity].
Qed.
Print Assumptions C56_same_result.

(* Constant memory and string views: what compiles behaves like the others and writes nothing, checked or not. *)
Theorem C56_constant_memory : forall env hb raw strict m th f t B b r,
  is_mode_enabled m CAST = false -> b <> [] ->
  deserialize_const env hb raw strict th f t B b m (B + Z.of_nat (length b)) = Some r \/
  deserialize_view env hb raw strict th f t B b m = Some r ->
  r = convert env hb raw strict m th f t B b /\
  forall p m', r = Ok (p, m') -> m' = at_base B b.
Proof.
  intros env hb raw strict m th f t B b r Hm Hb H.
  assert (E : deserialize_const env hb raw strict th f t B b m (B + Z.of_nat (length b)) = Some r).
  { destruct H as [H|H]; [exact H|]. unfold deserialize_view in H. destruct b; [congruence|exact H]. }
  clear H. unfold deserialize_const in E. rewrite to_const, to_convert in E by exact Hm.
  destruct (Bool.eqb hb (is_mode_enabled m SERIALIZE_BIG_ENDIAN)) eqn:Eb; cbn [negb orb] in E; [|discriminate].
  apply Bool.eqb_prop in Eb. rewrite Hm in E. destruct raw; cbn [negb andb] in E; [discriminate|]. injection E as <-.
  split; [reflexivity|]. intros p m' E. unfold convert in E. rewrite <- Eb in E.
  destruct (check hb m th b); try discriminate. cbn [bind] in E.
  destruct (conv _ _ _ _ _ _ _ _ _ _ _ _) as [m1| | |] eqn:C in E; try discriminate. cbn [bind] in E.
  injection E as E1 E2. subst m1. exact (conv_nat env hb strict _ _ _ f t _ _ _ C).
Qed.
Print Assumptions C56_constant_memory.

(* CAST returns, without looking at the bytes, the object that deserialize returns for the buffers it accepts:
   without header, in the byte order of the host and with offset pointers. *)
Theorem C56_cast_partial : forall env hb strict m mc th f t B b to p m1,
  is_mode_enabled mc CAST = true -> data_start m = 0%nat -> is_mode_enabled m SERIALIZE_BIG_ENDIAN = hb ->
  convert env hb false strict m th f t B b = Ok (p, m1) ->
  deserialize_to env hb false strict th f t B b mc to = Ok (p, m1).
Proof.
  intros env hb strict m mc th f t B b to p m1 Hc Hd Hb E. unfold deserialize_to. rewrite Hc.
  unfold convert in E. rewrite Hd, Hb in E.
  destruct (check hb m th b); try discriminate. cbn [bind] in E.
  destruct (conv _ _ _ _ _ _ _ _ _ _ _ _) as [m2| | |] eqn:C in E; try discriminate. cbn [bind] in E.
  injection E as E1 E2. subst p m2. apply conv_nat in C. subst m1. do 2 f_equal. lia.
Qed.
Print Assumptions C56_cast_partial.

(* In particular it sees the contents of everything serialize writes in such a format. *)
Theorem C56_cast_serialized_partial : forall env A t be_src rel src m th f a v tr out,
  types_ok A env t -> total_mem src -> writer_mode m -> (th < W64)%N -> data_start m = 0%nat ->
  graph_at env be_src rel src f t a v tr ->
  serialize env be_src rel m th src f t a = Ok out -> Z.of_nat (length out) < 2 ^ 62 ->
  forall B mc hb strict to, 0 < B < 2 ^ 62 -> (A | B) -> is_mode_enabled mc CAST = true ->
  hb = is_mode_enabled m SERIALIZE_BIG_ENDIAN ->
  exists m1 tr', deserialize_to env hb false strict th f t B out mc to = Ok (B, m1) /\
    host_image env hb false B (Z.of_nat (length out)) m1 clean_table f t B v tr'.
Proof.
  intros env A t be_src rel src m th f a v tr out Ht Hs Hw Hth Hd Hg Ho Hl B mc hb strict to HB HA Hc ->.
  destruct (C01_round_trip env A t be_src rel src m th f a v tr out Ht Hs Hw Hth) with (B := B) as (_ & tr' & H); auto.
  { rewrite Hd. apply Zmod_0_l. }
  exists (at_base B out), tr'. unfold deserialize_to. rewrite Hc. split; [reflexivity|].
  rewrite Hd in H. replace (B + Z.of_nat 0) with B in H by lia. exact H.
Qed.
Print Assumptions C56_cast_serialized_partial.

(* Finding: CAST ignores the header. For a file with a version the result points to the version instead of the object. *)
Definition seven : mem := mem_of [(1000, le_enc 8 7)].
Theorem C56_cast_header_refuted : exists out m1 v tr,
  serialize [] false false WITH_VERSION 12345 seven 2 (TInt 8) 1000 = Ok out /\
  convert [] false false true WITH_VERSION 12345 2 (TInt 8) 4096 out = Ok (4104, m1) /\
  host_image [] false false 4096 (Z.of_nat (length out)) m1 clean_table 2 (TInt 8) 4104 v tr /\
  forall to, deserialize_to [] false false true 12345 2 (TInt 8) 4096 out (N.lor WITH_VERSION CAST) to = Ok (4096, m1) /\
  forall v' tr', host_image [] false false 4096 (Z.of_nat (length out)) m1 clean_table 2 (TInt 8) 4096 v' tr' -> v' <> v.
Proof.
  set (out := out_of (serialize [] false false WITH_VERSION 12345 seven 2 (TInt 8) 1000)).
  exists out, (at_base 4096 out). eexists. eexists.
  split; [apply out_ok; vm_compute; reflexivity|].
  split. { rewrite C41_native_unchanged by reflexivity. replace (deserialize [] false true WITH_VERSION 12345 2 (TInt 8) 4096 out) with (Ok 4104) by (vm_compute; reflexivity). reflexivity. }
  split; [unfold host_image; vm_compute; reflexivity|]. intros to. split; [reflexivity|].
  intros v' tr' H. unfold host_image in H. vm_compute in H. injection H as <- _. discriminate.
Qed.
Print Assumptions C56_cast_header_refuted.

(* Finding: nothing is converted either: raw pointers stay offsets, integers of the other byte order stay as they are. *)
Theorem C56_cast_unconverted_refuted :
  (exists out m1, serialize [TInt 8] false false 0 0 (mem_of [(1000, le_enc 8 2000 ++ [1]%N ++ repeat 0%N 7); (2000, le_enc 8 7)]) 3 (TUniq 0) 1000 = Ok out /\
     rooted (convert [TInt 8] false true true 0 0 3 (TUniq 0) 4096 out) = Some 4096 /\
     deserialize_to [TInt 8] false true true 0 3 (TUniq 0) 4096 out CAST 0 = Ok (4096, m1) /\
     forall v tr, ~ host_image [TInt 8] false true 4096 (Z.of_nat (length out)) m1 clean_table 3 (TUniq 0) 4096 v tr) /\
  (exists out m1, serialize [] false false SERIALIZE_BIG_ENDIAN 0 seven 2 (TInt 8) 1000 = Ok out /\
     deserialize_to [] false false true 0 2 (TInt 8) 4096 out (N.lor SERIALIZE_BIG_ENDIAN CAST) 0 = Ok (4096, m1) /\
     dint false m1 4096 8 = Ok (7 * 2 ^ 56)).
Proof.
  split.
  - set (out := out_of (serialize [TInt 8] false false 0 0 (mem_of [(1000, le_enc 8 2000 ++ [1]%N ++ repeat 0%N 7); (2000, le_enc 8 7)]) 3 (TUniq 0) 1000)).
    exists out, (at_base 4096 out).
    split; [apply out_ok; vm_compute; reflexivity|]. split; [vm_compute; reflexivity|]. split; [reflexivity|].
    intros v tr H. unfold host_image in H. vm_compute in H. discriminate.
  - set (out := out_of (serialize [] false false SERIALIZE_BIG_ENDIAN 0 seven 2 (TInt 8) 1000)).
    exists out, (at_base 4096 out).
    split; [apply out_ok; vm_compute; reflexivity|]. split; [reflexivity|]. vm_compute. reflexivity.
Qed.
Print Assumptions C56_cast_unconverted_refuted.

(* Finding: the default end, a null pointer, is refused whatever the bytes, even by unchecked_deserialize: only CAST can use it. *)
Theorem C56_default_end_refuted : forall env hb raw strict m th f t B b,
  0 < B -> is_mode_enabled m CAST = false ->
  deserialize_from env hb raw strict th f t B b m = Throw /\
  unchecked_deserialize env hb raw strict th f t B b m 0 = Throw.
Proof.
  intros env hb raw strict m th f t B b HB Hm.
  assert (G : forall m', is_mode_enabled m' CAST = false -> deserialize_to env hb raw strict th f t B b m' 0 = Throw).
  { intros m' H. unfold deserialize_to. rewrite H.
    replace (Z.of_nat (data_start m') <? 0 - B) with false by (symmetry; apply Z.ltb_ge; lia). reflexivity. }
  split; apply G; [exact Hm|]. rewrite mode_lor by reflexivity. exact Hm.
Qed.
Print Assumptions C56_default_end_refuted.

(* Finding: an empty container is not refused: the address of its first element is taken. *)
Theorem C56_empty_container_refuted : forall env hb raw strict m th f t B,
  deserialize_container env hb raw strict th f t B [] m = UB /\
  deserialize_view env hb raw strict th f t B [] m = Some UB /\
  (is_mode_enabled m CAST = false -> deserialize_to env hb raw strict th f t B [] m B = Throw).
Proof.
  intros. split; [reflexivity|]. split; [reflexivity|]. intros H. unfold deserialize_to. rewrite H.
  replace (Z.of_nat (data_start m) <? B - B) with false by (symmetry; apply Z.ltb_ge; lia). reflexivity.
Qed.
Print Assumptions C56_empty_container_refuted.

(* the graph of SerialProps without header, read by all overloads *)
Definition ex_flat : list N := out_of (serialize ex_env false false 0 12345 ex_src 5 ex_ty 1000).
Example C56_example :
  serialize ex_env false false 0 12345 ex_src 5 ex_ty 1000 = Ok ex_flat /\ data_start 0 = 0%nat /\ writer_mode 0 /\ ex_flat <> [] /\
  (exists m1, convert ex_env false false true 0 12345 5 ex_ty 4096 ex_flat = Ok (4096, m1)) /\
  (exists tr, host_image ex_env false false 4096 (Z.of_nat (length ex_flat)) (at_base 4096 ex_flat) clean_table 5 ex_ty 4096 ex_contents tr) /\
  (exists r, deserialize_const ex_env false false true 12345 5 ex_ty 4096 ex_flat 0 (4096 + Z.of_nat (length ex_flat)) = Some r /\ rooted r = Some 4096) /\
  (exists r, deserialize_view ex_env false false true 12345 5 ex_ty 4096 ex_flat 0 = Some r /\ rooted r = Some 4096) /\
  is_mode_enabled CAST CAST = true.
Proof.
  split; [apply out_ok; vm_compute; reflexivity|]. split; [reflexivity|]. split; [repeat split; vm_compute; reflexivity|].
  split; [vm_compute; discriminate|].
  split; [eexists; apply after_ok; vm_compute; reflexivity|].
  split; [eexists; unfold host_image; vm_compute; reflexivity|].
  split; [eexists; split; [reflexivity|vm_compute; reflexivity]|].
  split; [eexists; split; [unfold deserialize_view; vm_compute (ex_flat); reflexivity|vm_compute; reflexivity]|]. reflexivity.
Qed.
