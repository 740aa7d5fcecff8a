(* C57: changing a loaded object graph in place. *)
From Verif Require Import Base Bytes HeaderModel HeaderSpec HeaderProofs HashModel SerialModel SerialSpec SerialMem SerialPost SerialSer SerialRead SerialDeser
  SerialLimits SerialFinal SerialProps ConvModel ConvSpec ConvProofs ConvTop ConvProps MutModel MutSpec MutProofs MutTop.
Local Open Scope Z_scope.

(* What a change of contents means: the part at the path is the new one, parts elsewhere are the old ones. *)
Theorem C57_change_is_local : forall p v x y, vget v p = Some y ->
  vget (vset v p x) p = Some x /\ forall q, parted p q -> vget (vset v p x) q = vget v q.
Proof. intros p v x y H. split; [eapply vset_get; eassumption|]. intros q Hq. now apply vset_other. Qed.
Print Assumptions C57_change_is_local.

(* Any object graph in a buffer none of whose bytes belongs to two members: any number of assignments to integers, floating point
   numbers and pointers, reached through any accessors, succeed, give the contents with exactly these parts replaced, and write no
   byte that is not part of a member. *)
Theorem C57_assignments : forall env A t hb raw B n tab f a l m v tr v' tr',
  types_ok A env t -> 0 < B -> B + n < 2 ^ 63 ->
  host_image env hb raw B n m tab f t a v tr -> unshared tr ->
  assignments env t B n (v, tr) l (v', tr') ->
  exists m', assign_all env hb raw m t a l = Ok m' /\
    host_image env hb raw B n m' tab f t a v' tr' /\ unshared tr' /\
    forall z, ~ member_byte tr z -> m' z = m z.
Proof.
  intros env A t hb raw B n tab f a l m v tr v' tr' Ht HB Hn Hi Hs Ha.
  destruct (history env A t hb raw B n tab f a Ht HB Hn l m v tr v' tr' Hi Hs Ha) as (m' & E1 & E2 & E3 & E4 & _).
  exists m'. split; [exact E1|]. split; [exact E2|]. split; [|exact E4]. unfold unshared. now rewrite E3.
Qed.
Print Assumptions C57_assignments.

(* Every serialized image can be changed like this on every host that loads it, and the header of the file is never touched. *)
Theorem C57_loaded : forall env A t be_src rel src m th f a v tr out,
  types_ok A env t -> no_cstring env t -> total_mem src -> writer_mode m -> (th < W64)%N ->
  Z.of_nat (data_start m) mod align_of t = 0 ->
  graph_at env be_src rel src f t a v tr ->
  serialize env be_src rel m th src f t a = Ok out -> Z.of_nat (length out) < 2 ^ 62 ->
  forall B, 0 < B < 2 ^ 62 -> (A | B) ->
  let n := Z.of_nat (length out) in let root := B + Z.of_nat (data_start m) in
  exists tr', mirrors tr tr' /\ (forall z, member_byte tr' z -> root <= z < B + n) /\
  forall hb raw strict m', same_format m m' -> exists m1,
  convert env hb raw strict m' th f t B out = Ok (root, m1) /\
  host_image env hb raw B n m1 clean_table f t root v tr' /\
  forall l v2 tr2, assignments env t B n (v, tr') l (v2, tr2) -> exists m2,
  assign_all env hb raw m1 t root l = Ok m2 /\
  host_image env hb raw B n m2 clean_table f t root v2 tr2 /\
  forall z, ~ member_byte tr' z -> m2 z = at_base B out z.
Proof.
  intros env A t be_src rel src m th f a v tr out Ht Hn Hs Hm Hth Hr Hg Ho Hl B HB HA n root.
  destruct (changed env A t Ht Hn be_src rel src Hs m th Hm Hth Hr f a v tr Hg out Ho Hl B HB HA) as (tr' & E1 & _ & E3 & E4).
  exists tr'. split; [exact E1|]. split; [exact E3|]. intros hb raw strict m' Hf.
  destruct (E4 hb raw strict m' Hf) as (m1 & F1 & F2 & F3). exists m1. split; [exact F1|]. split; [exact F2|].
  intros l v2 tr2 Ha. destruct (F3 l v2 tr2 Ha) as (m2 & G1 & G2 & G3 & _). exists m2. auto.
Qed.
Print Assumptions C57_loaded.

(* A file without integrity hash can be changed in place (for example in a memory mapping) by a host of its byte order that uses
   offset pointers: what is then in the buffer is again a file, and every host loads the new contents from it. *)
Theorem C57_file_in_place_partial : forall env A t be_src rel src m th f a v tr out,
  types_ok A env t -> no_cstring env t -> total_mem src -> writer_mode m -> (th < W64)%N ->
  Z.of_nat (data_start m) mod align_of t = 0 ->
  graph_at env be_src rel src f t a v tr ->
  serialize env be_src rel m th src f t a = Ok out -> Z.of_nat (length out) < 2 ^ 62 ->
  is_mode_enabled m WITH_INTEGRITY = false ->
  forall B, 0 < B < 2 ^ 62 -> (A | B) ->
  let n := Z.of_nat (length out) in let root := B + Z.of_nat (data_start m) in let fb := is_mode_enabled m SERIALIZE_BIG_ENDIAN in
  exists tr', mirrors tr tr' /\ exists m1,
  convert env fb false true m th f t B out = Ok (root, m1) /\
  forall l v2 tr2, assignments env t B n (v, tr') l (v2, tr2) -> exists m2,
  assign_all env fb false m1 t root l = Ok m2 /\
  forall b, saved m2 B n b ->
  forall hb raw strict m', same_format m m' -> exists m3,
  convert env hb raw strict m' th f t B b = Ok (root, m3) /\
  host_image env hb raw B n m3 clean_table f t root v2 tr2.
Proof.
  intros env A t be_src rel src m th f a v tr out Ht Hn Hs Hm Hth Hr Hg Ho Hl Hi B HB HA n root fb.
  destruct (changed env A t Ht Hn be_src rel src Hs m th Hm Hth Hr f a v tr Hg out Ho Hl B HB HA) as (tr' & E1 & _ & _ & E4).
  destruct (trip_apart env A t Ht be_src rel src Hs m th Hm Hth Hr f a v tr Hg out Ho Hl) as (_ & Hc & _).
  exists tr'. split; [exact E1|].
  destruct (E4 fb false true m ltac:(repeat constructor)) as (m1 & F1 & _ & F3). exists m1. split; [exact F1|].
  intros l v2 tr2 Ha. destruct (F3 l v2 tr2 Ha) as (m2 & G1 & _ & _ & G4). exists m2. split; [exact G1|].
  intros b Hb hb raw strict m' Hf. destruct (G4 b Hb) as (K1 & K2 & K3 & K4). destruct (K4 eq_refl eq_refl) as [K5 K6].
  exact (reloaded env A t m th f B n b v2 tr2 out _ Ht Hn eq_refl Hl HB Hi Hc K1 K2 K3 K5 K6 hb raw strict m' Hf).
Qed.
Print Assumptions C57_file_in_place_partial.

(* ---- the graph of SerialProps, loaded from a file with version ---- *)
Definition ex_file : list N := out_of (serialize ex_env false false 2 12345 ex_src 5 ex_ty 1000).
Definition ex_loaded (raw : bool) : mem := after (convert ex_env false raw true 2 12345 5 ex_ty 4096 ex_file).
(* v[2] = 100000; p = &v[0]; *u->o = 5; the entry of h = 78; p = nullptr; u->q = &v[2] *)
Definition ex_asg : list asg :=
  [SetInt [Field 0; Elem 2] 100000; SetPtr [Field 1] (Some 4216); SetInt [Field 3; Deref; Field 1; Value] 5;
   SetInt [Field 4; Entry 0] 78; SetPtr [Field 1] None; SetPtr [Field 3; Deref; Field 0] (Some 4224)].
Definition ex_changed : val :=
  VAgg [VVec [VInt 7; VInt 8; VInt 100000]; VPtr; VStr (repeat 65%N 20);
        VObj (VAgg [VPtr; VSome (VInt 5); VAlt 1 (VInt 1541)]);
        VTab 1 0 ([5; 255; 5]%N ++ repeat 128%N 7) [Some (VInt 78)]].
Definition ex_trace (raw : bool) : list ev :=
  match dec ex_env (plain false (ex_loaded raw) (negb raw) (Some (4096, 4096 + Z.of_nat (length ex_file))) clean_table) 5 ex_ty 4104 with Some (_, tr) => tr | None => [] end.
Example C57_example : forall raw,
  host_image ex_env false raw 4096 (Z.of_nat (length ex_file)) (ex_loaded raw) clean_table 5 ex_ty 4104 ex_contents (ex_trace raw) /\
  ptrs (ex_trace raw) = [(4128, Some 4220, 4, 4); (4248, None, 4, 4)] /\
  exists tr2, assignments ex_env ex_ty 4096 (Z.of_nat (length ex_file)) (ex_contents, ex_trace raw) ex_asg (ex_changed, tr2) /\
    ptrs tr2 = [(4128, None, 4, 4); (4248, Some 4224, 4, 4)].
Proof.
  intros raw.
  assert (E : ex_trace raw = ex_trace false) by (destruct raw; vm_compute; reflexivity).
  split. { unfold host_image. destruct raw; vm_compute; reflexivity. }
  rewrite E. split; [vm_compute; reflexivity|].
  eexists. split.
  - unfold ex_asg.
    eapply ass_cons; [eapply as_int; [vm_compute; reflexivity|vm_compute; reflexivity]|].
    eapply ass_cons; [eapply as_ptr; [vm_compute; reflexivity|vm_compute; repeat split; discriminate]|].
    eapply ass_cons; [eapply as_int; [vm_compute; reflexivity|vm_compute; reflexivity]|].
    eapply ass_cons; [eapply as_int; [vm_compute; reflexivity|vm_compute; reflexivity]|].
    eapply ass_cons; [eapply as_ptr; [vm_compute; reflexivity|exact I]|].
    eapply ass_cons; [eapply as_ptr; [vm_compute; reflexivity|vm_compute; repeat split; discriminate]|].
    apply ass_nil.
  - vm_compute. reflexivity.
Qed.
(* running it: the file after the changes, loaded by a big endian host with raw pointers *)
Definition ex_after : mem := match assign_all ex_env false false (ex_loaded false) ex_ty 4104 ex_asg with Ok m => m | _ => fun _ => None end.
Definition ex_saved : list N := match rdn ex_after 4096 (length ex_file) with Some b => b | None => [] end.
Example C57_saved_example :
  writer_mode 2 /\ is_mode_enabled 2 WITH_INTEGRITY = false /\
  saved ex_after 4096 (Z.of_nat (length ex_file)) ex_saved /\ length ex_saved = length ex_file /\
  exists m3 tr3, convert ex_env true true true 2 12345 5 ex_ty 4096 ex_saved = Ok (4104, m3) /\
    host_image ex_env true true 4096 (Z.of_nat (length ex_file)) m3 clean_table 5 ex_ty 4104 ex_changed tr3.
Proof.
  split; [repeat split; vm_compute; reflexivity|]. split; [reflexivity|].
  split; [unfold saved; vm_compute; reflexivity|]. split; [vm_compute; reflexivity|].
  exists (after (convert ex_env true true true 2 12345 5 ex_ty 4096 ex_saved)). eexists.
  split; [apply after_ok; vm_compute; reflexivity|]. unfold host_image. vm_compute. reflexivity.
Qed.

(* With an integrity hash the changed file is rejected: the hash is not kept up to date. *)
Definition ex_file4 : list N := out_of (serialize ex_env false false 4 12345 ex_src 5 ex_ty 1000).
Definition ex_after4 : mem :=
  match assign_all ex_env false false (after (convert ex_env false false true 4 12345 5 ex_ty 4096 ex_file4)) ex_ty 4104 [SetInt [Field 0; Elem 2] 100000] with Ok m => m | _ => fun _ => None end.
Definition ex_saved4 : list N := match rdn ex_after4 4096 (length ex_file4) with Some b => b | None => [] end.
Theorem C57_integrity_refuted : writer_mode 4 /\ rooted (convert ex_env false false true 4 12345 5 ex_ty 4096 ex_file4) = Some 4104 /\
  saved ex_after4 4096 (Z.of_nat (length ex_file4)) ex_saved4 /\
  convert ex_env false false true 4 12345 5 ex_ty 4096 ex_saved4 = Throw.
Proof.
  split; [repeat split; vm_compute; reflexivity|]. split; [vm_compute; reflexivity|].
  split; [unfold saved; vm_compute; reflexivity|]. vm_compute. reflexivity.
Qed.
Print Assumptions C57_integrity_refuted.

(* Finding: buffers that were not written by serialize can share bytes between members and are accepted. struct { vector<uint32_t> v;
   unique_ptr<uint32_t> q; } with q pointing to the size of v: the assignment *q = 1000 gives v a thousand elements, the buffer holds
   one. *)
Definition share_ty : ty := TAgg [(0, TVec 4 true 0); (24, TUniq 0)] 40 8.
Definition share : list N :=
  le_enc 8 40 ++ le_enc 4 1 ++ le_enc 4 1 ++ repeat 0%N 8 ++ le_enc 8 (u_of_z (-16)) ++ le_enc 8 0 ++ le_enc 4 7.
Definition share_mem : mem := after (convert [TInt 4] false false true 0 0 9 share_ty 4096 share).
Theorem C57_shared_bytes_refuted :
  bytes_ok share /\ length share = 44%nat /\ types_ok 8 [TInt 4] share_ty /\
  convert [TInt 4] false false true 0 0 9 share_ty 4096 share = Ok (4096, share_mem) /\
  exists m' v tr, host_image [TInt 4] false false 4096 44 share_mem ctrl_tab 9 share_ty 4096 v tr /\
    vget v [Field 0] = Some (VVec [VInt 7]) /\
    assigned [TInt 4] share_ty 4096 44 (v, tr) (SetInt [Field 1; Deref] 1000) (vset v [Field 1; Deref] (VInt 1000), tr) /\
    assign [TInt 4] false false share_mem share_ty 4096 (SetInt [Field 1; Deref] 1000) = Ok m' /\
    dint false m' 4104 4 = Ok 1000 /\
    forall f v tr, ~ host_image [TInt 4] false false 4096 44 m' ctrl_tab f share_ty 4096 v tr.
Proof.
  split; [unfold bytes_ok; vm_compute; repeat constructor|]. split; [reflexivity|]. split.
  { split; [split; [exists 1; reflexivity|split; [lia|constructor; [constructor; cbn; tauto|constructor]]]|]. split; [lia|]. split.
    - apply wf_agg; try (split; [lia|]); try lia; try (exists 1; reflexivity); try (exists 5; reflexivity).
      + intros o t [H|[H|[]]]; injection H as <- <-; (split; [constructor; cbn; tauto|]); cbn; repeat split; try lia; try (exists 1; reflexivity); [exists 0|exists 3]; reflexivity.
      + repeat (first [apply FOP_cons | apply FOP_nil | apply Forall_cons | apply Forall_nil]; try (unfold apart; cbn; lia)).
    - repeat (constructor; [cbn; lia|]). constructor. }
  split; [apply after_ok; vm_compute; reflexivity|].
  exists (put_mem share_mem 4104 (le_enc 4 1000)). eexists. eexists.
  split; [unfold host_image; vm_compute; reflexivity|]. split; [vm_compute; reflexivity|].
  split; [apply (as_int _ _ _ _ _ _ _ 4); vm_compute; reflexivity|].
  split. { cbn [assign]. replace (place [TInt 4] false false share_mem share_ty 4096 [Field 1; Deref]) with (Ok (TInt 4, 4104)) by (vm_compute; reflexivity). reflexivity. }
  split; [vm_compute; reflexivity|].
  intros [|[|f]] v tr H; [discriminate H|discriminate H|]. unfold host_image in H. vm_compute in H. discriminate H.
Qed.
Print Assumptions C57_shared_bytes_refuted.
