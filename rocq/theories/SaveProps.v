(* C68: nested containers in files. *)
From Coq Require Import ZArith.
From Verif Require Import Base Bytes FlatModel FlatSpec MmModel MmSpec PagedModel PagedSpec HeaderModel HeaderSpec
  SerialModel SerialSpec SerialRead SerialLimits SaveModel SaveSpec SaveProofs.
From Verif Require BitModel BitSpec HashModel HashSpec.
From Verif Require FlatProofs MmProofs PagedProofs AliasProofs.

(* The layouts are ones a compiler can choose, for every element type and all parameters, so C01-C05 apply to them. *)
Theorem C68_layouts : forall A, (8 | A)%Z -> forall e i,
  wf A (vv_ty e i) /\ wf A (fw_ty e i) /\ (forall lmax, wf A (mm_ty lmax e i)) /\ (forall lmin, wf A (pv_ty lmin e i)) /\
  (forall n, 0 < n -> wf A (nv_ty n e i)) /\ wf A (fm_ty e) /\ wf A (bv_ty e) /\ wf A ix_ty /\ wf A page_ty.
Proof.
  intros A H e i. split; [apply vv_wf; auto|]. split; [apply fw_wf; auto|]. split; [intros; apply mm_wf; auto|].
  split; [intros; apply pv_wf; auto|]. split; [intros; apply nv_wf; auto|]. split; [apply fm_wf; auto|]. split; [apply bv_wf; auto|].
  split; [apply ix_wf|apply page_wf]; auto.
Qed.
Print Assumptions C68_layouts.
(* The contents of the members determine the state. *)
Theorem C68_contents :
  (forall m m', vv_val m = vv_val m' -> m = m') /\ (forall m m', fw_val m = fw_val m' -> m = m') /\
  (forall m m', mm_val m = mm_val m' -> m = m') /\ (forall m m', nv_val m = nv_val m' -> m = m') /\
  (forall m m', fm_val m = fm_val m' -> m = m') /\
  (forall be v v', N.of_nat (BitModel.v_size v) < 2 ^ 32 -> N.of_nat (BitModel.v_size v') < 2 ^ 32 -> bv_val be v = bv_val be v' -> v = v')%N.
Proof. split; [exact vv_inj|]. split; [exact fw_inj|]. split; [exact mm_inj|]. split; [exact nv_inj|]. split; [exact fm_inj|exact bv_inj]. Qed.
Print Assumptions C68_contents.

Notation dflt := (VInt 0) (only parsing).
(* A vecvec saved after any history is loaded in the same state, from hosts and to hosts of either byte order, and every
   further history answers as the list of lists that was saved. *)
Theorem C68_vecvec : forall env A e i be_src mo th f out ops l outs c,
  shist val (vv_spec val dflt) [] ops = Some (l, outs) -> hist val (vv_step val dflt) vv_new ops = Ok (c, outs) ->
  saved env A (vv_ty e i) be_src mo th f (vv_val c) out ->
  loads env A (vv_ty e i) mo th f (vv_val c) out /\
  forall ops2 l2 outs2, shist val (vv_spec val dflt) l ops2 = Some (l2, outs2) ->
    exists c2, hist val (vv_step val dflt) c ops2 = Ok (c2, outs2).
Proof.
  intros env A e i be_src mo th f out ops l outs c E1 E2 S. split; [exact (saved_loads _ _ _ _ _ _ _ _ _ S)|]. intros ops2 l2 outs2 E3.
  pose proof (AliasProofs.vv_reached val dflt ops l outs c E1 E2) as R.
  destruct (FlatProofs.hist_sim val (vv_step val dflt) _ (FlatProofs.VR val) (FlatProofs.vv_step_ok val dflt) ops2 _ _ _ _ R E3) as (c2 & H & _).
  eauto.
Qed.
Print Assumptions C68_vecvec.

(* fws_multimap, finished or not *)
Theorem C68_fws_multimap : forall env A e i be_src mo th f out ops s outs c,
  shist val (fw_spec val) ([], [], false) ops = Some (s, outs) -> hist val (fw_step val) fw_new ops = Ok (c, outs) ->
  saved env A (fw_ty e i) be_src mo th f (fw_val c) out ->
  loads env A (fw_ty e i) mo th f (fw_val c) out /\
  forall ops2 s2 outs2, shist val (fw_spec val) s ops2 = Some (s2, outs2) ->
    exists c2, hist val (fw_step val) c ops2 = Ok (c2, outs2).
Proof.
  intros env A e i be_src mo th f out ops s outs c E1 E2 S. split; [exact (saved_loads _ _ _ _ _ _ _ _ _ S)|]. intros ops2 s2 outs2 E3.
  assert (R : FlatProofs.FR val c s).
  { refine (AliasProofs.hist_sim_eq val (fw_step val) _ (FlatProofs.FR val) (FlatProofs.fw_step_ok val) ops _ _ _ outs c _ E1 E2). cbn. auto. }
  destruct (FlatProofs.hist_sim val (fw_step val) _ (FlatProofs.FR val) (FlatProofs.fw_step_ok val) ops2 _ _ _ _ R E3) as (c2 & H & _).
  eauto.
Qed.
Print Assumptions C68_fws_multimap.

(* mutable_fws_multimap, free lists included *)
Theorem C68_multimap : forall env A lmax e x be_src mo th f out ops s outs c, lmax < 32 ->
  shist val (mm_spec val lmax) ([], 0) ops = Some (s, outs) -> hist val (mm_step val dflt lmax) (mm_new lmax) ops = Ok (c, outs) ->
  saved env A (mm_ty lmax e x) be_src mo th f (mm_val c) out ->
  loads env A (mm_ty lmax e x) mo th f (mm_val c) out /\
  forall ops2 s2 outs2, shist val (mm_spec val lmax) s ops2 = Some (s2, outs2) ->
    exists c2, hist val (mm_step val dflt lmax) c ops2 = Ok (c2, outs2).
Proof.
  intros env A lmax e x be_src mo th f out ops s outs c HL E1 E2 S. split; [exact (saved_loads _ _ _ _ _ _ _ _ _ S)|]. intros ops2 s2 outs2 E3.
  assert (B0 : MmProofs.BR val lmax (mm_new lmax) ([], 0)).
  { split; cbn; auto. apply MmProofs.new_inv; auto; [apply repeat_length|]. intros v Hv. apply repeat_spec in Hv. auto. }
  pose proof (AliasProofs.hist_sim_eq val (mm_step val dflt lmax) _ (MmProofs.BR val lmax) (MmProofs.mm_step_ok val dflt lmax HL) ops _ _ _ outs c B0 E1 E2) as R.
  destruct (FlatProofs.hist_sim val (mm_step val dflt lmax) _ (MmProofs.BR val lmax) (MmProofs.mm_step_ok val dflt lmax HL) ops2 _ _ _ _ R E3)
    as (c2 & H & _). eauto.
Qed.
Print Assumptions C68_multimap.

(* flat_matrix *)
Theorem C68_flat_matrix : forall env A e be_src mo th f out ops s outs c,
  shist val (fm_spec val dflt) (0, 0, []) ops = Some (s, outs) -> hist val (fm_step val dflt) fm_new ops = Ok (c, outs) ->
  saved env A (fm_ty e) be_src mo th f (fm_val c) out ->
  loads env A (fm_ty e) mo th f (fm_val c) out /\
  forall ops2 s2 outs2, shist val (fm_spec val dflt) s ops2 = Some (s2, outs2) ->
    exists c2, hist val (fm_step val dflt) c ops2 = Ok (c2, outs2).
Proof.
  intros env A e be_src mo th f out ops s outs c E1 E2 S. split; [exact (saved_loads _ _ _ _ _ _ _ _ _ S)|]. intros ops2 s2 outs2 E3.
  assert (R : FlatProofs.MR val c s).
  { refine (AliasProofs.hist_sim_eq val (fm_step val dflt) _ (FlatProofs.MR val) (FlatProofs.fm_step_ok val dflt) ops _ _ _ outs c _ E1 E2).
    exact (FlatProofs.MR_new val). }
  destruct (FlatProofs.hist_sim val (fm_step val dflt) _ (FlatProofs.MR val) (FlatProofs.fm_step_ok val dflt) ops2 _ _ _ _ R E3) as (c2 & H & _).
  eauto.
Qed.
Print Assumptions C68_flat_matrix.

(* nvec of any depth: what was stored before saving and after loading is found again *)
Theorem C68_nvec : forall env A n e i be_src mo th f out cs c, 0 < n -> Forall (depth val n) cs ->
  nv_build val n (nv_new n) cs = Ok c -> saved env A (nv_ty n e i) be_src mo th f (nv_val c) out ->
  loads env A (nv_ty n e i) mo th f (nv_val c) out /\
  forall cs2, Forall (depth val n) cs2 -> exists c2, nv_build val n c cs2 = Ok c2 /\
    nv_size val n c2 = Ok (length (cs ++ cs2)) /\
    forall k path x x', nth_error (cs ++ cs2) k = Some x -> sub val x path = Some x' ->
      nv_path val n c2 (k :: path) = Ok x' /\ nv_path_size val n c2 (k :: path) = Ok (width val x').
Proof.
  intros env A n e i be_src mo th f out cs c Hn D E S. split; [exact (saved_loads _ _ _ _ _ _ _ _ _ S)|]. intros cs2 D2.
  destruct (FlatProofs.nvec_ok val n (cs ++ cs2) Hn) as (c2 & H & Q); [apply Forall_app; auto|].
  rewrite nv_build_app, E in H. cbn [bind] in H. eauto.
Qed.
Print Assumptions C68_nvec.

(* paged_vecvec of integers of w bytes. Partial: the file must have the byte order of the writing host, or the elements have
   four bytes: the links between free pages lie in the elements' memory and are converted as if they were elements
   (C68_paged_order_refuted). *)
Theorem C68_paged_vecvec_partial : forall env A lmin w e p be_src mo th f out ops l outs c v, 1 <= lmin <= 15 -> In w [1; 2; 4; 8] ->
  let lw := (4 + w - 1) / w in lw <= 2 ^ lmin ->
  shist N (pv_spec N) [] ops = Some (l, outs) -> hist N (pv_step N 0%N lmin lw) (pv_new N lmin) ops = Ok (c, outs) ->
  pv_val be_src w c v -> be_src = file_be mo \/ w = 4 ->
  saved env A (pv_ty lmin e p) be_src mo th f v out ->
  loads env A (pv_ty lmin e p) mo th f v out /\ pv_val (file_be mo) w c v /\
  forall ops2 l2 outs2, shist N (pv_spec N) l ops2 = Some (l2, outs2) ->
    exists c2, hist N (pv_step N 0%N lmin lw) c ops2 = Ok (c2, outs2).
Proof.
  intros env A lmin w e p be_src mo th f out ops l outs c v HL Hw lw Hlw E1 E2 V O S. split; [exact (saved_loads _ _ _ _ _ _ _ _ _ S)|].
  split.
  { destruct O as [<- | ->]; [exact V|]. exact (pv_val_order be_src _ c v V). }
  intros ops2 l2 outs2 E3. assert (H2 : 1 <= lw <= 2 ^ lmin).
  { split; auto. unfold lw. destruct Hw as [<-|[<-|[<-|[<-|[]]]]]; vm_compute; lia. }
  pose proof (AliasProofs.pv_reached N 0%N lmin lw ops l outs c HL H2 E1 E2) as R.
  destruct (FlatProofs.hist_sim N (pv_step N 0%N lmin lw) _ (PagedProofs.PR N lmin) (PagedProofs.pv_step_ok N 0%N lmin lw HL H2) ops2 _ _ _ _ R E3)
    as (c2 & H & _). eauto.
Qed.
Print Assumptions C68_paged_vecvec_partial.

(* bitvec, used in a program with others after loading. Partial: the file must have the byte order of the writing host, as the
   size is not converted (C68_bitvec_order_refuted). *)
Theorem C68_bitvec_partial : forall env A b be_src mo th f out k ops sp outs st r v l,
  BitSpec.vspec_run (repeat [] k) ops = Some (sp, outs) -> BitModel.vrun (repeat (BitModel.BV 0 []) k) ops = Ok (st, outs) ->
  nth_error st r = Some v -> nth_error sp r = Some l -> be_src = file_be mo ->
  saved env A (bv_ty b) be_src mo th f (bv_val be_src v) out ->
  loads env A (bv_ty b) mo th f (bv_val (file_be mo) v) out /\
  forall k2 ops2 sp2 outs2, BitSpec.vspec_run (l :: repeat [] k2) ops2 = Some (sp2, outs2) ->
    exists st2, BitModel.vrun (v :: repeat (BitModel.BV 0 []) k2) ops2 = Ok (st2, outs2).
Proof.
  intros env A b be_src mo th f out k ops sp outs st r v l E1 E2 Hv Hl -> S. split; [exact (saved_loads _ _ _ _ _ _ _ _ _ S)|].
  intros k2 ops2 sp2 outs2 E3. destruct (bv_reached k ops sp outs st r v l E1 E2 Hv Hl) as (W & Q). exact (bv_continue v l k2 ops2 sp2 outs2 W Q E3).
Qed.
Print Assumptions C68_bitvec_partial.

(* hash_map, hash_set. Partial: a table with a tombstone (an erased entry between others) is no graph in the sense of C01, as the
   reader rejects it (C40_tombstone_rejected_refuted). The hash function must be the same in both programs. enc, dcd: entries as
   contents and back. *)
Theorem C68_hash_map_partial : forall K V hash keq dv max_cap (enc : K * V -> val) dcd env A n be_src mo th f out ops t xs,
  HashSpec.key_laws K keq hash -> HashSpec.cap_bounded max_cap -> (forall e, dcd (enc e) = e) ->
  HashModel.run K V hash keq dv max_cap (HashModel.empty_tbl K V) ops = Ok (t, xs) ->
  saved env A (THash n) be_src mo th f (ht_val enc t) out ->
  loads env A (THash n) mo th f (ht_val enc t) out /\
  forall ops2, 3 * (HashSpec.inserts K V ops + HashSpec.inserts K V ops2) + 2 <= max_cap ->
    exists t2 ys, HashModel.run K V hash keq dv max_cap (ht_of dcd (ht_val enc t)) ops2 = Ok (t2, ys) /\
      Forall2 (HashSpec.same_out K V) ys (snd (HashSpec.spec_run K V keq dv (fst (HashSpec.spec_run K V keq dv [] ops)) ops2)).
Proof.
  intros K V hash keq dv max_cap enc dcd env A n be_src mo th f out ops t xs L B D E S.
  split; [exact (saved_loads _ _ _ _ _ _ _ _ _ S)|]. exact (ht_continue K V hash keq dv max_cap L B enc dcd D ops t xs E).
Qed.
Print Assumptions C68_hash_map_partial.

(* ---- concrete cases: memory of a little-endian host, saved in big-endian order (mode 8) unless stated ---- *)
Definition vbytes (a used alloc : N) : list N := le_enc 8 a ++ le_enc 4 used ++ le_enc 4 alloc ++ le_enc 8 1.
Definition u32s (l : list N) : list N := concat (map (le_enc 4) l).
Definition u16s (l : list N) : list N := concat (map (le_enc 2) l).
(* cista::pair<uint64_t, uint64_t> *)
Definition pair_ty : ty := TAgg [(0, TInt 8); (8, TInt 8)]%Z 16 8.
Definition num_env : list ty := [TInt 2; TInt 4; ix_ty; page_ty; TInt 8; pair_ty].
Ltac no_events := let H := fresh in intros; match goal with H : In _ ?t |- _ => exfalso; cbn in H; repeat (destruct H as [H|H]; [discriminate H|]); exact H end.
Lemma num_types t : wf 8 t -> (size_of t < 2 ^ 62)%Z -> types_ok 8 num_env t.
Proof.
  intros W S. assert (D : (8 | 8)%Z) by (exists 1%Z; reflexivity).
  split; [split; [exact D|split; [lia|]]|].
  - constructor; [constructor; cbn; tauto|]. constructor; [constructor; cbn; tauto|]. constructor; [apply ix_wf; auto|].
    constructor; [apply page_wf; auto|]. constructor; [constructor; cbn; tauto|]. constructor; [|constructor].
    apply wf_agg; [apply al8; auto|lia|dv| |pairs]. intros o u [H|[H|[]]]; injection H as <- <-; field.
  - split; [lia|]. split; [exact W|]. constructor; auto. repeat (constructor; [reflexivity|]). constructor.
Qed.
Ltac save src := exists false, src, 1000%Z; eexists;
  split; [apply num_types; [first [apply vv_wf | apply fw_wf | apply mm_wf | apply pv_wf | apply nv_wf | apply fm_wf | apply bv_wf | apply wf_hash]; try (exists 1%Z; reflexivity); lia|reflexivity]|];
  split; [apply mem_of_total; vm_compute; reflexivity|]; split; [split; reflexivity|]; split; [reflexivity|]; split; [reflexivity|];
  split; [split; [vm_compute; reflexivity|split; [split; [constructor|no_events]|unfold pointers_fit; no_events]]|];
  split; [vm_compute; reflexivity|reflexivity].
Definition ints (l : list N) : list val := map VInt l.

Definition vv_src : mem := mem_of [(1000%Z, vbytes 2000 4 4 ++ vbytes 3000 4 8); (2000%Z, u16s [7; 8; 9; 300]%N); (3000%Z, u32s [0; 2; 3; 4]%N)].
Example C68_vecvec_case : exists c out,
  shist val (vv_spec val dflt) [] [VEmplace (ints [7; 8]); VEmplace []; VPush 1 (VInt 9); VEmplace (ints [300])]%N
    = Some ([ints [7; 8]; ints [9]; ints [300]]%N, repeat XNone 4) /\
  hist val (vv_step val dflt) vv_new [VEmplace (ints [7; 8]); VEmplace []; VPush 1 (VInt 9); VEmplace (ints [300])]%N = Ok (c, repeat XNone 4) /\
  saved num_env 8 (vv_ty 0 1) false 8 0 3 (vv_val c) out.
Proof. eexists. eexists. split; [reflexivity|]. split; [reflexivity|]. save vv_src. Qed.

Definition fw_src : mem :=
  mem_of [(1000%Z, vbytes 2000 3 4 ++ vbytes 3000 1 1 ++ u32s [2]%N ++ [0; 0; 0; 0]%N); (2000%Z, u16s [7; 8; 9]%N); (3000%Z, u32s [0]%N)].
Definition fw_before : list (fw_op val) := [FPush (VInt 7); FPush (VInt 8); FFinishKey; FPush (VInt 9)].
Example C68_fws_multimap_case : exists c out,
  shist val (fw_spec val) ([], [], false) fw_before = Some (([ints [7; 8]%N], [VInt 9], false), repeat XNone 4) /\
  hist val (fw_step val) fw_new fw_before = Ok (c, repeat XNone 4) /\
  saved num_env 8 (fw_ty 0 1) false 8 0 3 (fw_val c) out /\
  shist val (fw_spec val) ([ints [7; 8]%N], [VInt 9], false) [FFinishKey; FFinishMap; FAll]
    = Some (([ints [7; 8]; ints [9]]%N, [], true), [XNone; XNone; XAll [ints [7; 8]; ints [9]]%N]).
Proof. eexists. eexists. split; [reflexivity|]. split; [reflexivity|]. split; [save fw_src|reflexivity]. Qed.

Definition mm_src : mem :=
  mem_of [(1000%Z, vbytes 2000 2 2 ++ vbytes 3000 4 4 ++ vbytes 4000 1 1 ++ vbytes 0 0 0 ++ u32s [3; 0]%N);
          (2000%Z, u32s [2; 2; 2; 1; 1; 1]%N); (3000%Z, u16s [7; 9; 7; 8]%N); (4000%Z, u32s [0; 0; 1]%N)].
Definition mm_before : list (mm_op val) := [BTouch 1; BPush 0 (VInt 7); BPush 1 (VInt 9); BPush 0 (VInt 8)].
Example C68_multimap_case : exists c out,
  shist val (mm_spec val 1) ([], 0) mm_before = Some (([ints [7; 8]; ints [9]]%N, 0), repeat XNone 4) /\
  hist val (mm_step val dflt 1) (mm_new 1) mm_before = Ok (c, repeat XNone 4) /\
  saved num_env 8 (mm_ty 1 0 2) false 8 0 5 (mm_val c) out /\ mm_free c = [[Ix 0 0 1]; []].
Proof. eexists. eexists. split; [reflexivity|]. split; [vm_compute; reflexivity|]. split; [save mm_src|reflexivity]. Qed.

Definition fm_src : mem := mem_of [(1000%Z, u32s [2; 2]%N ++ vbytes 2000 4 4); (2000%Z, u16s [3; 3; 4; 3]%N)].
Example C68_flat_matrix_case : exists c out,
  shist val (fm_spec val dflt) (0, 0, []) [MMake 2 2 (VInt 3); MSet 1 0 (VInt 4)] = Some ((2, 2, [ints [3; 3]; ints [4; 3]]%N), repeat XNone 2) /\
  hist val (fm_step val dflt) fm_new [MMake 2 2 (VInt 3); MSet 1 0 (VInt 4)] = Ok (c, repeat XNone 2) /\
  saved num_env 8 (fm_ty 0) false 8 0 3 (fm_val c) out.
Proof. eexists. eexists. split; [reflexivity|]. split; [vm_compute; reflexivity|]. save fm_src. Qed.

Definition nv_src : mem :=
  mem_of [(1000%Z, vbytes 2000 4 4 ++ vbytes 3000 3 4 ++ vbytes 4000 3 3); (2000%Z, u32s [0; 2; 2; 3]%N); (3000%Z, u32s [0; 2; 3]%N);
          (4000%Z, u16s [7; 8; 9]%N)].
Definition nv_before : list (nest val) := [Node [Leaf (ints [7; 8]%N); Leaf []]; Node [Leaf (ints [9]%N)]].
Example C68_nvec_case : exists c out,
  Forall (depth val 2) nv_before /\ nv_build val 2 (nv_new 2) nv_before = Ok c /\ saved num_env 8 (nv_ty 2 0 1) false 8 0 4 (nv_val c) out.
Proof. eexists. eexists. split; [repeat constructor|]. split; [reflexivity|]. save nv_src. Qed.

(* four bytes: also in the other byte order *)
Definition END32 : N := 4294967295%N.
Definition pv4_src : mem :=
  mem_of [(1000%Z, vbytes 2000 6 8 ++ u32s (4%N :: repeat END32 14) ++ [0; 0; 0; 0]%N ++ vbytes 3000 1 1);
          (2000%Z, u32s [1; 2; END32; 0; 2; 5]%N); (3000%Z, u16s [2; 2; 0; 0]%N)].
Definition pv_before : list (pv_op N) := [PEmplace [1; 2]; PEmplace [3]; PEmplace [4; 5]; PResize 1]%N.
Example C68_paged_vecvec_case : exists c v out,
  shist N (pv_spec N) [] pv_before = Some ([[1; 2]]%N, repeat XNone 4) /\
  hist N (pv_step N 0%N 1 1) (pv_new N 1) pv_before = Ok (c, repeat XNone 4) /\
  pv_val false 4 c v /\ saved num_env 8 (pv_ty 1 1 3) false 8 0 5 v out /\
  nth_error (pg_data (pv_pg c)) 4 = Some (Link (Some 2)) /\
  shist N (pv_spec N) [[1; 2]]%N [PEmplace [6]; PEmplace [7; 8]; PEmplace [9]; PAll]%N
    = Some ([[1; 2]; [6]; [7; 8]; [9]]%N, [XNone; XNone; XNone; XAll [[1; 2]; [6]; [7; 8]; [9]]%N]).
Proof.
  eexists. eexists. eexists. split; [reflexivity|]. split; [vm_compute; reflexivity|]. split.
  { exists [1; 2; END32; 0; 2; 5]%N. split; [reflexivity|]. split; [repeat constructor|]. split; [|reflexivity].
    intros [|[|[|[|[|[|p]]]]]] c E; cbn in E; try (injection E as <-; vm_compute; reflexivity). destruct p; discriminate. }
  split; [save pv4_src|]. split; reflexivity.
Qed.

(* Two bytes and the other byte order: the second free page is not found where it was. The elements of the loaded container are
   the same, but the first free page (8) now names the page 262144 as the next one, far behind the end of the data. *)
Definition pv2_src : mem :=
  mem_of [(1000%Z, vbytes 2000 12 12 ++ u32s (8%N :: repeat END32 13) ++ vbytes 3000 1 1);
          (2000%Z, u16s [1; 2; 0; 0; 65535; 65535; 0; 0; 4; 0; 6; 0]%N); (3000%Z, u16s [2; 4; 0; 0]%N)].
Definition pv2_before : list (pv_op N) := [PEmplace [1; 2]; PEmplace [3]; PEmplace [4; 5; 6]; PResize 1]%N.
Theorem C68_paged_order_refuted : exists c vs r out, let v := VAgg [VAgg (VVec (map VInt vs) :: [fst r]); snd r] in
  hist N (pv_step N 0%N 2 2) (pv_new N 2) pv2_before = Ok (c, repeat XNone 4) /\
  pv_val false 2 c v /\ saved num_env 8 (pv_ty 2 0 3) false 8 0 5 v out /\ loads num_env 8 (pv_ty 2 0 3) 8 0 5 v out /\
  nth_error (pg_nodes (pv_pg c)) 0 = Some (Some 8) /\ nth_error (pg_data (pv_pg c)) 8 = Some (Link (Some 4)) /\
  link_at false 2 vs 8 = 4%N /\ link_at true 2 vs 8 = 262144%N /\ length vs = 12 /\ ~ pv_val true 2 c v.
Proof.
  assert (S : exists out, saved num_env 8 (pv_ty 2 0 3) false 8 0 5
    (VAgg [VAgg [VVec (map VInt [1; 2; 0; 0; 65535; 65535; 0; 0; 4; 0; 6; 0]%N); VAgg (map (fun n => VAgg [VInt n]) (8%N :: repeat END32 13))];
           VVec [VAgg [VInt 2; VInt 4; VInt 0]]]) out) by (eexists; save pv2_src).
  destruct S as (out & S).
  eexists. exists [1; 2; 0; 0; 65535; 65535; 0; 0; 4; 0; 6; 0]%N.
  exists (VAgg (map (fun n => VAgg [VInt n]) (8%N :: repeat END32 13)), VVec [VAgg [VInt 2; VInt 4; VInt 0]]). exists out.
  cbn [fst snd]. split; [vm_compute; reflexivity|]. split.
  { eexists. split; [|split; [|split]]; [ | | |reflexivity]; [reflexivity|repeat constructor|].
    intros p c E. do 12 (destruct p as [|p]; [cbn in E; injection E as <-; vm_compute; reflexivity|]). destruct p; discriminate. }
  split; [exact S|]. split; [exact (saved_loads _ _ _ _ _ _ _ _ _ S)|]. split; [reflexivity|]. split; [reflexivity|]. split; [reflexivity|].
  split; [reflexivity|]. split; [reflexivity|].
  intros (vs & _ & _ & H & E). assert (Q : vs = [1; 2; 0; 0; 65535; 65535; 0; 0; 4; 0; 6; 0]%N).
  { injection E as E. symmetry. refine (map_inj VInt _ [1; 2; 0; 0; 65535; 65535; 0; 0; 4; 0; 6; 0]%N vs E). intros x y Q. injection Q. auto. }
  subst vs. specialize (H 8 _ eq_refl). vm_compute in H. discriminate H.
Qed.
Print Assumptions C68_paged_order_refuted.

Definition bv_src : mem := mem_of [(1000%Z, le_enc 4 70 ++ le_enc 4 0 ++ vbytes 2000 2 2); (2000%Z, le_enc 8 8 ++ le_enc 8 32)].
Example C68_bitvec_case : exists st v out l,
  BitSpec.vspec_run (repeat [] 1) [BitModel.VResize 0 70; BitModel.VSet 0 69 true; BitModel.VSet 0 3 true] = Some ([l], repeat BitModel.BNone 3) /\
  BitModel.vrun (repeat (BitModel.BV 0 []) 1) [BitModel.VResize 0 70; BitModel.VSet 0 69 true; BitModel.VSet 0 3 true] = Ok (st, repeat BitModel.BNone 3) /\
  nth_error st 0 = Some v /\ saved num_env 8 (bv_ty 4) false 0 0 3 (bv_val false v) out.
Proof.
  eexists. eexists. eexists. eexists. split; [vm_compute; reflexivity|]. split; [vm_compute; reflexivity|]. split; [reflexivity|]. save bv_src.
Qed.
(* saved in the other byte order, 70 bits become 1174405120, in the same two blocks *)
Theorem C68_bitvec_order_refuted : exists v out,
  BitModel.vrun (repeat (BitModel.BV 0 []) 1) [BitModel.VResize 0 70; BitModel.VSet 0 69 true; BitModel.VSet 0 3 true] = Ok ([v], repeat BitModel.BNone 3) /\
  saved num_env 8 (bv_ty 4) false 8 0 3 (bv_val false v) out /\ loads num_env 8 (bv_ty 4) 8 0 3 (bv_val false v) out /\
  to_int true (of_int false 4 (N.of_nat (BitModel.v_size v))) = 1174405120%N /\ length (BitModel.v_blocks v) = 2.
Proof.
  assert (S : exists out, saved num_env 8 (bv_ty 4) false 8 0 3 (bv_val false (BitModel.BV 70 [8; 32]%N)) out) by (eexists; save bv_src).
  destruct S as (out & S). exists (BitModel.BV 70 [8; 32]%N), out. split; [vm_compute; reflexivity|]. split; [exact S|].
  split; [exact (saved_loads _ _ _ _ _ _ _ _ _ S)|]. split; reflexivity.
Qed.
Print Assumptions C68_bitvec_order_refuted.

(* four operations, one of them an erase that leaves no tombstone; stored in a file for a big-endian reader *)
Definition ht_ops : list (HashModel.op N N) :=
  [HashModel.Emplace N N 5 50; HashModel.Emplace N N 9 90; HashModel.Erase N N 5; HashModel.Emplace N N 6 60]%N.
Definition pair_val (e : N * N) : val := VAgg [VInt (fst e); VInt (snd e)].
Definition pair_of (v : val) : N * N := match v with VAgg [VInt k; VInt x] => (k, x) | _ => (0, 0)%N end.
Definition ht_src : mem := mem_of [(1000%Z, words [2000; 2048; 2; 3; 1; 1]%N);
  (2000%Z, words [6; 60; 0; 0; 9; 90]%N ++ [6; 128; 9; 255; 6; 128; 9; 128; 128; 128; 128; 128]%N)].
Example C68_hash_map_case : exists t xs out, (forall e, pair_of (pair_val e) = e) /\
  HashModel.run N N slot_hash N.eqb 0%N 1000 (HashModel.empty_tbl N N) ht_ops = Ok (t, xs) /\
  saved num_env 8 (THash 5) false 8 0 3 (ht_val pair_val t) out.
Proof.
  eexists. eexists. eexists. split; [intros []; reflexivity|]. split; [vm_compute; reflexivity|]. save ht_src.
Qed.
(* a map that never held anything, with the shared empty group *)
Definition he_src : mem := mem_of [(1000%Z, words [0; 2048; 0; 0; 0; 0]%N); (2048%Z, HashModel.empty_group)].
Example C68_hash_map_empty : exists out, saved num_env 8 (THash 5) false 0 0 3 (ht_val pair_val (HashModel.empty_tbl N N)) out.
Proof. eexists. save he_src. Qed.
