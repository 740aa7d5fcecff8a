From Coq Require Import ZArith.
From Verif Require Import Base Bytes FlatModel FlatSpec MmModel MmSpec PagedModel PagedSpec HeaderModel HeaderSpec
  SerialModel SerialSpec SaveModel SaveSpec.
From Verif Require BitModel BitSpec BitShift BitRefine HashModel HashSpec HashProbe HashInv HashProofs HashRefine.
From Verif Require FlatProofs MmProofs PagedProofs AliasProofs SerialFinal SerialPost SerialProps.
Local Open Scope Z_scope.

Lemma saved_loads env A t be_src m th f v out : saved env A t be_src m th f v out -> loads env A t m th f v out.
Proof.
  intros (rel & src & a & tr & Ht & Hs & Hm & Hth & Hr & Hg & Ho & Hl) B HB HA.
  exact (SerialProps.C01_round_trip env A t be_src rel src m th f a v tr out Ht Hs Hm Hth Hr Hg Ho Hl B HB HA).
Qed.

(* the number in a free page does not depend on the byte order if it is one element *)
Lemma link_4 be vs p x : Forall (fun x => x < 256 ^ 4)%N vs -> nth_error vs p = Some x -> link_at be 4 vs p = x.
Proof.
  intros H E. unfold link_at. assert (L : skipn p vs = x :: skipn (S p) vs).
  { clear H. revert vs E. induction p as [|p IH]; intros [|v vs] E; cbn in E; try discriminate; [injection E as ->; auto|].
    cbn [skipn]. rewrite (IH vs E). auto. }
  rewrite L. cbn [flat_map]. rewrite firstn_app, SerialPost.of_int_length, Nat.sub_diag, firstn_O, app_nil_r.
  rewrite firstn_all2 by (rewrite SerialPost.of_int_length; lia).
  apply SerialPost.to_of_int. rewrite Forall_forall in H. apply H. apply (nth_error_In _ _ E).
Qed.
Lemma pv_val_order be be' m v : pv_val be 4 m v -> pv_val be' 4 m v.
Proof.
  intros (vs & L & Hb & Hc & E). exists vs. split; auto. split; auto. split; auto. intros p c Hp. pose proof (Hc p c Hp) as Q.
  destruct c as [a|n|]; cbn [cell_is] in *; auto.
  assert (P : (p < length vs)%nat) by (rewrite L; apply nth_error_Some; congruence).
  destruct (nth_error vs p) as [x|] eqn:Ex; [|apply nth_error_None in Ex; lia].
  rewrite (link_4 be vs p x Hb Ex) in Q. rewrite (link_4 be' vs p x Hb Ex). auto.
Qed.

(* ---- the contents tell the state ---- *)
Lemma map_inj {X Y} (g : X -> Y) : (forall x y, g x = g y -> x = y) -> forall l k, map g l = map g k -> l = k.
Proof.
  intros H. induction l as [|x l IH]; intros [|y k] E; cbn in E; try discriminate; auto.
  injection E as E1 E2. rewrite (H x y E1), (IH k E2). auto.
Qed.
Lemma num_inj x y : num x = num y -> x = y.
Proof. unfold num. intros E. injection E. lia. Qed.
Lemma ix_inj x y : ix_val x = ix_val y -> x = y.
Proof. destruct x, y. unfold ix_val, num. cbn. intros E. injection E. intros. f_equal; lia. Qed.
Lemma vv_inj m m' : vv_val m = vv_val m' -> m = m'.
Proof.
  destruct m, m'. unfold vv_val. cbn. intros E. injection E as E1 E2. apply (map_inj _ num_inj) in E2. congruence.
Qed.
Lemma fw_inj m m' : fw_val m = fw_val m' -> m = m'.
Proof.
  destruct m as [d i c b], m' as [d' i' c' b']. unfold fw_val. cbn. intros E. injection E as E1 E2 E3 E4.
  apply (map_inj _ num_inj) in E2. assert (c = c') by lia. destruct b, b'; congruence.
Qed.
Lemma mm_inj m m' : mm_val m = mm_val m' -> m = m'.
Proof.
  destruct m as [i d f c], m' as [i' d' f' c']. unfold mm_val. cbn. intros E. injection E as E1 E2 E3 E4.
  apply (map_inj _ ix_inj) in E1. assert (c = c') by lia. apply map_inj in E3; [congruence|].
  intros x y Q. injection Q as Q. apply (map_inj _ ix_inj) in Q. auto.
Qed.
Lemma nv_inj m m' : nv_val m = nv_val m' -> m = m'.
Proof.
  destruct m as [d i], m' as [d' i']. unfold nv_val. cbn. intros E. injection E as E1 E2.
  apply map_inj in E1; [congruence|]. intros x y Q. injection Q as Q. apply (map_inj _ num_inj) in Q. auto.
Qed.
Lemma fm_inj m m' : fm_val m = fm_val m' -> m = m'.
Proof. destruct m, m'. unfold fm_val. cbn. congruence. Qed.

(* ---- the layouts ---- *)
Lemma arr_wf A t n : wf A t -> (0 < n)%nat -> al_ok A (align_of t) -> (align_of t | size_of t) -> 0 < size_of t -> wf A (arr t n).
Proof.
  intros W Hn Ha Hd Hs. unfold arr. apply wf_agg; auto; try nia.
  - apply Z.divide_mul_r. auto.
  - intros o u H. apply in_map_iff in H. destruct H as (i & E & I). injection E as <- <-. apply in_seq in I.
    split; auto. split; [nia|]. split; [nia|]. split; [apply Z.divide_mul_r; auto|apply Z.divide_refl].
  - assert (G : forall k n, ForallOrdPairs (fun x y : Z * ty => apart (fst x) (size_of (snd x)) (fst y) (size_of (snd y)))
      (map (fun i => (Z.of_nat i * size_of t, t)) (seq k n))).
    { intros k m. revert k. induction m as [|m IH]; intros k; cbn [seq map]; constructor; auto.
      apply Forall_forall. intros y H. apply in_map_iff in H. destruct H as (i & <- & I). apply in_seq in I. left. cbn [fst snd]. nia. }
    apply G.
Qed.
Lemma vec_wf A n : wf A (vec n).
Proof. constructor. cbn. auto. Qed.
Lemma int_wf A w : In w [1; 2; 4; 8]%nat -> wf A (TInt w).
Proof. constructor. auto. Qed.
Ltac pairs := repeat (first [apply FOP_cons | apply FOP_nil | apply Forall_cons | apply Forall_nil]); unfold apart; cbn; try lia.
Ltac dv := match goal with |- (?a | ?b) => exists (b / a); reflexivity end.
Ltac field := split; [first [apply vec_wf | apply int_wf; cbn; tauto]|]; cbn; repeat split; try lia; dv.
Section Layout.
Variable A : Z.
Hypothesis A8 : (8 | A).
Lemma al8 : al_ok A 8.
Proof. split; [lia|auto]. Qed.
Lemma al4 : al_ok A 4.
Proof. split; [lia|]. apply Z.divide_trans with 8; auto. exists 2. auto. Qed.
Lemma vv_wf e i : wf A (vv_ty e i).
Proof.
  apply wf_agg; [exact al8|lia|dv| |pairs].
  intros o t [H|[H|[]]]; injection H as <- <-; field.
Qed.
Lemma fw_wf e i : wf A (fw_ty e i).
Proof.
  apply wf_agg; [exact al8|lia|dv| |pairs].
  intros o t [H|[H|[H|[H|[]]]]]; injection H as <- <-; field.
Qed.
Lemma fm_wf e : wf A (fm_ty e).
Proof.
  apply wf_agg; [exact al8|lia|dv| |pairs].
  intros o t [H|[H|[H|[]]]]; injection H as <- <-; field.
Qed.
Lemma ix_wf : wf A ix_ty.
Proof.
  apply wf_agg; [exact al4|lia|dv| |pairs].
  intros o t [H|[H|[H|[]]]]; injection H as <- <-; field.
Qed.
Lemma page_wf : wf A page_ty.
Proof.
  apply wf_agg; [exact al4|lia|dv| |pairs].
  intros o t [H|[H|[H|[]]]]; injection H as <- <-; field.
Qed.
Lemma node_wf : wf A node_ty.
Proof.
  apply wf_agg; [exact al4|lia|dv| |pairs].
  intros o t [H|[]]; injection H as <- <-; field.
Qed.
Lemma vecs_wf n k : (0 < k)%nat -> wf A (arr (vec n) k).
Proof. intros H. apply arr_wf; auto; [apply vec_wf|exact al8|dv|reflexivity]. Qed.
Lemma size_vec n : size_of (vec n) = 24.
Proof. reflexivity. Qed.
Lemma size_vecs n k : size_of (arr (vec n) k) = Z.of_nat k * 24.
Proof. reflexivity. Qed.
Lemma align_vec n : align_of (vec n) = 8.
Proof. reflexivity. Qed.
Lemma align_vecs n k : align_of (arr (vec n) k) = 8.
Proof. reflexivity. Qed.
Lemma nv_wf n e i : (0 < n)%nat -> wf A (nv_ty n e i).
Proof.
  intros H. apply wf_agg; [exact al8|lia| | |].
  - exists (3 * Z.of_nat n + 3). lia.
  - intros o t [Q|[Q|[]]]; apply pair_equal_spec in Q as (<- & <-).
    + split; [apply vecs_wf; auto|]. rewrite size_vecs, align_vecs. repeat split; try lia; dv.
    + split; [apply vec_wf|]. rewrite size_vec, align_vec. repeat split; try lia; [exists (3 * Z.of_nat n); lia|dv].
  - repeat (first [apply FOP_cons | apply FOP_nil | apply Forall_cons | apply Forall_nil]). left. cbn [fst snd]. rewrite size_vecs. lia.
Qed.
Lemma mm_wf lmax e x : wf A (mm_ty lmax e x).
Proof.
  unfold mm_ty. apply wf_agg; [exact al8|lia| | |].
  - exists (6 + 3 * Z.of_nat (lmax + 1) + 1). lia.
  - intros o t [Q|[Q|[Q|[Q|[]]]]]; apply pair_equal_spec in Q as (<- & <-).
    + split; [apply vec_wf|]. rewrite size_vec, align_vec. repeat split; try lia; dv.
    + split; [apply vec_wf|]. rewrite size_vec, align_vec. repeat split; try lia; dv.
    + split; [apply vecs_wf; lia|]. rewrite size_vecs, align_vecs. repeat split; try lia; dv.
    + split; [apply int_wf; cbn; tauto|]. change (size_of (TInt 4)) with 4. change (align_of (TInt 4)) with 4.
      repeat split; try lia; [exists (12 + 6 * Z.of_nat (lmax + 1)); lia|dv].
  - repeat (first [apply FOP_cons | apply FOP_nil | apply Forall_cons | apply Forall_nil]);
      left; cbn [fst snd]; rewrite ?size_vecs, ?size_vec; lia.
Qed.
Lemma up8_ok z : (8 | up8 z) /\ z <= up8 z < z + 8.
Proof.
  unfold up8. split; [apply Z.divide_factor_r|]. pose proof (Z.div_mod (z + 7) 8 ltac:(lia)). pose proof (Z.mod_pos_bound (z + 7) 8 ltac:(lia)). lia.
Qed.
Lemma pg_wf lmin e : wf A (pg_ty lmin e).
Proof.
  unfold pg_ty. destruct (up8_ok (24 + 4 * Z.of_nat (free_list_size lmin))) as (D & B). fold (pg_size lmin) in D, B.
  apply wf_agg; [exact al8|lia|exact D| |].
  - intros o t [Q|[Q|[]]]; apply pair_equal_spec in Q as (<- & <-).
  { split; [apply vec_wf|]. rewrite size_vec, align_vec. repeat split; try lia; dv. }
    split.
    + apply arr_wf; [exact node_wf|unfold free_list_size; lia|exact al4|dv|reflexivity].
    + cbn [size_of arr align_of node_ty]. repeat split; try lia; dv.
  - repeat (first [apply FOP_cons | apply FOP_nil | apply Forall_cons | apply Forall_nil]). left. cbn [fst snd]. rewrite size_vec. lia.
Qed.
Lemma pv_wf lmin e p : wf A (pv_ty lmin e p).
Proof.
  unfold pv_ty. destruct (up8_ok (24 + 4 * Z.of_nat (free_list_size lmin))) as (D & B). fold (pg_size lmin) in D, B.
  apply wf_agg; [exact al8|lia| | |].
  - apply Z.divide_add_r; [exact D|dv].
  - intros o t [Q|[Q|[]]]; apply pair_equal_spec in Q as (<- & <-).
    + split; [apply pg_wf|]. cbn [size_of pg_ty align_of]. repeat split; try lia; dv.
    + split; [apply vec_wf|]. rewrite size_vec, align_vec. repeat split; try lia; [exact D|dv].
  - repeat (first [apply FOP_cons | apply FOP_nil | apply Forall_cons | apply Forall_nil]). left. cbn [fst snd size_of pg_ty]. lia.
Qed.
Lemma bv_wf b : wf A (bv_ty b).
Proof.
  apply wf_agg; [exact al8|lia|dv| |pairs].
  intros o t [H|[H|[]]]; injection H as <- <-; [|field].
  split; [constructor; cbn; tauto|]. cbn. repeat split; try lia; dv.
Qed.
End Layout.

(* ---- further containers in an nvec ---- *)
Lemma nv_build_app A n cs2 : forall cs m, nv_build A n m (cs ++ cs2) = (let* m := nv_build A n m cs in nv_build A n m cs2).
Proof.
  induction cs as [|c cs IH]; intros m; cbn [app nv_build bind]; auto. destruct (nv_emplace_back A n m c); cbn [bind]; auto.
Qed.

(* ---- bitvec ---- *)
Lemma bv_inj be v v' : (N.of_nat (BitModel.v_size v) < 2 ^ 32)%N -> (N.of_nat (BitModel.v_size v') < 2 ^ 32)%N -> bv_val be v = bv_val be v' -> v = v'.
Proof.
  destruct v as [n b], v' as [n' b']. unfold bv_val. cbn [BitModel.v_size BitModel.v_blocks]. intros H H' E.
  assert (E1 : of_int be 4 (N.of_nat n) = of_int be 4 (N.of_nat n')) by congruence.
  assert (E2 : map VInt b = map VInt b') by congruence.
  apply map_inj in E2; [|intros x y Q; injection Q; auto].
  apply (f_equal (to_int be)) in E1. rewrite !SerialPost.to_of_int in E1 by (cbn; lia). f_equal; [lia|auto].
Qed.
Lemma bv_reached k ops sp outs st r v l :
  BitSpec.vspec_run (repeat [] k) ops = Some (sp, outs) -> BitModel.vrun (repeat (BitModel.BV 0 []) k) ops = Ok (st, outs) ->
  nth_error st r = Some v -> nth_error sp r = Some l -> BitShift.wfv v /\ BitShift.absv v = l.
Proof.
  intros E1 E2 Hv Hl. destruct (BitRefine.vrun_sim ops (repeat (BitModel.BV 0 []) k) sp outs) as (st' & E & F & M).
  - apply BitRefine.empty_wf.
  - rewrite BitRefine.map_repeat'. exact E1.
  - assert (st' = st) by congruence. subst st'. split.
    + rewrite Forall_forall in F. apply F. apply (nth_error_In _ _ Hv).
    + rewrite <- M, nth_error_map, Hv in Hl. injection Hl. auto.
Qed.
Lemma bv_continue v l k ops sp outs : BitShift.wfv v -> BitShift.absv v = l ->
  BitSpec.vspec_run (l :: repeat [] k) ops = Some (sp, outs) ->
  exists st, BitModel.vrun (v :: repeat (BitModel.BV 0 []) k) ops = Ok (st, outs).
Proof.
  intros W <- E. destruct (BitRefine.vrun_sim ops (v :: repeat (BitModel.BV 0 []) k) sp outs) as (st & H & _); eauto.
  - constructor; auto. apply BitRefine.empty_wf.
  - cbn [map]. rewrite BitRefine.map_repeat'. exact E.
Qed.

(* ---- hash_map ---- *)
Section Hash.
Variable K V : Type.
Variable hash : K -> N.
Variable keq : K -> K -> bool.
Variable dv : V.
Variable max_cap : nat.
Hypothesis laws : HashSpec.key_laws K keq hash.
Hypothesis bounded : HashSpec.cap_bounded max_cap.
Variable enc : K * V -> val.
Variable dcd : val -> K * V.
Hypothesis dec_enc : forall e, dcd (enc e) = e.
Local Open Scope nat_scope.

Definition cut (t : HashModel.tbl K V) : HashModel.tbl K V :=
  HashModel.Tbl K V (HashModel.t_ent K V t) (firstn (HashModel.t_cap K V t + 9) (HashModel.t_ctrl K V t)) (HashModel.t_size K V t)
    (HashModel.t_cap K V t) (HashModel.t_growth K V t).
Lemma ht_of_val t : length (HashModel.t_ent K V t) = HashModel.t_cap K V t -> ht_of dcd (ht_val enc t) = cut t.
Proof.
  intros L. unfold ht_of, ht_val, cut. rewrite map_length, L, map_map. f_equal.
  rewrite <- (map_id (HashModel.t_ent K V t)) at 2. apply map_ext. intros [e|]; cbn; auto. now rewrite dec_enc.
Qed.
Lemma cb_cut n l p : p < n -> HashInv.cb (firstn n l) p = HashInv.cb l p.
Proof.
  intros L. unfold HashInv.cb. revert n l L. induction p as [|p IH]; intros [|n] [|x l] L; cbn; auto; try lia. apply IH. lia.
Qed.
Lemma J_cut cap ctrl ent : HashInv.J K V hash cap ctrl ent -> HashInv.J K V hash cap (firstn (cap + 9) ctrl) ent.
Proof.
  intros [H1 H2 H3 H4 H5 H6 H7 H8 H9]. constructor; auto.
  - rewrite firstn_length. lia.
  - apply Forall_forall. intros x I. rewrite Forall_forall in H4. apply H4. rewrite <- (firstn_skipn (cap + 9) ctrl), in_app_iff. auto.
  - rewrite cb_cut by lia. auto.
  - intros s L. rewrite cb_cut by lia. auto.
  - intros i L. rewrite (cb_cut _ _ (cap + 1 + i)) by lia. rewrite H7 by auto. destruct (Nat.ltb_spec i cap); auto. rewrite cb_cut by lia. auto.
  - intros s L. specialize (H8 s L). rewrite cb_cut by lia. auto.
  - intros s e E. destruct (H9 s e E) as (p & j & Q1 & Q2 & Q3). exists p, j. split; [auto|]. split; [auto|].
    intros p' j' P1 P2. pose proof (HashProbe.off_le cap (HashModel.probe_start (hash (fst e)) cap) p'). rewrite cb_cut by lia. auto.
Qed.
Lemma Inv_cut t m I : HashProofs.Inv K V hash keq max_cap t m I -> HashProofs.Inv K V hash keq max_cap (cut t) m I.
Proof.
  intros [H1 H2 H3 H4 H5 H6 H7 H8]. unfold HashProofs.nfull, HashProofs.ndel in *.
  constructor; unfold cut, HashProofs.nfull, HashProofs.ndel;
    cbn [HashModel.t_ent HashModel.t_ctrl HashModel.t_size HashModel.t_cap HashModel.t_growth];
    rewrite ?firstn_firstn, ?(Nat.min_l _ (HashModel.t_cap K V t + 9)) by lia; auto.
  apply J_cut; auto.
Qed.
Lemma ht_continue ops1 t xs : HashModel.run K V hash keq dv max_cap (HashModel.empty_tbl K V) ops1 = Ok (t, xs) ->
  forall ops2, 3 * (HashSpec.inserts K V ops1 + HashSpec.inserts K V ops2) + 2 <= max_cap ->
  exists t2 ys, HashModel.run K V hash keq dv max_cap (ht_of dcd (ht_val enc t)) ops2 = Ok (t2, ys) /\
    Forall2 (HashSpec.same_out K V) ys
      (snd (HashSpec.spec_run K V keq dv (fst (HashSpec.spec_run K V keq dv [] ops1)) ops2)).
Proof.
  intros E ops2 L. destruct (HashRefine.reach K V hash keq dv max_cap laws bounded ops1 t xs E) as (H & _).
  rewrite ht_of_val by apply (HashInv.J_ent _ _ _ _ _ _ (HashProofs.I_J _ _ _ _ _ _ _ _ H)).
  destruct (HashRefine.run_spec K V hash keq dv max_cap laws bounded ops2 _ _ _ (Inv_cut _ _ _ H)) as [(_ & Q)|(t2 & ys & Q & _ & F)]; [lia|].
  eauto.
Qed.
End Hash.
