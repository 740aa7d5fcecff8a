(* Concurrent histories. *)
From Coq Require Import Permutation.
From Verif Require Import Base ArithModel ArithProofs BitModel BitSpec BitProofs BitShift BitRefine
  AtomicModel AtomicSpec.

(* ---------- fetch_min / fetch_max ---------- *)
Lemma flat_map_upd {A B} (f : A -> list B) : forall l t x y v, nth_error l t = Some y -> f y = v :: f x ->
  Permutation (v :: flat_map f (upd t x l)) (flat_map f l).
Proof.
  induction l as [|a l IH]; intros [|t] x y v H E; cbn in H; try discriminate.
  - injection H as ->. cbn. rewrite E. reflexivity.
  - cbn. rewrite Permutation_middle. apply Permutation_app_head. eapply IH; eauto.
Qed.
Lemma flat_map_upd_same {A B} (f : A -> list B) : forall l t x y, nth_error l t = Some y -> f y = f x ->
  flat_map f (upd t x l) = flat_map f l.
Proof.
  induction l as [|a l IH]; intros [|t] x y H E; cbn in H; try discriminate.
  - injection H as ->. cbn. rewrite E. reflexivity.
  - cbn. f_equal. eapply IH; eauto.
Qed.
Definition finv (op : Z -> Z -> Z) (x : Z) (calls : list (list Z)) (s : fstate) : Prop :=
  sequential op x (f_log s) (f_cell s) /\
  Permutation (map fst (f_log s) ++ flat_map f_todo (f_threads s)) (all_calls calls).
Lemma finit_inv op x calls : finv op x calls (finit x calls).
Proof.
  split; [constructor|]. cbn. unfold all_calls. rewrite flat_map_concat_map, map_map. cbn.
  rewrite map_id. reflexivity.
Qed.
Lemma fstep_inv x calls s t b : finv Z.min x calls s -> finv Z.min x calls (fstep Z.min s t b).
Proof.
  intros [S P]. unfold fstep. destruct (nth_error (f_threads s) t) as [[ph [|v todo]]|] eqn:E; try (split; assumption).
  assert (Fin : forall log', Permutation (map fst ((v, log') :: f_log s) ++
      flat_map f_todo (upd t (FT FIdle todo) (f_threads s))) (all_calls calls)).
  { intros old. rewrite <- P. cbn [map fst app].
    rewrite <- (flat_map_upd f_todo (f_threads s) t (FT FIdle todo) _ v E eq_refl).
    apply Permutation_middle. }
  destruct ph as [|old].
  - destruct (Z.gtb_spec (f_cell s) v) as [G|G].
    + split; [exact S|]. cbn. rewrite (flat_map_upd_same f_todo _ _ _ _ E); auto.
    + split; [|apply Fin]. cbn [f_log f_cell].
      replace (f_cell s) with (Z.min (f_cell s) v) at 2 by lia. constructor. exact S.
  - destruct (negb b && (f_cell s =? old)%Z) eqn:C.
    + apply andb_true_iff in C. destruct C as [_ C]. apply Z.eqb_eq in C. subst old.
      split; [|apply Fin]. cbn [f_log f_cell]. constructor. exact S.
    + split; [exact S|]. cbn. rewrite (flat_map_upd_same f_todo _ _ _ _ E); auto.
Qed.
Lemma frun_inv x calls sch : forall s, finv Z.min x calls s -> finv Z.min x calls (fetch_min_run s sch).
Proof.
  unfold fetch_min_run. induction sch as [|[t b] sch IH]; intros s H; cbn [frun]; auto.
  apply IH, fstep_inv, H.
Qed.
Lemma sequential_fold x log y : sequential Z.min x log y -> y = fold_right Z.min x (map fst log).
Proof. induction 1; [reflexivity|]. cbn. rewrite <- IHsequential. lia. Qed.
Lemma fold_min_perm x l l' : Permutation l l' -> fold_right Z.min x l = fold_right Z.min x l'.
Proof. induction 1; cbn; try congruence; lia. Qed.
Lemma fdone_todo s : fdone s = true -> flat_map f_todo (f_threads s) = [].
Proof.
  unfold fdone. generalize (f_threads s) as l. induction l as [|[ph [|v l']] l IH]; cbn; try discriminate; auto.
Qed.
Lemma fetch_min_correct x calls sch :
  let s := fetch_min_run (finit x calls) sch in
  sequential Z.min x (f_log s) (f_cell s) /\
  (fdone s = true -> Permutation (map fst (f_log s)) (all_calls calls) /\
                     f_cell s = fold_right Z.min x (all_calls calls)).
Proof.
  intros s. destruct (frun_inv x calls sch _ (finit_inv Z.min x calls)) as [S P]. fold s in S, P.
  split; auto. intros D. rewrite (fdone_todo s D), app_nil_r in P. split; auto.
  rewrite (sequential_fold _ _ _ S). apply fold_min_perm, P.
Qed.

(* fetch_max never changes the cell *)
Definition maxinv (x : Z) (s : fstate) : Prop :=
  f_cell s = x /\ Forall (fun t => match t with FT (FCas old) (v :: _) => (old = x /\ old > v)%Z | _ => True end) (f_threads s).
Lemma fetch_max_step x s t b : maxinv x s -> maxinv x (fstep Z.max s t b).
Proof.
  intros [C F]. unfold fstep. destruct (nth_error (f_threads s) t) as [[ph [|v todo]]|] eqn:E; try (split; assumption).
  assert (Q := proj1 (Forall_forall _ _) F _ (nth_error_In _ _ E)). cbn in Q.
  destruct ph as [|old].
  - destruct (Z.gtb_spec (f_cell s) v) as [G|G]; (split; [exact C|]); cbn [f_threads]; apply upd_Forall; auto.
    split; lia.
  - destruct Q as [-> Q]. destruct (negb b && (f_cell s =? x)%Z).
    + split; cbn [f_cell f_threads]; [lia|]. apply upd_Forall; auto.
    + split; [exact C|]. cbn [f_threads]. apply upd_Forall; auto. split; lia.
Qed.
Lemma fetch_max_noop x calls sch : f_cell (fetch_max_run (finit x calls) sch) = x.
Proof.
  assert (I : maxinv x (finit x calls)).
  { split; [reflexivity|]. cbn. apply Forall_map, Forall_forall. intros. cbn. auto. }
  revert I. generalize (finit x calls) as s. unfold fetch_max_run.
  induction sch as [|[t b] sch IH]; intros s I; cbn [frun]; [apply I|]. apply IH, fetch_max_step, I.
Qed.

(* ---------- get_next ---------- *)
Section GetNext.
Variables (v : bitvec) (l : list bool) (start : nat).
Hypothesis Hnext : forall e, next_set_bit v e = Ok (next_index l e).

Definition gresults (log : list (nat * option nat)) : list nat :=
  flat_map (fun p => match snd p with Some i => [i] | None => [] end) (rev log).
Definition ginv (s : gstate) : Prop :=
  gresults (g_log s) = filter (fun i => i <? g_next s) (bits_from l start) /\
  start <= g_next s /\
  (forall t, In (t, None) (g_log s) -> gresults (g_log s) = bits_from l start) /\
  Forall (fun p => match p with GTry e idx => next_index l e = Some idx | GLoop => True end) (g_threads s).
Lemma filter_filter {A} (p q : A -> bool) (x : list A) : filter p (filter q x) = filter (fun a => q a && p a) x.
Proof. induction x as [|a x IH]; [reflexivity|]. cbn. destruct (q a) eqn:Q; cbn; rewrite ?IH; reflexivity. Qed.
Lemma filter_none {A} (p : A -> bool) x : (forall a, In a x -> p a = false) -> filter p x = [].
Proof.
  induction x as [|a x IH]; intros H; [reflexivity|]. cbn. rewrite (H a) by (left; auto).
  apply IH. intros; apply H; right; auto.
Qed.
Lemma bits_step e idx : start <= e -> next_index l e = Some idx ->
  filter (fun i => i <? idx + 1) (bits_from l start) = filter (fun i => i <? e) (bits_from l start) ++ [idx].
Proof.
  intros Hs H. pose proof (found_next l e) as F. rewrite H in F. destruct F as (R & T & M).
  unfold bits_from, set_indices. rewrite !filter_filter.
  replace (length l) with (e + ((idx - e) + (1 + (length l - idx - 1)))) by lia.
  rewrite !seq_app, !filter_app. cbn [Nat.add].
  rewrite (filter_none _ (seq e (idx - e))).
  2:{ intros a Ha. apply in_seq in Ha. rewrite M by lia. reflexivity. }
  rewrite (filter_none _ (seq e (idx - e))).
  2:{ intros a Ha. apply in_seq in Ha. rewrite M by lia. reflexivity. }
  cbn [app]. replace (e + (idx - e)) with idx by lia.
  rewrite (filter_none _ (seq (idx + 1) (length l - idx - 1))).
  2:{ intros a Ha. apply in_seq in Ha. apply andb_false_intro2, andb_false_intro2. apply Nat.ltb_ge. lia. }
  rewrite (filter_none _ (seq (idx + 1) (length l - idx - 1))).
  2:{ intros a Ha. apply in_seq in Ha. apply andb_false_intro2, andb_false_intro2. apply Nat.ltb_ge. lia. }
  rewrite !app_nil_r. cbn [seq filter]. rewrite T.
  destruct (Nat.leb_spec start idx); [|lia].
  destruct (Nat.ltb_spec idx (idx + 1)); [|lia]. destruct (Nat.ltb_spec idx e); [lia|].
  cbn [andb]. rewrite app_nil_r. f_equal. apply filter_ext_in'. intros a Ha. apply in_seq in Ha.
  destruct (Nat.ltb_spec a (idx + 1)), (Nat.ltb_spec a e); try lia. reflexivity.
Qed.
Lemma bits_done e : start <= e -> next_index l e = None ->
  filter (fun i => i <? e) (bits_from l start) = bits_from l start.
Proof.
  intros Hs H. pose proof (found_next l e) as F. rewrite H in F. cbn [found] in F.
  assert (A : forall i, In i (bits_from l start) -> i < e).
  { intros i Hi. unfold bits_from, set_indices in Hi. apply filter_In in Hi. destruct Hi as [Hi _].
    apply filter_In in Hi. destruct Hi as [Hi Ht]. apply in_seq in Hi.
    destruct (Nat.lt_ge_cases i e); auto. rewrite F in Ht by lia. discriminate. }
  revert A. generalize (bits_from l start) as x. induction x as [|a x IH]; intros A; [reflexivity|].
  cbn [filter]. destruct (Nat.ltb_spec a e) as [|C]; [|exfalso; specialize (A a (or_introl eq_refl)); lia].
  f_equal. apply IH. intros. apply A. right; auto.
Qed.
Lemma gresults_cons p log : gresults (p :: log) = gresults log ++ match snd p with Some i => [i] | None => [] end.
Proof. unfold gresults. cbn [rev]. rewrite flat_map_app. cbn. rewrite app_nil_r. reflexivity. Qed.
Lemma gstep_inv s t b : ginv s -> exists s', gstep v s t b = Ok s' /\ ginv s'.
Proof.
  intros (R & S & N & F). unfold gstep. destruct (nth_error (g_threads s) t) as [[|e idx]|] eqn:E.
  - rewrite Hnext. cbn [bind]. destruct (next_index l (g_next s)) as [idx|] eqn:EN.
    + eexists. split; [reflexivity|]. repeat split; auto. cbn. apply upd_Forall; auto.
    + eexists. split; [reflexivity|]. pose proof (bits_done _ S EN) as D.
      repeat split; auto; cbn [g_log g_next]; rewrite gresults_cons; cbn [snd]; rewrite app_nil_r; auto.
      intros _ _. congruence.
  - destruct (negb b && (g_next s =? e)) eqn:C.
    + apply andb_true_iff in C. destruct C as [_ C]. apply Nat.eqb_eq in C. subst e.
      assert (Q := proj1 (Forall_forall _ _) F _ (nth_error_In _ _ E)). cbn in Q.
      pose proof (found_next l (g_next s)) as FN. rewrite Q in FN. destruct FN as (FR & _).
      eexists. split; [reflexivity|]. split; [|split; [|split]]; cbn [g_log g_next g_threads].
      * rewrite gresults_cons. cbn [snd]. rewrite R. symmetry. apply bits_step; auto.
      * lia.
      * intros t' [X|X]; [discriminate|]. exfalso. specialize (N _ X). rewrite R in N.
        pose proof (bits_step _ _ S Q) as B. rewrite N in B.
        assert (L : length (filter (fun i => i <? idx + 1) (bits_from l start)) <= length (bits_from l start)).
        { generalize (bits_from l start) as y. induction y as [|a y IH]; cbn [filter length]; [lia|].
          destruct (a <? idx + 1); cbn [length]; lia. }
        rewrite B, app_length in L. cbn in L. lia.
      * apply upd_Forall; auto.
    + eexists. split; [reflexivity|]. repeat split; auto. cbn. apply upd_Forall; auto.
  - eexists. split; [reflexivity|]. repeat split; auto.
Qed.
Lemma grun_inv sch : forall s, ginv s -> exists s', grun v s sch = Ok s' /\ ginv s'.
Proof.
  induction sch as [|[t b] sch IH]; intros s I; cbn [grun]; eauto.
  destruct (gstep_inv s t b I) as (s1 & -> & I1). cbn [bind]. auto.
Qed.
Lemma ginit_inv n : ginv (ginit start n).
Proof.
  repeat split; cbn; auto.
  - symmetry. apply filter_none. intros a Ha. unfold bits_from in Ha. apply filter_In in Ha.
    destruct Ha as [_ Ha]. apply Nat.leb_le in Ha. apply Nat.ltb_ge. auto.
  - intros t [].
  - apply Forall_forall. intros p Hp. apply repeat_spec in Hp. subst. auto.
Qed.
Lemma NoDup_filter' {A} (p : A -> bool) x : NoDup x -> NoDup (filter p x).
Proof. apply NoDup_filter. Qed.
Lemma get_next_correct n sch : exists s, grun v (ginit start n) sch = Ok s /\
  handed_out s = filter (fun i => i <? g_next s) (bits_from l start) /\
  NoDup (handed_out s) /\
  (forall t, In (t, None) (g_log s) -> handed_out s = bits_from l start).
Proof.
  destruct (grun_inv sch _ (ginit_inv n)) as (s & E & R & _ & N & _). exists s. split; auto.
  change (handed_out s) with (gresults (g_log s)). repeat split; auto.
  rewrite R. unfold bits_from, set_indices. do 3 apply NoDup_filter. apply seq_NoDup.
Qed.
End GetNext.

(* ---------- unused bits stay zero ---------- *)
Lemma unused_last_clean v : unused_bits_zero v <-> last_clean (v_size v) (v_blocks v).
Proof. reflexivity. Qed.
Lemma zip_bits op bop a o : length a = length o ->
  (forall x y j, tb (op x y) j = bop (tb x j) (tb y j)) -> bop false false = false ->
  exists b, zip_op op a o = Ok b /\ forall j, bit b j = bop (bit a j) (bit o j).
Proof.
  intros L Ht Z. unfold zip_op.
  destruct (assign_loop_ok (fun a i => let* x := rdb a i in let* y := rdb o i in Ok (op x y))
    (fun i => op (nth i a 0%N) (nth i o 0%N)) eq (seq 0 (length a)) a) as (b & E & L' & B).
  - apply seq_NoDup.
  - apply seq_all_lt. lia.
  - apply FOP_seq. intros. lia.
  - intros i cur Hi Lc Hc. apply in_seq in Hi. rewrite !rdb_ok by lia. cbn [bind].
    rewrite (Hc i eq_refl). reflexivity.
  - exists b. split; auto. intros j. unfold bit. rewrite B. destruct (in_dec _ _ _) as [|I]; [apply Ht|].
    rewrite in_seq in I. rewrite !nth_overflow0 by lia. rewrite !tb_0, Z. reflexivity.
Qed.
Lemma resize_clean v n v' : wfv v -> last_clean (v_size v) (v_blocks v) -> v_size v <= n ->
  bv_resize v n = Ok v' -> last_clean (v_size v') (v_blocks v').
Proof.
  destruct v as [size b]. unfold wfv, bv_resize. cbn [v_size v_blocks]. intros [L W] C H E.
  destruct (Nat.eqb_spec n size) as [->|D]; [injection E as <-; exact C|].
  apply bind_ok in E. destruct E as (c & Ec & E). injection E as <-. cbn [v_size v_blocks].
  assert (Bc : forall i, n <= i -> bit c i = false).
  { intros i Hi. destruct (negb (size =? 0) && negb (size mod BPB =? 0)) eqn:G.
    - apply andb_true_iff in G. destruct G as [G _]. destruct (Nat.eqb_spec size 0); [discriminate|].
      pose proof (num_blocks_pos size ltac:(lia)).
      rewrite sanitized_ok in Ec by lia. cbn [bind] in Ec. rewrite last_ok in Ec by lia. cbn [bind] in Ec.
      rewrite wrb_ok in Ec by lia. rewrite <- clean_upd in Ec by lia. injection Ec as <-.
      rewrite clean_bit by (try split; auto; lia). destruct (Nat.ltb_spec i size); [lia|reflexivity].
    - injection Ec as <-. apply C. lia. }
  intros i Hi. unfold bit. rewrite nth_vec_resize. destruct (_ <? _); [apply Bc; auto|apply tb_0].
Qed.

Definition okv (v : bitvec) : Prop := wfv v /\ last_clean (v_size v) (v_blocks v).
Lemma with_obj_inv {A} (st : list A) r g st' x (P : A -> Prop) :
  with_obj st r g = Ok (st', x) -> Forall P st ->
  (forall a a', nth_error st r = Some a -> P a -> g a = Ok a' -> P a') -> Forall P st'.
Proof.
  unfold with_obj, robj. intros E F H. destruct (nth_error st r) as [a|] eqn:N; [|discriminate]. cbn [bind] in E.
  apply bind_ok in E. destruct E as (a' & G & E). injection E as <- _. apply upd_Forall; auto.
  eapply H; eauto. rewrite Forall_forall in F. apply F. eapply nth_error_In; eauto.
Qed.
Lemma observe_inv {A B} (st : list A) r (g : A -> res B) k st' x : observe st r g k = Ok (st', x) -> st' = st.
Proof.
  unfold observe. intros E. apply bind_ok in E. destruct E as (a & _ & E). apply bind_ok in E.
  destruct E as (y & _ & E). injection E as <- _. reflexivity.
Qed.
Lemma clean_zip v o op bop r : length (v_blocks v) = length (v_blocks o) ->
  (forall x y j, tb (op x y) j = bop (tb x j) (tb y j)) -> bop false false = false ->
  last_clean (v_size v) (v_blocks v) -> last_clean (v_size o) (v_blocks o) -> v_size v = v_size o ->
  on_blocks v (zip_op op (v_blocks v) (v_blocks o)) = Ok r -> last_clean (v_size r) (v_blocks r).
Proof.
  intros L T Z C1 C2 S E. destruct (zip_bits op bop _ _ L T Z) as (b & Eb & B).
  unfold on_blocks in E. rewrite Eb in E. cbn [bind] in E. injection E as <-. cbn [v_size v_blocks].
  intros i Hi. rewrite B, C1, C2, Z by lia. reflexivity.
Qed.
Ltac clean_case F E :=
  eapply (with_obj_inv _ _ _ _ _ (fun v => last_clean (v_size v) (v_blocks v)) E);
  [exact F|]; cbn beta.
Lemma vstep_clean st o st' sp out : Forall wfv st -> Forall (fun v => last_clean (v_size v) (v_blocks v)) st ->
  vspec (map absv st) o = Some (sp, out) -> keeps_unused_zero (map absv st) o = true ->
  vstep st o = Ok (st', out) -> Forall (fun v => last_clean (v_size v) (v_blocks v)) st'.
Proof.
  intros W F H K E. revert W. intros W.
  assert (Wn : forall r a, nth_error st r = Some a -> wfv a).
  { intros r a N. rewrite Forall_forall in W. apply W. eapply nth_error_In; eauto. }
  assert (Cn : forall r a, nth_error st r = Some a -> last_clean (v_size a) (v_blocks a)).
  { intros r a N. rewrite Forall_forall in F. apply (F a). eapply nth_error_In; eauto. }
  destruct o; cbn [vspec vstep keeps_unused_zero] in *; try discriminate K;
    try (apply observe_inv in E; subst; exact F).
  - clean_case F E. intros a a' N C G. rewrite nth_error_map, N in K. cbn in K.
    rewrite absv_length in K. apply Nat.leb_le in K. eapply resize_clean; eauto.
  - inv_robj. rewrite absv_length in H. destruct (Nat.ltb_spec i (v_size a)) as [Hi|]; [|discriminate].
    clean_case F E. intros a0 a' N C G. assert (a0 = a) by congruence. subst a0.
    destruct (set_bit_ok (v_blocks a) i v) as (b & Eb & _ & _ & B).
    { destruct Pa as [-> _]. apply idx_lt; auto. } { apply Pa. }
    unfold on_blocks in G. rewrite Eb in G. cbn [bind] in G. injection G as <-. cbn [v_size v_blocks].
    intros j Hj. rewrite B. destruct (Nat.eqb_spec j i); [lia|]. apply C; auto.
  - clean_case F E. intros a a' N C G. rewrite nth_error_map, N in K. cbn in K.
    rewrite absv_length in K. apply Nat.leb_le in K. unfold bv_set_str in G.
    apply bind_ok in G. destruct G as (v1 & E1 & G). pose proof (resize_clean a _ v1 (Wn _ _ N) C K E1) as C1.
    destruct (resize_ok a (length s) (Wn _ _ N)) as (v1' & E1' & W1 & _). rewrite E1 in E1'. injection E1' as <-.
    pose proof (resize_size _ _ _ E1) as S1.
    destruct (set_all_ok (firstn (v_size v1) (rev s)) (v_blocks v1) 0) as (b & Eb & _ & _ & B).
    { apply W1. } { destruct W1 as [-> _]. rewrite firstn_length. pose proof (num_blocks_bound (v_size v1)). lia. }
    unfold on_blocks in G. rewrite Eb in G. cbn [bind] in G. injection G as <-. cbn [v_size v_blocks].
    intros j Hj. rewrite B. rewrite firstn_length.
    destruct (Nat.leb_spec 0 j), (Nat.ltb_spec j (0 + Nat.min (v_size v1) (length (rev s)))); try lia; apply C1; auto.
  - clean_case F E. intros a a' N C G. injection G as <-. cbn [v_size v_blocks]. intros j Hj.
    rewrite map_const. unfold bit. rewrite nth_repeat. apply tb_0.
  - inv_robj. unfold robj in E. rewrite Ea in E. cbn [bind] in E.
    clean_case F E. intros a0 a' N C G. injection G as <-. eapply Cn; eauto.
  - inv_robj. inv_robj. unfold robj in E. rewrite Ea0 in E. cbn [bind] in E. rewrite !absv_length in H.
    destruct (Nat.eqb_spec (v_size a) (v_size a0)) as [S|]; [|discriminate].
    clean_case F E. intros a1 a' N C G. assert (a1 = a) by congruence. subst a1.
    eapply (clean_zip a a0 N.land andb); eauto; [|apply tb_land].
    destruct Pa as [-> _], Pa0 as [-> _]. congruence.
  - inv_robj. inv_robj. unfold robj in E. rewrite Ea0 in E. cbn [bind] in E. rewrite !absv_length in H.
    destruct (Nat.eqb_spec (v_size a) (v_size a0)) as [S|]; [|discriminate].
    clean_case F E. intros a1 a' N C G. assert (a1 = a) by congruence. subst a1.
    eapply (clean_zip a a0 N.lor orb); eauto; [|apply tb_lor].
    destruct Pa as [-> _], Pa0 as [-> _]. congruence.
  - inv_robj. inv_robj. unfold robj in E. rewrite Ea0 in E. cbn [bind] in E. rewrite !absv_length in H.
    destruct (Nat.eqb_spec (v_size a) (v_size a0)) as [S|]; [|discriminate].
    clean_case F E. intros a1 a' N C G. assert (a1 = a) by congruence. subst a1.
    eapply (clean_zip a a0 N.lxor xorb); eauto; [|apply tb_lxor].
    destruct Pa as [-> _], Pa0 as [-> _]. congruence.
  - inv_robj. rewrite absv_length in H. clean_case F E. intros a1 a' N C G.
    assert (a1 = a) by congruence. subst a1. unfold bv_shift in G.
    destruct (Nat.leb_spec (v_size a) s) as [Hs|Hs].
    + injection G as <-. intros j Hj. unfold bv_reset, bit. cbn [v_blocks].
      rewrite nth_overflow0 by (cbn; lia). apply tb_0.
    + destruct (shr_ok_bits (v_size a) (v_blocks a) s Pa Hs) as (b & Eb & _ & _ & B).
      unfold on_blocks in G. rewrite Eb in G. cbn [bind] in G. injection G as <-. cbn [v_size v_blocks].
      intros j Hj. rewrite B, clean_bit by (auto; lia). destruct (Nat.ltb_spec (j + s) (v_size a)); [lia|reflexivity].
  - apply bind_ok in E. destruct E as (o & _ & E). apply observe_inv in E; subst; exact F.
  - apply bind_ok in E. destruct E as (o & _ & E). apply observe_inv in E; subst; exact F.
Qed.
Lemma vrun_clean ops : forall st sp outs st', Forall wfv st ->
  Forall (fun v => last_clean (v_size v) (v_blocks v)) st ->
  vspec_run (map absv st) ops = Some (sp, outs) -> all_keep (map absv st) ops = true ->
  vrun st ops = Ok (st', outs) -> Forall (fun v => last_clean (v_size v) (v_blocks v)) st'.
Proof.
  induction ops as [|o ops IH]; intros st sp outs st' W F H K E; cbn [vspec_run all_keep vrun] in *.
  - injection E as <- _. exact F.
  - apply andb_true_iff in K. destruct K as [K1 K2].
    destruct (vspec (map absv st) o) as [[sp1 x]|] eqn:S; [|discriminate].
    destruct (vstep_sim st o sp1 x W S) as (st1 & E1 & W1 & <-).
    rewrite E1 in E. cbn [bind] in E. apply bind_ok in E. destruct E as ([st2 xs] & E2 & E).
    injection E as <- <-.
    destruct (vspec_run (map absv st1) ops) as [[sp2 ys]|] eqn:S2; [|discriminate]. injection H as <- <-.
    apply (IH st1 sp2 ys st2); auto. exact (vstep_clean st o st1 _ x W F S K1 E1).
Qed.

Lemma history_facts k ops sp outs st r v l :
  vspec_run (repeat [] k) ops = Some (sp, outs) -> vrun (repeat (BV 0 []) k) ops = Ok (st, outs) ->
  nth_error st r = Some v -> nth_error sp r = Some l -> wfv v /\ absv v = l.
Proof.
  intros H E N N'. destruct (vrun_sim ops (repeat (BV 0 []) k) sp outs) as (st' & E' & F & M).
  { apply empty_wf. } { rewrite map_repeat'. exact H. }
  rewrite E in E'. injection E' as <-. subst sp. rewrite nth_error_map, N in N'. injection N' as <-.
  split; auto. rewrite Forall_forall in F. apply F. eapply nth_error_In; eauto.
Qed.
Lemma next_exact v e : wfv v ->
  (v_size v <= 64 \/ v_size v mod 64 = 0 \/ unused_bits_zero v) -> next_set_bit v e = Ok (next_index (absv v) e).
Proof.
  intros W H. destruct (next_set_bit_found v e W) as (o & E & Q & _). rewrite E. f_equal. apply Q.
  destruct H as [H|[H|H]]; [left|left|right; exact H]; unfold dirty_search.
  - destruct (Nat.ltb_spec 64 (v_size v)); [lia|reflexivity].
  - rewrite H. cbn. rewrite andb_false_r. reflexivity.
Qed.
Lemma history_next k ops sp outs st r v l e :
  vspec_run (repeat [] k) ops = Some (sp, outs) -> vrun (repeat (BV 0 []) k) ops = Ok (st, outs) ->
  nth_error st r = Some v -> nth_error sp r = Some l ->
  (length l <= 64 \/ length l mod 64 = 0 \/ unused_bits_zero v) ->
  next_set_bit v e = Ok (next_index l e).
Proof.
  intros H E N N' C. destruct (history_facts _ _ _ _ _ _ _ _ H E N N') as [W <-].
  rewrite absv_length in C. apply next_exact; auto.
Qed.
Lemma history_unused_zero k ops sp outs st r v :
  vspec_run (repeat [] k) ops = Some (sp, outs) -> vrun (repeat (BV 0 []) k) ops = Ok (st, outs) ->
  all_keep (repeat [] k) ops = true -> nth_error st r = Some v -> unused_bits_zero v.
Proof.
  intros H E K N.
  assert (F : Forall (fun v => last_clean (v_size v) (v_blocks v)) st).
  { eapply (vrun_clean ops (repeat (BV 0 []) k)); eauto.
    - apply empty_wf.
    - apply Forall_forall. intros x Hx. apply repeat_spec in Hx. subst. intros i _. unfold bit. cbn [v_blocks].
      rewrite nth_overflow0 by (cbn; lia). apply tb_0.
    - rewrite map_repeat'. exact H.
    - rewrite map_repeat'. exact K. }
  apply unused_last_clean. rewrite Forall_forall in F. apply (F v). eapply nth_error_In; eauto.
Qed.

(* ---------- atomic sets ---------- *)
Lemma atomic_set_eq b i v : atomic_set b i v = set_bit b i v.
Proof. unfold atomic_set, set_bit. destruct (rdb b (i / BPB)); cbn [bind]; auto. destruct v; reflexivity. Qed.

(* bit j after some of the calls: last value written *)
Definition binv (size : nat) (b0 : list N) (calls : list (list (nat * bool))) (s : bstate) : Prop :=
  exists done, wf size (b_blocks s) /\
  Permutation (done ++ concat (b_todo s)) (concat calls) /\
  forall j, ((forall v, ~ In (j, v) done) -> bit (b_blocks s) j = bit b0 j) /\
            (forall v, In (j, v) done -> (forall v', In (j, v') done -> v' = v) -> bit (b_blocks s) j = v).
Lemma concat_upd {A} : forall (l : list (list A)) t x v, nth_error l t = Some (v :: x) ->
  Permutation (v :: concat (upd t x l)) (concat l).
Proof.
  induction l as [|a l IH]; intros [|t] x v H; cbn in H; try discriminate.
  - injection H as ->. reflexivity.
  - cbn. rewrite Permutation_middle. apply Permutation_app_head. apply IH; auto.
Qed.
Lemma bstep_inv size b0 calls s t : (forall j v, In (j, v) (concat calls) -> j < size) ->
  binv size b0 calls s -> exists s', bstep s t = Ok s' /\ binv size b0 calls s'.
Proof.
  intros R (done & W & P & B). unfold bstep.
  destruct (nth_error (b_todo s) t) as [[|[i v] todo]|] eqn:E.
  1,3: exists s; split; auto; exists done; auto.
  pose proof (concat_upd _ _ _ _ E) as U.
  assert (Hi : i < size).
  { apply (R i v). apply (Permutation_in _ P), in_or_app. right. apply (Permutation_in _ U). left; auto. }
  rewrite atomic_set_eq. destruct (set_bit_ok (b_blocks s) i v) as (b & Eb & Lb & Wb & Bb).
  { destruct W as [-> _]. apply idx_lt; auto. } { apply W. }
  rewrite Eb. cbn [bind]. eexists. split; [reflexivity|]. exists ((i, v) :: done). cbn [b_blocks b_todo].
  split; [|split].
  - destruct W as [L _]. split; auto. congruence.
  - rewrite <- P, <- U. cbn [app]. apply Permutation_middle.
  - intros j. rewrite Bb. destruct (B j) as [B1 B2]. destruct (Nat.eqb_spec j i) as [->|D]; split.
    + intros N. exfalso. apply (N v). left; auto.
    + intros v' H A. apply A. left; auto.
    + intros N. apply B1. intros v' H. apply (N v'). right; auto.
    + intros v' [H|H] A; [congruence|]. apply B2; auto. intros v'' H''. apply A. right; auto.
Qed.
Lemma brun_inv size b0 calls sch : (forall j v, In (j, v) (concat calls) -> j < size) ->
  forall s, binv size b0 calls s -> exists s', brun s sch = Ok s' /\ binv size b0 calls s'.
Proof.
  intros R. induction sch as [|t sch IH]; intros s I; cbn [brun]; eauto.
  destruct (bstep_inv size b0 calls s t R I) as (s1 & -> & I1). cbn [bind]. auto.
Qed.
Lemma bdone_todo s : bdone s = true -> concat (b_todo s) = [].
Proof.
  unfold bdone. generalize (b_todo s) as l. induction l as [|[|v l'] l IH]; cbn; try discriminate; auto.
Qed.
Lemma atomic_sets_correct v calls sch : wfv v ->
  (forall i x, In (i, x) (all_calls calls) -> i < v_size v) ->
  exists s, brun (BS (v_blocks v) calls) sch = Ok s /\
   (bdone s = true ->
     let v' := BV (v_size v) (b_blocks s) in
     wfv v' /\
     (forall j, (forall x, ~ In (j, x) (all_calls calls)) -> nth j (absv v') false = nth j (absv v) false) /\
     (forall j x, In (j, x) (all_calls calls) -> (forall x', In (j, x') (all_calls calls) -> x' = x) ->
        nth j (absv v') false = x)).
Proof.
  intros W R. destruct (brun_inv (v_size v) (v_blocks v) calls sch R (BS (v_blocks v) calls))
    as (s & E & done & W' & P & B).
  { exists []. cbn [b_blocks b_todo]. split; [exact W|]. split; [reflexivity|]. intros j. split; auto. }
  exists s. split; auto. intros D v'. rewrite (bdone_todo s D), app_nil_r in P.
  split; [exact W'|]. unfold absv, v'. cbn [v_size v_blocks]. split.
  - intros j N. rewrite !abs_nth. destruct (B j) as [B1 _]. rewrite B1; auto.
    intros x H. apply (N x). apply (Permutation_in _ P H).
  - intros j x H A. rewrite abs_nth. destruct (B j) as [_ B2]. rewrite (B2 x).
    + destruct (Nat.ltb_spec j (v_size v)) as [|C]; [reflexivity|]. specialize (R j x H). lia.
    + apply (Permutation_in _ (Permutation_sym P) H).
    + intros x' H'. apply A. apply (Permutation_in _ P H').
Qed.
Lemma atomic_sets_union v calls sch : wfv v ->
  (forall i x, In (i, x) (all_calls calls) -> i < v_size v /\ x = true) ->
  exists s, brun (BS (v_blocks v) calls) sch = Ok s /\
   (bdone s = true -> forall j, nth j (absv (BV (v_size v) (b_blocks s))) false = true <->
      nth j (absv v) false = true \/ In (j, true) (all_calls calls)).
Proof.
  intros W R. destruct (atomic_sets_correct v calls sch W) as (s & E & Q).
  { intros i x H. apply (R i x H). }
  exists s. split; auto. intros D j. destruct (Q D) as (_ & Q1 & Q2).
  assert (pd : forall p q : nat * bool, {p = q} + {p <> q}) by (decide equality; auto using bool_dec, Nat.eq_dec).
  destruct (in_dec pd (j, true) (all_calls calls)) as [I|I].
  - rewrite (Q2 j true I); [tauto|]. intros x' H. apply (R j x' H).
  - rewrite Q1; [tauto|]. intros x H. destruct (R j x H) as [_ ->]. auto.
Qed.
