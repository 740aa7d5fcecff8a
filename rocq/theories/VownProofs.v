From Verif Require Import Base ArithModel ArithProofs VecModel VecSpec VecProofs VownModel VownSpec.

Section VP.
Variable A : Type.
Variable w : N.
Variable triv : bool.
Hypothesis Hw : npo2_width w.
Notation vec := (vec A).
Notation slot := (slot A).
Notation R := (R A w False).
Notation small := (small w).
Notation smallN := (smallN w).
Notation capacity := (capacity A).

(* ---- reserve keeps the block exactly when it is large enough ---- *)
Lemma reserve_same v n : (n <= N.of_nat (capacity v))%N -> reserve A w triv v n = Ok v.
Proof.
  intros H. unfold reserve, VownModel.capacity in *.
  destruct (N.leb_spec (N.max (N.of_nat (length (v_slots v))) n) (N.of_nat (length (v_slots v)))); auto. lia.
Qed.
Lemma reserve_fresh v xs n : R v xs -> smallN n -> (N.of_nat (capacity v) < n)%N ->
  exists v', reserve A w triv v n = Ok v' /\ (capacity v' =? capacity v) = false /\ R v' xs.
Proof.
  intros HR Hn Hc. destruct (reserve_ok A w triv Hw False v xs n HR Hn) as (v' & rest & E & S1 & U & Sm & C & L).
  exists v'. split; [exact E|]. split; [apply Nat.eqb_neq; unfold VownModel.capacity in *; lia|].
  exists rest. auto.
Qed.
Lemma wrap_small n k : small (n + k) -> wrapw w (N.of_nat n + N.of_nat k) = (N.of_nat n + N.of_nat k)%N.
Proof. intros H. apply wrapw_id; auto. unfold VecProofs.smallN, VecProofs.small in *. lia. Qed.

(* ---- lengths ---- *)
Lemma construct_len (l l' : list slot) i x k : construct A triv l i x = Ok (l', k) -> length l' = length l.
Proof. unfold construct. destruct (nth_error l i); intros [=]. subst. apply upd_length. Qed.
Lemma construct_l_len xs : forall (l l' : list slot) i k, construct_l A triv l i xs = Ok (l', k) -> length l' = length l.
Proof.
  induction xs as [|x xs IH]; intros l l' i k; cbn [construct_l]; [intros [=]; subst; auto|].
  destruct (construct A triv l i x) as [(l1, k1)| | |] eqn:E; cbn [bind]; try discriminate.
  destruct (construct_l A triv l1 (S i) xs) as [(l2, k2)| | |] eqn:E2; cbn [bind]; try discriminate.
  intros [=]; subst. rewrite (IH _ _ _ _ E2). eapply construct_len; eauto.
Qed.
Lemma assign_l_len xs : forall (l l' : list slot) i, assign_l A l i xs = Ok l' -> length l' = length l.
Proof.
  induction xs as [|x xs IH]; intros l l' i; cbn [assign_l]; [intros [=]; subst; auto|].
  unfold assign. destruct (nth_error l i) as [[| |]|]; cbn [bind]; try discriminate;
  intros E; rewrite (IH _ _ _ E); apply upd_length.
Qed.
Lemma rotate_len (l l' : list slot) a m e p : rotate A l a m e = Ok (l', p) -> length l' = length l.
Proof.
  unfold rotate. destruct (read_n A l a (m - a)); cbn [bind]; try discriminate.
  destruct (read_n A l m (e - m)); cbn [bind]; try discriminate.
  destruct (assign_l A l a _) eqn:E; cbn [bind]; try discriminate.
  intros [=]; subst. eapply assign_l_len; eauto.
Qed.

(* ---- the loop that reads the argument again and again ---- *)
Lemma construct_own_ok j x n : forall l i, nth_error l j = Some (Live x) -> j < i ->
  construct_own A triv l true i n j = construct_l A triv l i (repeat x n).
Proof.
  induction n as [|n IH]; intros l i Hj Hi; cbn [construct_own construct_l repeat]; auto.
  unfold read. rewrite Hj. cbn [bind]. unfold construct. destruct (nth_error l i) as [s|]; cbn [bind]; auto.
  rewrite IH; auto. rewrite nth_error_upd_neq by lia. auto.
Qed.

(* ---- one call ---- *)
Lemma nth_lt (xs : list A) j x : nth_error xs j = Some x -> j < length xs.
Proof. intros H. apply nth_error_Some. congruence. Qed.

(* with room: as with a copy *)
Lemma push_room v xs j x : R v xs -> nth_error xs j = Some x -> small (length xs + 1) -> length xs + 1 <= capacity v ->
  push_back_own A w triv v j = push_back A w triv v x.
Proof.
  intros HR Hj Hs Hc. unfold push_back_own, push_back. rewrite (R_used _ _ _ _ _ HR).
  change 1%N with (N.of_nat 1). rewrite wrap_small, reserve_same by (auto; lia). cbn [bind].
  rewrite Nat.eqb_refl, (read_R _ _ _ _ _ _ _ HR Hj). reflexivity.
Qed.
Lemma insert_room v xs i j x : R v xs -> nth_error xs j = Some x -> small (length xs + 1) -> length xs + 1 <= capacity v ->
  insert_own A w triv v i j = insert A w triv v i x.
Proof.
  intros HR Hj Hs Hc. unfold insert_own, insert. rewrite (R_used _ _ _ _ _ HR).
  change 1%N with (N.of_nat 1). rewrite wrap_small, reserve_same by (auto; lia). cbn [bind]. unfold old_ref.
  rewrite Nat.eqb_refl, (read_R _ _ _ _ _ _ _ HR Hj). reflexivity.
Qed.
Lemma insert_n_room v xs i n j x : R v xs -> nth_error xs j = Some x -> small (length xs + n) -> length xs + n <= capacity v ->
  insert_n_own A w triv v i n j = insert_n A w triv v i n x.
Proof.
  intros HR Hj Hs Hc. unfold insert_n_own, insert_n. rewrite (R_used _ _ _ _ _ HR).
  rewrite wrap_small, reserve_same by (auto; lia). cbn [bind].
  rewrite Nat.eqb_refl, (construct_own_ok j x); auto.
  - eapply nth_error_R; eauto.
  - eapply nth_lt; eauto.
Qed.
(* without: UB *)
Lemma push_full v xs j : R v xs -> small (length xs + 1) -> capacity v < length xs + 1 ->
  push_back_own A w triv v j = UB.
Proof.
  intros HR Hs Hc. unfold push_back_own. rewrite (R_used _ _ _ _ _ HR).
  change 1%N with (N.of_nat 1). rewrite wrap_small by auto.
  destruct (reserve_fresh v xs (N.of_nat (length xs) + N.of_nat 1) HR) as (v' & -> & E & _);
    [unfold VecProofs.smallN, VecProofs.small in *; lia|lia|]. cbn [bind]. unfold VownModel.capacity in E. rewrite E. reflexivity.
Qed.
Lemma insert_full v xs i j : R v xs -> small (length xs + 1) -> capacity v < length xs + 1 ->
  insert_own A w triv v i j = UB.
Proof.
  intros HR Hs Hc. unfold insert_own. rewrite (R_used _ _ _ _ _ HR).
  change 1%N with (N.of_nat 1). rewrite wrap_small by auto.
  destruct (reserve_fresh v xs (N.of_nat (length xs) + N.of_nat 1) HR) as (v' & -> & E & _);
    [unfold VecProofs.smallN, VecProofs.small in *; lia|lia|]. cbn [bind]. unfold old_ref. rewrite E. reflexivity.
Qed.
Lemma used_cap v xs : R v xs -> length xs <= capacity v.
Proof. intros (r & E & _). unfold VownModel.capacity. rewrite E, app_length, map_length. lia. Qed.
Lemma insert_n_full v xs i n j : R v xs -> small (length xs + n) -> capacity v < length xs + n ->
  insert_n_own A w triv v i n j = UB.
Proof.
  intros HR Hs Hc. unfold insert_n_own. rewrite (R_used _ _ _ _ _ HR). rewrite wrap_small by auto.
  destruct (reserve_fresh v xs (N.of_nat (length xs) + N.of_nat n) HR) as (v' & -> & E & _);
    [unfold VecProofs.smallN, VecProofs.small in *; lia|lia|]. cbn [bind]. rewrite E.
  pose proof (used_cap v xs HR). destruct n as [|n]; [lia|]. reflexivity.
Qed.

(* the calls with a copy keep the block *)
Lemma push_cap v v' xs x : R v xs -> small (length xs + 1) -> length xs + 1 <= capacity v ->
  push_back A w triv v x = Ok v' -> capacity v' = capacity v.
Proof.
  intros HR Hs Hc. unfold push_back. rewrite (R_used _ _ _ _ _ HR).
  change 1%N with (N.of_nat 1). rewrite wrap_small, reserve_same by (auto; lia). cbn [bind].
  destruct (construct A triv (v_slots v) _ x) as [(l, k)| | |] eqn:E; cbn [bind]; try discriminate.
  intros [=]; subst. eapply construct_len; eauto.
Qed.
Lemma insert_cap v v' xs i x p : R v xs -> small (length xs + 1) -> length xs + 1 <= capacity v ->
  insert A w triv v i x = Ok (v', p) -> capacity v' = capacity v.
Proof.
  intros HR Hs Hc. unfold insert. rewrite (R_used _ _ _ _ _ HR).
  change 1%N with (N.of_nat 1). rewrite wrap_small, reserve_same by (auto; lia). cbn [bind].
  destruct (construct A triv (v_slots v) _ x) as [(l, k)| | |] eqn:E; cbn [bind]; try discriminate.
  destruct (rotate A l i _ _) as [(l2, q)| | |] eqn:E2; cbn [bind]; try discriminate.
  intros [=]; subst. unfold VownModel.capacity. cbn [v_slots]. rewrite (rotate_len _ _ _ _ _ _ E2). eapply construct_len; eauto.
Qed.
Lemma insert_n_cap v v' xs i n x p : R v xs -> small (length xs + n) -> length xs + n <= capacity v ->
  insert_n A w triv v i n x = Ok (v', p) -> capacity v' = capacity v.
Proof.
  intros HR Hs Hc. unfold insert_n. rewrite (R_used _ _ _ _ _ HR).
  rewrite wrap_small, reserve_same by (auto; lia). cbn [bind].
  destruct (construct_l A triv (v_slots v) _ _) as [(l, k)| | |] eqn:E; cbn [bind]; try discriminate.
  destruct (rotate A l i _ _) as [(l2, q)| | |] eqn:E2; cbn [bind]; try discriminate.
  intros [=]; subst. unfold VownModel.capacity. cbn [v_slots]. rewrite (rotate_len _ _ _ _ _ _ E2). eapply construct_l_len; eauto.
Qed.

Lemma add_again_inv (xs ys : list A) c : add_again xs c = Some ys ->
  exists j x i n, nth_error xs j = Some x /\ i <= length xs /\ ys = insert_at A i (repeat x n) xs /\
    (c = CPush j /\ i = length xs /\ n = 1 \/ c = CInsert i j /\ n = 1 \/ c = CInsertN i n j).
Proof.
  destruct c as [j|i j|i n j]; cbn [add_again]; destruct (nth_error xs j) as [x|] eqn:E; try discriminate.
  - rewrite Nat.leb_refl. intros [= <-]. exists j, x, (length xs), 1. auto 8.
  - destruct (Nat.leb_spec i (length xs)); [|discriminate]. intros [= <-]. exists j, x, i, 1. auto 8.
  - destruct (Nat.leb_spec i (length xs)); [|discriminate]. intros [= <-]. exists j, x, i, n. auto 8.
Qed.
Lemma add_again_len (xs ys : list A) c : add_again xs c = Some ys -> length xs <= length ys.
Proof.
  intros H. destruct (add_again_inv _ _ _ H) as (j & x & i & n & _ & _ & -> & _). rewrite insert_at_length. lia.
Qed.
Lemma add_all_again_len cs : forall (xs ys : list A), add_all_again xs cs = Some ys -> length xs <= length ys.
Proof.
  induction cs as [|c cs IH]; intros xs ys; cbn [add_all_again]; [intros [= <-]; lia|].
  destruct (add_again xs c) as [zs|] eqn:E; [|discriminate]. intros H.
  apply IH in H. apply add_again_len in E. lia.
Qed.

Lemma call_ok v xs c ys : R v xs -> add_again xs c = Some ys -> small (length ys) ->
  if length ys <=? capacity v then exists v', do_call A w triv v c = Ok v' /\ R v' ys /\ capacity v' = capacity v
  else do_call A w triv v c = UB.
Proof.
  intros HR H Hs. destruct (add_again_inv _ _ _ H) as (j & x & i & n & Hj & Hi & -> & Hc). clear H.
  rewrite insert_at_length, repeat_length in *.
  destruct (Nat.leb_spec (length xs + n) (capacity v)) as [L|L].
  - destruct Hc as [(-> & -> & ->)|[(-> & ->)| ->]]; cbn [do_call].
    + rewrite (push_room v xs j x) by auto.
      destruct (push_ok A w triv Hw False v xs x HR Hs) as (v' & E & HR'). exists v'. split; [exact E|].
      split; [|eapply push_cap; eauto]. unfold insert_at. rewrite firstn_all, skipn_all. cbn [repeat app]. exact HR'.
    + rewrite (insert_room v xs i j x) by auto.
      destruct (insert_ok A w triv Hw False v xs i x HR Hi Hs) as (v' & E & HR'). exists v'. rewrite E.
      split; [reflexivity|]. split; [exact HR'|eapply insert_cap; eauto].
    + rewrite (insert_n_room v xs i n j x) by auto.
      destruct (insert_n_ok A w triv Hw False v xs i n x HR Hi Hs) as (v' & E & HR'). exists v'. rewrite E.
      split; [reflexivity|]. split; [exact HR'|eapply insert_n_cap; eauto].
  - destruct Hc as [(-> & -> & ->)|[(-> & ->)| ->]]; cbn [do_call].
    + eapply push_full; eauto.
    + rewrite (insert_full v xs i j) by auto. reflexivity.
    + rewrite (insert_n_full v xs i n j) by auto. reflexivity.
Qed.
Lemma calls_ok cs : forall v xs ys, R v xs -> add_all_again xs cs = Some ys -> small (length ys) ->
  if length ys <=? capacity v then exists v', do_calls A w triv v cs = Ok v' /\ R v' ys /\ capacity v' = capacity v
  else do_calls A w triv v cs = UB.
Proof.
  induction cs as [|c cs IH]; intros v xs ys HR H Hs; cbn [add_all_again do_calls] in *.
  { injection H as <-. pose proof (used_cap v xs HR) as L. apply Nat.leb_le in L. rewrite L. eauto. }
  destruct (add_again xs c) as [zs|] eqn:E; [|discriminate].
  pose proof (add_all_again_len _ _ _ H) as Lz.
  assert (Sz : small (length zs)) by (eapply small_le; eauto).
  pose proof (call_ok v xs c zs HR E Sz) as Hc.
  destruct (Nat.leb_spec (length zs) (capacity v)) as [L|L].
  - destruct Hc as (v1 & -> & HR1 & C1). cbn [bind].
    pose proof (IH v1 zs ys HR1 H Hs) as Hr. rewrite C1 in Hr. exact Hr.
  - rewrite Hc. destruct (Nat.leb_spec (length ys) (capacity v)); [lia|reflexivity].
Qed.

(* ---- moving an own element to the end ---- *)
Lemma upd_comm {B} (l : list B) i j x y : i <> j -> upd i x (upd j y l) = upd j y (upd i x l).
Proof. revert i j. induction l; intros [|i] [|j] H; cbn; auto; try lia. f_equal. apply IHl. lia. Qed.

Lemma move_room v xs j x y : R v xs -> nth_error xs j = Some x -> small (length xs + 1) ->
  (let* v := push_moved A w triv v j in write_at A v j y) =
  if length xs + 1 <=? capacity v then let* v := push_back A w triv v x in write_at A v j y else UB.
Proof.
  intros HR Hj Hs. unfold push_moved, push_back. rewrite (R_used _ _ _ _ _ HR).
  change 1%N with (N.of_nat 1). rewrite wrap_small by auto.
  destruct (Nat.leb_spec (length xs + 1) (capacity v)) as [L|L].
  - rewrite reserve_same by lia. cbn [bind]. rewrite Nat.eqb_refl. unfold take.
    pose proof (nth_error_R _ _ _ _ _ _ _ HR Hj) as N1. rewrite N1. cbn [bind].
    pose proof (nth_lt _ _ _ Hj) as Lj. rewrite (R_used _ _ _ _ _ HR). unfold construct.
    rewrite nth_error_upd_neq by lia. destruct (nth_error (v_slots v) (length xs)) as [s|]; cbn [bind]; [|reflexivity].
    unfold write_at, assign. cbn [v_slots v_used v_self v_leak].
    rewrite (nth_error_upd_neq (v_slots v)) by lia. rewrite N1.
    rewrite (upd_comm _ (length xs) j) by lia.
    rewrite Base.nth_error_upd_eq by (rewrite upd_length; apply nth_error_Some; congruence).
    cbn [bind]. rewrite upd_upd. reflexivity.
  - destruct (reserve_fresh v xs (N.of_nat (length xs) + N.of_nat 1) HR) as (v' & -> & E & _);
      [unfold VecProofs.smallN, VecProofs.small in *; lia|lia|]. cbn [bind]. rewrite E. reflexivity.
Qed.

(* ---- set from an own range ---- *)
Lemma copy_down_ok : forall n (l : list slot) a d xs, (d < a \/ a = d /\ triv = true) ->
  (forall t x, nth_error xs t = Some x -> nth_error l (a + t) = Some (Live x)) -> n = length xs ->
  copy_down A triv l a d n = construct_l A triv l d xs.
Proof.
  induction n as [|n IH]; intros l a d xs Hd Hx Hn; destruct xs as [|x xs]; try discriminate; cbn [copy_down construct_l]; auto.
  assert (F : (a =? d) && negb triv = false).
  { destruct Hd as [Hd|(-> & ->)]; [|apply andb_false_r]. destruct (Nat.eqb_spec a d); [lia|reflexivity]. }
  rewrite F. unfold read. pose proof (Hx 0 x eq_refl) as H0. rewrite Nat.add_0_r in H0. rewrite H0. cbn [bind].
  unfold construct. destruct (nth_error l d) as [s|]; cbn [bind]; [|reflexivity].
  rewrite (IH _ (S a) (S d) xs); auto.
  - destruct Hd as [Hd|(-> & ->)]; [left; lia|right; auto].
  - intros t z Ht. rewrite nth_error_upd_neq by lia. replace (S a + t) with (a + S t) by lia. apply Hx. exact Ht.
Qed.
Lemma nth_slice (xs : list A) a b t x : nth_error (slice a b xs) t = Some x -> nth_error xs (a + t) = Some x.
Proof.
  unfold slice. intros H. assert (t < b - a).
  { pose proof (nth_lt _ _ _ H) as L. rewrite firstn_length in L. lia. }
  assert (E : nth_error (skipn a xs) t = Some x).
  { rewrite <- (firstn_skipn (b - a) (skipn a xs)). rewrite nth_error_app1; [exact H|]. eapply nth_lt; eauto. }
  clear H H0. revert xs E. induction a as [|a IH]; intros xs E; cbn in *; auto. destruct xs; [destruct t; discriminate|]. apply IH. exact E.
Qed.
Lemma slice_len (xs : list A) a b : a <= b <= length xs -> length (slice a b xs) = b - a.
Proof. intros H. unfold slice. rewrite firstn_length, skipn_length. lia. Qed.
Lemma set_own_ok v xs a b : R v xs -> a <= b <= length xs -> (0 < a \/ triv = true) ->
  set_own A w triv v a b = set_range A w triv v (slice a b xs).
Proof.
  intros HR Hab Ha. unfold set_own, set_range. rewrite slice_len by auto.
  assert (L : (a <=? b) = true) by (apply Nat.leb_le; lia). rewrite L. cbn [andb].
  pose proof (used_cap v xs HR).
  rewrite reserve_same by lia. destruct (verify _); cbn [bind]; auto.
  rewrite Nat.eqb_refl. rewrite (copy_down_ok (b - a) _ a 0 (slice a b xs)); auto.
  - destruct Ha as [Ha|Ha]; [auto|]. destruct a; [right; auto|left; lia].
  - intros t x Ht. eapply nth_error_R; eauto. eapply nth_slice; eauto.
  - symmetry. apply slice_len. auto.
Qed.
Lemma set_own_self v xs b : R v xs -> triv = false -> 0 < b <= length xs -> set_own A w triv v 0 b = UB.
Proof.
  intros HR Ht Hb. pose proof (used_cap v xs HR). unfold set_own. rewrite Nat.sub_0_r, reserve_same by lia. cbn [Nat.leb andb].
  assert (V : (N.of_nat b <=? 2 ^ w - 1)%N = true).
  { apply N.leb_le. destruct HR as (r & _ & _ & Sm & _). pose proof (pow_w w Hw). unfold VecProofs.small, VownModel.capacity in *. lia. }
  rewrite V. cbn [verify bind]. rewrite Nat.eqb_refl, Ht. destruct b; [lia|]. reflexivity.
Qed.
End VP.

Lemma reached_R A w triv dflt eqA ltA v xs : npo2_width w -> reached A w triv dflt eqA ltA v xs -> R A w False v xs.
Proof.
  intros Hw (n & ops & st & outs & vs & r & H & Hr & Hv & Hx).
  destruct (run_ok A w triv Hw dflt eqA ltA _ _ _ _ _ (Sim_init A w dflt eqA ltA False n) H) as (vs' & E & HS).
  rewrite Hr in E. injection E as <-. destruct (Sim_nth A w False _ _ _ _ HS Hx) as (v' & Ev & HR). congruence.
Qed.
