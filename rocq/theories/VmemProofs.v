(* Vectors in memory behave as those of VecModel, and each block has one owner. *)
From Verif Require Import Base ArithModel ArithProofs VecModel VecSpec VecProofs VmemModel VmemSpec.

Section Vmem.
Variable A : Type.
Variable w : N.
Variable triv : bool.
Variable dflt : A.
Variables (eqA ltA : A -> A -> bool).
Notation slot := (slot A).
Notation vec := (vec A).
Notation world := (world A).
Notation load := (load A).
Notation store := (store A).
Notation in_place := (in_place A).
Notation mreserve := (mreserve A w triv).
Notation mdeallocate := (mdeallocate A triv).

(* ---- lengths ---- *)
Ltac step H := match type of H with bind ?x _ = Ok _ => let E := fresh "E" in destruct x eqn:E; cbn [bind] in H; try discriminate H end.
Lemma construct_length l i x r : construct A triv l i x = Ok r -> length (fst r) = length l.
Proof. unfold construct. destruct (nth_error l i); [|discriminate]. intros [= <-]. cbn. apply upd_length. Qed.
Lemma destroy_length l i r : destroy A l i = Ok r -> length r = length l.
Proof. unfold destroy. destruct (nth_error l i) as [[]|]; try discriminate; intros [= <-]; apply upd_length. Qed.
Lemma assign_length l i x r : assign A l i x = Ok r -> length r = length l.
Proof. unfold assign. destruct (nth_error l i) as [[]|]; try discriminate; intros [= <-]; apply upd_length. Qed.
Lemma take_length l i x r : take A l i = Ok (x, r) -> length r = length l.
Proof. unfold take. destruct (nth_error l i) as [[]|]; try discriminate; intros [= _ <-]; apply upd_length. Qed.
Lemma destroy_n_length n : forall l i r, destroy_n A l i n = Ok r -> length r = length l.
Proof. induction n; intros l i r H; cbn in H; [congruence|]. step H. apply IHn in H. apply destroy_length in E. congruence. Qed.
Lemma construct_l_length xs : forall l i r, construct_l A triv l i xs = Ok r -> length (fst r) = length l.
Proof.
  induction xs as [|x xs IH]; intros l i r H; cbn in H; [injection H as <-; reflexivity|]. step H. destruct a as [l1 k]. step H. destruct a as [l2 k2].
  injection H as <-. apply construct_length in E. apply IH in E0. cbn in *. congruence.
Qed.
Lemma assign_l_length xs : forall l i r, assign_l A l i xs = Ok r -> length r = length l.
Proof. induction xs as [|x xs IH]; intros l i r H; cbn in H; [congruence|]. step H. apply IH in H. apply assign_length in E. congruence. Qed.
Lemma rotate_length l a m e r : rotate A l a m e = Ok r -> length (fst r) = length l.
Proof. unfold rotate. intros H. step H. step H. step H. injection H as <-. cbn. eapply assign_l_length; eassumption. Qed.
Lemma shift_length used n srcs : forall l r, shift_right A triv l used n srcs = Ok r -> length (fst r) = length l.
Proof.
  induction srcs as [|s srcs IH]; intros l r H; cbn in H; [injection H as <-; reflexivity|]. step H. destruct a as [x l1]. step H. destruct a as [l2 k2]. step H. destruct a as [l3 k3].
  injection H as <-. apply take_length in E. apply IH in E1. cbn in *. rewrite E1, <- E.
  destruct (used <=? s + n); [apply construct_length in E0; exact E0|]. destruct ((n =? 0) && negb triv)%bool; [now injection E0 as <- _|].
  step E0. injection E0 as <- _. eapply assign_length; eassumption.
Qed.
Lemma fill_length used xs : forall l p r, fill_gap A triv l used p xs = Ok r -> length (fst r) = length l.
Proof.
  induction xs as [|x xs IH]; intros l p r H; cbn in H; [injection H as <-; reflexivity|]. step H. destruct a as [l1 k]. step H. destruct a as [l2 k2].
  injection H as <-. apply IH in E0. cbn in *. rewrite E0. destruct (used <=? p); [apply construct_length in E; exact E|].
  step E. injection E as <- _. eapply assign_length; eassumption.
Qed.
Lemma swap_down_length n : forall l p r, swap_down A l p n = Ok r -> length r = length l.
Proof.
  induction n; intros l p r H; cbn [swap_down] in H; [congruence|]. step H. apply IHn in H. rewrite H. unfold swap in E. step E. step E. step E.
  apply assign_length in E, E2. congruence.
Qed.
Lemma move_down_length n : forall l s d r, move_down A l s d n = Ok r -> length r = length l.
Proof. induction n; intros l s d r H; cbn in H; [congruence|]. step H. destruct a as [x l1]. step H. apply IHn in H. apply take_length in E. apply assign_length in E0. congruence. Qed.
Lemma move_n_length n : forall old mem i r, move_n A triv old mem i n = Ok r -> length (fst r) = length old /\ length (snd r) = length mem.
Proof.
  induction n; intros old mem i r H; cbn in H; [injection H as <-; auto|]. step H. destruct a as [x old1]. step H. destruct a as [mem1 k].
  apply IHn in H. apply take_length in E. apply construct_length in E0. cbn in *. intuition congruence.
Qed.

(* ---- the relation ---- *)
Definition ok (m : world) (v : mvec) (u : vec) : Prop :=
  seen A m v = Ok u /\ m_cap v = length (v_slots u) /\
  match m_el v with Nil => m_cap v = 0 /\ m_self v = false | Own _ => 0 < m_cap v /\ m_self v = true | Buf _ => m_self v = false end.
Definition Rel (m : world) (vs : list vec) : Prop :=
  length (vecs m) = length vs /\ (forall r v u, nth_error (vecs m) r = Some v -> nth_error vs r = Some u -> ok m v u) /\ owned A m.

Lemma upd_same {B} (c : list B) : forall k e, nth_error c k = Some e -> upd k e c = c.
Proof. induction c as [|x c IH]; intros [|k] e H; cbn in *; try discriminate; [congruence|]. now rewrite IH. Qed.
Lemma Rel_get m vs r u : Rel m vs -> nth_error vs r = Some u -> exists v, nth_error (vecs m) r = Some v /\ ok m v u.
Proof.
  intros (L & H & _) E. destruct (nth_error (vecs m) r) as [v|] eqn:N; [eauto|]. apply nth_error_None in N.
  assert (r < length vs) by (apply nth_error_Some; congruence). lia.
Qed.
Lemma ok_same m m' v u : load m' (m_el v) = load m (m_el v) -> ok m v u -> ok m' v u.
Proof. intros E (H1 & H2). split; [|exact H2]. unfold seen in *. now rewrite E. Qed.
Lemma holds_upd m m' r v' r' a : r < length (vecs m) -> vecs m' = upd r v' (vecs m) ->
  (holds A m' r' a <-> (r' = r /\ m_el v' = a) \/ (r' <> r /\ holds A m r' a)).
Proof.
  intros L E. unfold holds. rewrite E. destruct (Nat.eq_dec r' r) as [->|N].
  - rewrite nth_error_upd_eq by exact L. split; [intros (v & [= <-] & <-); auto|]. intros [[_ <-]|[N _]]; [eauto|easy].
  - rewrite nth_error_upd_neq by congruence. split; [intros H; right; auto|]. intros [[N' _]|[_ H]]; [easy|exact H].
Qed.
Lemma Rel_change m vs r v u m' v' u' : Rel m vs -> nth_error (vecs m) r = Some v -> nth_error vs r = Some u ->
  vecs m' = upd r v' (vecs m) -> ok m' v' u' ->
  (forall a, a <> Nil -> (exists r', r' <> r /\ holds A m r' a) -> load m' a = load m a) ->
  (forall b, in_use A m' b <-> m_el v' = Own b \/ (in_use A m b /\ m_el v <> Own b)) ->
  (m_el v' = Nil \/ m_el v' = m_el v \/ forall r', ~ holds A m r' (m_el v')) ->
  Rel m' (upd r u' vs).
Proof.
  intros (L & H & O1 & O2) Nv Nu Ev K Hl Hu Hf.
  assert (Lr : r < length (vecs m)) by (apply nth_error_Some; congruence).
  split; [rewrite Ev, !upd_length; exact L|]. split; [|split].
  - intros r' v1 u1 N1 N2. rewrite Ev in N1. destruct (Nat.eq_dec r r') as [<-|N].
    + rewrite nth_error_upd_eq in N1 by lia. rewrite nth_error_upd_eq in N2 by lia. injection N1 as <-. injection N2 as <-. exact K.
    + rewrite nth_error_upd_neq in N1 by congruence. rewrite nth_error_upd_neq in N2 by congruence. specialize (H r' v1 u1 N1 N2). eapply ok_same; [|exact H].
      destruct (m_el v1) eqn:El; [reflexivity| |]; (apply Hl; [discriminate|]); exists r'; (split; [congruence|]); exists v1; auto.
  - intros b. rewrite Hu. split.
    + intros [E|[Hb Hn]].
      * exists r. apply (holds_upd m m' r v' r (Own b) Lr Ev). auto.
      * apply O1 in Hb as (r' & Hr). exists r'. apply (holds_upd m m' r v' r' (Own b) Lr Ev). right. split; [|exact Hr].
        intros ->. destruct Hr as (v1 & N1 & E1). congruence.
    + intros (r' & Hr). apply (holds_upd m m' r v' r' (Own b) Lr Ev) in Hr as [[_ E]|[N Hr]]; [auto|]. right. split; [apply O1; eauto|].
      intros E. apply N. eapply O2; [|exact Hr|exists v; split; [exact Nv|exact E]]. discriminate.
  - assert (F : forall a r', a <> Nil -> m_el v' = a -> r' <> r -> holds A m r' a -> False).
    { intros a r' Na E N Hr. destruct Hf as [E'|[E'|Hf]]; [congruence| |].
      - apply N. eapply O2; [exact Na|exact Hr|]. exists v. split; [exact Nv|congruence].
      - apply (Hf r'). rewrite E. exact Hr. }
    intros a r1 r2 Na H1 H2. apply (holds_upd m m' r v' _ a Lr Ev) in H1. apply (holds_upd m m' r v' _ a Lr Ev) in H2.
    destruct H1 as [[-> E1]|[N1 H1]], H2 as [[-> E2]|[N2 H2]]; [reflexivity| | |eapply O2; eassumption].
    + destruct (F a r2 Na E1 N2 H2).
    + destruct (F a r1 Na E2 N1 H1).
Qed.

Lemma load_store m a l l' : load m a = Ok l -> length l' = length l -> load (store m a l') a = Ok l'.
Proof.
  destruct a; cbn; intros H L.
  - injection H as <-. destruct l'; [reflexivity|discriminate].
  - destruct (nth_error (heap m) b) as [[x|]|] eqn:E; try discriminate. rewrite nth_error_upd_eq; [reflexivity|]. apply nth_error_Some. congruence.
  - destruct (nth_error (bufs m) e) as [x|] eqn:E; try discriminate. rewrite nth_error_upd_eq; [reflexivity|]. apply nth_error_Some. congruence.
Qed.
Lemma load_store_other m a b l : a <> b -> load (store m a l) b = load m b.
Proof.
  intros N. destruct a as [|x|x]; [reflexivity| |]; destruct b as [|y|y]; try reflexivity; cbn; rewrite nth_error_upd_neq; congruence.
Qed.
Lemma in_use_store m a l l0 b : load m a = Ok l0 -> (in_use A (store m a l) b <-> in_use A m b).
Proof.
  intros H. unfold in_use. destruct a as [|x|x]; [reflexivity| |reflexivity]. cbn in *. destruct (Nat.eq_dec x b) as [->|N].
  - destruct (nth_error (heap m) b) as [[y|]|] eqn:E; try discriminate. rewrite nth_error_upd_eq by (apply nth_error_Some; congruence). split; eauto.
  - rewrite nth_error_upd_neq by congruence. reflexivity.
Qed.
Lemma other_el m vs r v a : Rel m vs -> nth_error (vecs m) r = Some v -> a <> Nil -> (exists r', r' <> r /\ holds A m r' a) -> m_el v <> a.
Proof. intros (_ & _ & _ & O2) N Na (r' & Nr & Hr) E. apply Nr. eapply O2; [exact Na|exact Hr|]. exists v. auto. Qed.
Lemma own_in_use m vs r v u b : Rel m vs -> nth_error (vecs m) r = Some v -> ok m v u -> m_el v = Own b -> in_use A m b.
Proof. intros (_ & _ & O1 & _) N _ E. apply O1. exists r, v. auto. Qed.

Lemma in_place_ok m vs r u k u' x : Rel m vs -> nth_error vs r = Some u -> k u = Ok (u', x) ->
  length (v_slots u') = length (v_slots u) -> v_self u' = v_self u ->
  exists m', in_place m r k = Ok (m', x) /\ Rel m' (upd r u' vs).
Proof.
  intros HR Nu Hk L S. destruct (Rel_get m vs r u HR Nu) as (v & Nv & K). pose proof K as (K1 & K2 & K3).
  unfold VmemModel.in_place, get. rewrite Nv. cbn [bind]. rewrite K1. cbn [bind]. rewrite Hk. cbn [bind]. rewrite L, <- K2, Nat.eqb_refl.
  eexists. split; [reflexivity|]. unfold seen in K1. destruct (load m (m_el v)) as [l| | |] eqn:El; try discriminate. cbn [bind] in K1. injection K1 as <-. cbn [v_slots v_self] in *.
  eapply Rel_change with (v := v) (v' := MV (m_el v) (v_used u') (m_cap v) (m_self v) (v_leak u')); [exact HR|exact Nv|exact Nu|destruct (m_el v); reflexivity| | | |].
  - split; [|cbn [m_cap m_el m_self]; split; [congruence|exact K3]]. unfold seen. cbn [m_el m_used m_self m_leak]. change (load (put A (store m (m_el v) (v_slots u')) r _) (m_el v)) with
      (load (store m (m_el v) (v_slots u')) (m_el v)). rewrite (load_store m _ l _ El L). cbn [bind]. rewrite <- S. destruct u'; reflexivity.
  - intros a Na Ho. change (load (put A (store m (m_el v) (v_slots u')) r _) a) with (load (store m (m_el v) (v_slots u')) a).
    apply load_store_other. eapply other_el; eassumption.
  - intros b. cbn [m_el]. change (in_use A (put A (store m (m_el v) (v_slots u')) r _) b) with (in_use A (store m (m_el v) (v_slots u')) b).
    rewrite (in_use_store m _ _ l b El). split.
    + intros H. destruct (m_el v) as [|c|c]; try (right; split; [exact H|discriminate]). destruct (Nat.eq_dec c b) as [->|Nb]; [auto|]. right. split; [exact H|congruence].
    + intros [E|[H _]]; [|exact H]. eapply own_in_use; eassumption.
  - auto.
Qed.

Lemma mreserve_ok m vs r u n u1 : Rel m vs -> nth_error vs r = Some u -> reserve A w triv u n = Ok u1 ->
  (n <= N.of_nat (length (v_slots u1)))%N -> exists m', mreserve m r n = Ok m' /\ Rel m' (upd r u1 vs).
Proof.
  intros HR Nu E Ln. destruct (Rel_get m vs r u HR Nu) as (v & Nv & K). pose proof K as (K1 & K2 & K3).
  unfold VmemModel.mreserve, get. rewrite Nv. cbn [bind]. unfold reserve in E. rewrite <- K2 in E. cbv zeta in *.
  destruct (N.max (N.of_nat (m_cap v)) n <=? N.of_nat (m_cap v))%N eqn:D.
  { injection E as <-. exists m. split; [reflexivity|]. replace (upd r u vs) with vs; [exact HR|]. symmetry. now apply upd_same. }
  apply N.leb_gt in D. unfold seen in K1. destruct (load m (m_el v)) as [l| | |] eqn:El; try discriminate. cbn [bind] in *. injection K1 as <-.
  cbn [v_slots v_used v_self v_leak] in *. set (next := N.to_nat (next_power_of_two w (N.max (N.of_nat (m_cap v)) n))) in *.
  destruct (move_n A triv l (repeat Raw next) 0 (m_used v)) as [[old new]| | |] eqn:Em; try discriminate. cbn [bind] in *.
  destruct (destroy_n A old 0 (m_used v)) as [old1| | |] eqn:Ed; try discriminate. cbn [bind] in *. injection E as <-. cbn [v_slots] in Ln.
  apply move_n_length in Em as [Lo Lm]. cbn [fst snd] in *. rewrite repeat_length in Lm. apply destroy_n_length in Ed.
  cbn [malloc]. set (m1 := store m (m_el v) old1).
  assert (Hh : length (heap m1) = length (heap m)) by (unfold m1; destruct (m_el v); cbn; rewrite ?upd_length; reflexivity).
  assert (Hv : vecs m1 = vecs m) by (unfold m1; destruct (m_el v); reflexivity).
  set (m2 := World (heap m1 ++ [Some new]) (bufs m1) (vecs m1)).
  assert (F : exists m3, (if m_self v then free_ A m2 (m_el v) else Ok m2) = Ok m3 /\ vecs m3 = vecs m /\
    load m3 (Own (length (heap m))) = Ok new /\
    (forall a, a <> Nil -> a <> m_el v -> a <> Own (length (heap m)) -> load m3 a = load m a) /\
    (forall b, in_use A m3 b <-> b = length (heap m) \/ (in_use A m b /\ m_el v <> Own b))).
  { assert (L2 : forall a, a <> Own (length (heap m)) -> load m2 a = load m1 a).
    { intros a Na. destruct a as [|b|b]; try reflexivity. cbn. destruct (Nat.lt_ge_cases b (length (heap m1))) as [H|H].
      - now rewrite nth_error_app1 by exact H.
      - assert (b <> length (heap m)) by congruence. rewrite (proj2 (nth_error_None (heap m1 ++ _) b)) by (rewrite app_length; cbn; lia).
        now rewrite (proj2 (nth_error_None (heap m1) b)) by lia. }
    assert (L3 : load m2 (Own (length (heap m))) = Ok new) by (cbn; rewrite <- Hh, nth_error_app2, Nat.sub_diag by lia; reflexivity).
    assert (U2 : forall b, in_use A m2 b <-> b = length (heap m) \/ in_use A m b).
    { intros b. rewrite <- (in_use_store m (m_el v) old1 l b El). fold m1. unfold in_use. cbn [heap m2]. rewrite <- Hh. destruct (Nat.lt_trichotomy b (length (heap m1))) as [H|[->|H]].
      - rewrite nth_error_app1 by exact H. split; [auto|]. intros [->|Hx]; [lia|exact Hx].
      - rewrite nth_error_app2, Nat.sub_diag by lia. cbn. split; [auto|]. eauto.
      - rewrite (proj2 (nth_error_None (heap m1 ++ _) b)) by (rewrite app_length; cbn; lia).
        split; [intros (? & [=])|]. intros [->|(x & Hx)]; [lia|]. rewrite (proj2 (nth_error_None (heap m1) b)) in Hx by lia. discriminate. }
    assert (Live : forall b, m_el v = Own b -> b < length (heap m)).
    { intros b Eb. rewrite Eb in El. cbn in El. apply nth_error_Some. destruct (nth_error (heap m) b); congruence. }
    destruct (m_el v) as [|b|e] eqn:Ev.
    - destruct K3 as [_ ->]. exists m2. split; [reflexivity|]. split; [exact Hv|]. split; [exact L3|]. split.
      + intros a _ _ Na. rewrite (L2 a Na). reflexivity.
      + intros b. rewrite U2. split; [intros [H|H]; [auto|]; right; split; [exact H|discriminate]|]. intros [H|[H _]]; auto.
    - destruct K3 as [_ ->]. pose proof (Live b eq_refl) as Lb. cbn [free_].
      assert (Nb : nth_error (heap m2) b = Some (Some old1)).
      { unfold m2. cbn [heap]. rewrite nth_error_app1 by lia. unfold m1. cbn. now rewrite nth_error_upd_eq by lia. }
      rewrite Nb. eexists. split; [reflexivity|]. split; [exact Hv|]. split; [|split].
      + cbn [VmemModel.load heap]. rewrite nth_error_upd_neq by lia. exact L3.
      + intros a Nn Na Nh. transitivity (load m2 a).
        * destruct a as [|c|c]; try reflexivity. cbn [VmemModel.load heap]. now rewrite nth_error_upd_neq by congruence.
        * rewrite (L2 a Nh). apply load_store_other. congruence.
      + intros c. unfold in_use. cbn [heap]. destruct (Nat.eq_dec c b) as [->|Nc].
        * rewrite nth_error_upd_eq by (unfold m2; cbn [heap]; rewrite app_length; lia). split; [intros (? & [=])|]. intros [->|[_ H]]; [lia|congruence].
        * rewrite nth_error_upd_neq by congruence. rewrite (U2 c). split; [intros [H|H]; [auto|]; right; split; [exact H|congruence]|]. intros [H|[H _]]; auto.
    - rewrite K3. exists m2. split; [reflexivity|]. split; [exact Hv|]. split; [exact L3|]. split.
      + intros a _ Na Nh. rewrite (L2 a Nh). apply load_store_other. congruence.
      + intros b. rewrite U2. split; [intros [H|H]; [auto|]; right; split; [exact H|discriminate]|]. intros [H|[H _]]; auto. }
  destruct F as (m3 & -> & V3 & L3 & O3 & U3). cbn [bind]. rewrite Hh. eexists. split; [reflexivity|].
  assert (Fresh : forall r', ~ holds A m r' (Own (length (heap m)))).
  { intros r' (v1 & N1 & E1). assert (U : in_use A m (length (heap m))) by (destruct HR as (_ & _ & O1 & _); apply O1; exists r', v1; auto).
    destruct U as (x & Hx). rewrite (proj2 (nth_error_None (heap m) (length (heap m)))) in Hx by lia. discriminate. }
  eapply Rel_change with (v := v); [exact HR|exact Nv|exact Nu| | | | |].
  - unfold put. cbn [vecs]. rewrite V3. reflexivity.
  - split; [|cbn [m_cap m_el m_self v_slots]; split; [congruence|split; [lia|reflexivity]]]. unfold seen. cbn [m_el m_used m_self m_leak].
    change (load (put A m3 r _) (Own (length (heap m)))) with (load m3 (Own (length (heap m)))). rewrite L3. reflexivity.
  - intros a Na Ho. change (load (put A m3 r _) a) with (load m3 a). apply O3; [exact Na| |].
    + intros ->. eapply other_el; [exact HR|exact Nv|exact Na|exact Ho|reflexivity].
    + intros ->. destruct Ho as (r' & _ & Hr). exact (Fresh r' Hr).
  - intros b. cbn [m_el]. change (in_use A (put A m3 r _) b) with (in_use A m3 b). rewrite U3. split; intros [H|H]; auto; left; congruence.
  - right. right. exact Fresh.
Qed.

Lemma mdeallocate_ok m vs r u u1 : Rel m vs -> nth_error vs r = Some u -> deallocate A triv u = Ok u1 ->
  exists m' v', mdeallocate m r = Ok m' /\ Rel m' (upd r u1 vs) /\ nth_error (vecs m') r = Some v' /\ (forall b, m_el v' <> Own b) /\ m_leak v' = v_leak u1.
Proof.
  intros HR Nu E. destruct (Rel_get m vs r u HR Nu) as (v & Nv & K). pose proof K as (K1 & K2 & K3).
  unfold VmemModel.mdeallocate, get. rewrite Nv. cbn [bind]. unfold seen in K1. destruct (load m (m_el v)) as [l| | |] eqn:El; try discriminate. cbn [bind] in *. injection K1 as <-.
  unfold deallocate in E. cbn [v_slots v_used v_self v_leak] in *.
  assert (Lr : r < length (vecs m)) by (apply nth_error_Some; congruence).
  assert (Stay : forall b, m_self v = false -> m_el v <> Own b) by (intros b Hf Eb; rewrite Eb in K3; destruct K3; congruence).
  destruct (m_self v) eqn:Es.
  - destruct (m_el v) as [|b|e] eqn:Ev; [destruct K3; congruence| |congruence]. cbn [negb orb is_nil] in *.
    replace (length l =? 0) with false in E by (symmetry; apply Nat.eqb_neq; lia).
    destruct (destroy_n A l 0 (m_used v)) as [l1| | |] eqn:Ed; try discriminate. cbn [bind] in *. injection E as <-. apply destroy_n_length in Ed.
    assert (Lb : b < length (heap m)) by (cbn in El; apply nth_error_Some; destruct (nth_error (heap m) b); congruence).
    cbn [free_ VmemModel.store heap]. rewrite nth_error_upd_eq by exact Lb. cbn [bind]. eexists. eexists. split; [reflexivity|]. split; [|split; [|split]].
    + eapply Rel_change with (v := v); [exact HR|exact Nv|exact Nu|reflexivity| | | |left; reflexivity].
      * split; [reflexivity|]. cbn. auto.
      * intros a Na Ho. assert (Nb : a <> Own b) by (intros ->; eapply other_el; [exact HR|exact Nv|exact Na|exact Ho|exact Ev]).
        destruct a as [|c|c]; try reflexivity. cbn. rewrite !nth_error_upd_neq by congruence. reflexivity.
      * intros c. rewrite Ev. cbn [m_el]. unfold in_use, put. cbn [heap]. destruct (Nat.eq_dec c b) as [->|Nc].
        -- rewrite nth_error_upd_eq by (rewrite upd_length; exact Lb). split; [intros (? & [=])|]. intros [[=]|[_ H]]. congruence.
        -- rewrite !nth_error_upd_neq by congruence. split; [intros H; right; split; [exact H|congruence]|]. intros [[=]|[H _]]. exact H.
    + cbn. now rewrite nth_error_upd_eq by exact Lr.
    + discriminate.
    + reflexivity.
  - cbn [negb orb] in *. injection E as <-. exists m, v. split; [reflexivity|]. split; [|auto].
    replace (upd r _ vs) with vs; [exact HR|]. symmetry. now apply upd_same.
Qed.
(* ---- one step ---- *)
Hypothesis Hw : npo2_width w.
Notation R := (R A w False).
Notation small := (small w).
Notation smallN := (smallN w).
Notation Sim := (Sim A w False).
Notation growing := (growing A w triv).
Definition kept (u u' : vec) : Prop := length (v_slots u') = length (v_slots u) /\ v_self u' = v_self u.

Lemma reserve_no (v : vec) n : (n <= N.of_nat (length (v_slots v)))%N -> reserve A w triv v n = Ok v.
Proof. intros H. unfold reserve. destruct (N.leb_spec (N.max (N.of_nat (length (v_slots v))) n) (N.of_nat (length (v_slots v)))); [reflexivity|lia]. Qed.
Ltac steps H := repeat (step H; repeat match type of H with context [let '_ := ?p in _] => destruct p end).
Ltac lengths := repeat match goal with
  | E : construct A triv _ _ _ = Ok _ |- _ => apply construct_length in E; cbn [fst] in E
  | E : construct_l A triv _ _ _ = Ok _ |- _ => apply construct_l_length in E; cbn [fst] in E
  | E : rotate A _ _ _ _ = Ok _ |- _ => apply rotate_length in E; cbn [fst] in E
  | E : shift_right A triv _ _ _ _ = Ok _ |- _ => apply shift_length in E; cbn [fst] in E
  | E : fill_gap A triv _ _ _ _ = Ok _ |- _ => apply fill_length in E; cbn [fst] in E
  | E : destroy A _ _ = Ok _ |- _ => apply destroy_length in E
  | E : destroy_n A _ _ _ = Ok _ |- _ => apply destroy_n_length in E
  | E : swap_down A _ _ _ = Ok _ |- _ => apply swap_down_length in E
  | E : move_down A _ _ _ _ = Ok _ |- _ => apply move_down_length in E
  | E : assign A _ _ _ = Ok _ |- _ => apply assign_length in E
  end.
Ltac keeps H := steps H; injection H as <-; lengths; split; cbn [fst v_slots v_self]; congruence.
Lemma push_kept v x v' : (wrapw w (N.of_nat (v_used v) + 1) <= N.of_nat (length (v_slots v)))%N -> push_back A w triv v x = Ok v' -> kept v v'.
Proof. intros L H. unfold push_back in H. rewrite (reserve_no v _ L) in H. cbn [bind] in H. keeps H. Qed.
Lemma insert_kept v i x r : (wrapw w (N.of_nat (v_used v) + 1) <= N.of_nat (length (v_slots v)))%N -> insert A w triv v i x = Ok r -> kept v (fst r).
Proof. intros L H. unfold insert in H. rewrite (reserve_no v _ L) in H. cbn [bind] in H. keeps H. Qed.
Lemma insert_n_kept v i n x r : (wrapw w (N.of_nat (v_used v) + N.of_nat n) <= N.of_nat (length (v_slots v)))%N -> insert_n A w triv v i n x = Ok r -> kept v (fst r).
Proof. intros L H. unfold insert_n in H. rewrite (reserve_no v _ L) in H. cbn [bind] in H. keeps H. Qed.
Lemma set_kept v xs v' : (N.of_nat (length xs) <= N.of_nat (length (v_slots v)))%N -> set_range A w triv v xs = Ok v' -> kept v v'.
Proof. intros L H. unfold set_range in H. step H. rewrite (reserve_no v _ L) in H. cbn [bind] in H. keeps H. Qed.
Lemma insert_range_kept v i xs r :
  ((if (v_used v =? 0)%nat then N.of_nat (length xs) else wrapw w (N.of_nat (v_used v) + N.of_nat (length xs))) <= N.of_nat (length (v_slots v)))%N ->
  insert_range A w triv v i xs = Ok r -> kept v (fst r).
Proof.
  intros L H. unfold insert_range in H. destruct (v_used v =? 0).
  - step H. injection H as <-. eapply set_kept; eassumption.
  - rewrite (reserve_no v _ L) in H. cbn [bind] in H. keeps H.
Qed.
Lemma resize_kept v n x v' : (N.of_nat n <= N.of_nat (length (v_slots v)))%N -> resize A w triv v n x = Ok v' -> kept v v'.
Proof. intros L H. unfold resize in H. rewrite (reserve_no v _ L) in H. cbn [bind] in H. keeps H. Qed.
Lemma set_vec_kept v o ys v' : R o ys -> (N.of_nat (length ys) <= N.of_nat (length (v_slots v)))%N -> set_vec A w triv v o = Ok v' -> kept v v'.
Proof.
  intros Ho L H. unfold set_vec in H. assert (C := contents_R A w False o ys Ho). unfold contents in C. rewrite C in H. cbn [bind] in H.
  destruct (triv && (v_used o =? 0))%bool; [injection H as <-; split; reflexivity|]. eapply set_kept; eassumption.
Qed.
Lemma pop_kept v v' : pop_back A v = Ok v' -> kept v v'.
Proof. intros H. unfold pop_back in H. destruct (v_used v =? 0); [discriminate|]. keeps H. Qed.
Lemma clear_kept v v' : clear A v = Ok v' -> kept v v'.
Proof. intros H. unfold clear in H. keeps H. Qed.
Lemma erase_kept v i r : erase A v i = Ok r -> kept v (fst r).
Proof. intros H. unfold erase in H. destruct (v_used v =? 0); [discriminate|]. keeps H. Qed.
Lemma erase_range_kept v i j r : erase_range A v i j = Ok r -> kept v (fst r).
Proof. intros H. unfold erase_range in H. destruct (i =? j); [injection H as <-; split; reflexivity|]. keeps H. Qed.
Lemma growing_ok m vs r u xs n k ys x : Rel m vs -> nth_error vs r = Some u -> R u xs -> smallN n ->
  (forall u1, R u1 xs -> (n <= N.of_nat (length (v_slots u1)))%N -> exists u', k u1 = Ok (u', x) /\ kept u1 u' /\ R u' ys) ->
  exists m' u', growing m r n k = Ok (m', x) /\ Rel m' (upd r u' vs) /\ R u' ys.
Proof.
  intros HR Nu HRu Hn Hk. destruct (reserve_ok A w triv Hw False u xs n HRu Hn) as (u1 & rest & E & S1 & U & Sm & C & L).
  destruct (mreserve_ok m vs r u n u1 HR Nu E L) as (m1 & E1 & HR1).
  assert (Lr : r < length vs) by (apply nth_error_Some; congruence).
  assert (N1 : nth_error (upd r u1 vs) r = Some u1) by (apply nth_error_upd_eq; exact Lr).
  assert (HRu1 : R u1 xs) by (exists rest; repeat split; auto; tauto).
  destruct (Hk u1 HRu1 L) as (u' & Ek & [K1 K2] & HRu').
  destruct (in_place_ok m1 _ r u1 k u' x HR1 N1 Ek K1 K2) as (m2 & E2 & HR2). rewrite upd_upd in HR2.
  exists m2, u'. unfold VmemModel.growing. rewrite E1. cbn [bind]. auto.
Qed.
Lemma quiet_ok (k : vec -> res vec) u u' : k u = Ok u' -> quiet A k u = Ok (u', ONone).
Proof. intros E. unfold quiet. now rewrite E. Qed.
Lemma pos_ok (k : vec -> res (vec * nat)) u u' p : k u = Ok (u', p) -> pos A k u = Ok (u', ONum p).
Proof. intros E. unfold pos. now rewrite E. Qed.
Lemma more_ok m vs r u xs n : Rel m vs -> nth_error vs r = Some u -> R u xs -> small (length xs + n) ->
  more A w m r n = Ok (N.of_nat (length xs) + N.of_nat n)%N /\ wrapw w (N.of_nat (length xs) + N.of_nat n) = (N.of_nat (length xs) + N.of_nat n)%N /\
  smallN (N.of_nat (length xs) + N.of_nat n).
Proof.
  intros HR Nu HRu Hs. destruct (Rel_get m vs r u HR Nu) as (v & Nv & K1 & _).
  assert (Hn : smallN (N.of_nat (length xs) + N.of_nat n)) by (unfold VecProofs.small, VecProofs.smallN in *; lia).
  pose proof (wrapw_id w Hw _ Hn) as Ew. split; [|auto]. unfold more, get. rewrite Nv. cbn [bind].
  unfold seen in K1. destruct (load m (m_el v)); try discriminate. injection K1 as <-. apply R_used in HRu. cbn [v_used] in HRu. now rewrite HRu, Ew.
Qed.
Lemma stay_ok m vs r u xs k ys x : Rel m vs -> nth_error vs r = Some u -> R u xs ->
  (exists u', k u = Ok (u', x) /\ kept u u' /\ R u' ys) -> exists m' u', in_place m r k = Ok (m', x) /\ Rel m' (upd r u' vs) /\ R u' ys.
Proof.
  intros HR Nu HRu (u' & Ek & [K1 K2] & HRu'). destruct (in_place_ok m vs r u k u' x HR Nu Ek K1 K2) as (m2 & E2 & HR2). eauto.
Qed.
Lemma look_ok {B} m vs r u (k : vec -> res B) f b : Rel m vs -> nth_error vs r = Some u -> k u = Ok b -> look A m r k f = Ok (m, f b).
Proof. intros HR Nu E. destruct (Rel_get m vs r u HR Nu) as (v & Nv & K1 & _). unfold look, get. rewrite Nv. cbn [bind]. rewrite K1. cbn [bind]. now rewrite E. Qed.
Lemma look2_ok m vs r r' u u' k b : Rel m vs -> nth_error vs r = Some u -> nth_error vs r' = Some u' -> k u u' = Ok b -> look2 A m r r' k = Ok (m, OBool b).
Proof.
  intros HR Nu Nu' E. destruct (Rel_get m vs r' u' HR Nu') as (v & Nv & K1 & _). unfold look2, get. rewrite Nv. cbn [bind]. rewrite K1. cbn [bind].
  eapply look_ok; eassumption.
Qed.
Notation push_back := (push_back A w triv).
Lemma push_any m vs r u xs x : Rel m vs -> nth_error vs r = Some u -> R u xs -> small (length xs + 1) ->
  exists m' u', (let* n := more A w m r 1 in growing m r n (quiet A (fun v => push_back v x))) = Ok (m', ONone) /\ Rel m' (upd r u' vs) /\ R u' (xs ++ [x]).
Proof.
  intros HR Nu HRu Hs. destruct (more_ok m vs r u xs 1 HR Nu HRu Hs) as (-> & Ew & Hn). cbn [bind].
  apply (growing_ok m vs r u xs _ _ (xs ++ [x]) ONone HR Nu HRu Hn). intros u1 H1 L.
  destruct (push_ok A w triv Hw False u1 xs x H1 Hs) as (u' & E & H'). exists u'. split; [now apply quiet_ok|]. split; [|exact H'].
  apply (push_kept u1 x); [|exact E]. rewrite (R_used _ _ _ _ _ H1). change 1%N with (N.of_nat 1). rewrite Ew. exact L.
Qed.
Lemma push_all_any ys : forall m vs r u xs, Rel m vs -> nth_error vs r = Some u -> R u xs -> small (length xs + length ys) ->
  exists m' u', mpush_all A w triv m r ys = Ok m' /\ Rel m' (upd r u' vs) /\ R u' (xs ++ ys).
Proof.
  induction ys as [|y ys IH]; intros m vs r u xs HR Nu HRu Hs; cbn [mpush_all].
  { exists m, u. rewrite (upd_same vs r u Nu), app_nil_r. auto. }
  cbn [length] in Hs. destruct (push_any m vs r u xs y HR Nu HRu) as (m1 & u1 & E & HR1 & H1); [eapply small_le; [|exact Hs]; lia|].
  destruct (more A w m r 1) as [n| | |]; try discriminate. cbn [bind] in *. rewrite E. cbn [bind].
  assert (Lr : r < length vs) by (apply nth_error_Some; congruence).
  destruct (IH m1 (upd r u1 vs) r u1 (xs ++ [y]) HR1 (nth_error_upd_eq _ _ _ Lr) H1) as (m2 & u2 & E2 & HR2 & H2).
  { rewrite app_length. cbn. eapply small_le; [|exact Hs]; lia. }
  rewrite upd_upd in HR2. rewrite <- app_assoc in H2. eauto.
Qed.
Notation mstep := (mstep A w triv dflt eqA ltA).

(* a vector that is given up *)
Lemma drop_ok m vs r u xs : Rel m vs -> nth_error vs r = Some u -> R u xs ->
  exists m' v' u', mdeallocate m r = Ok m' /\ get A m' r = Ok v' /\ Rel m' (upd r u' vs) /\ nth_error (vecs m') r = Some v' /\ (forall b, m_el v' <> Own b).
Proof.
  intros HR Nu HRu. destruct (deallocate_ok A w triv False u xs HRu) as (u1 & E & _).
  destruct (mdeallocate_ok m vs r u u1 HR Nu E) as (m' & v' & E1 & HR1 & N1 & No & _). exists m', v', u1. unfold get. rewrite N1. auto.
Qed.
Lemma Rel_empty m vs r v u k : Rel m vs -> nth_error (vecs m) r = Some v -> nth_error vs r = Some u -> (forall b, m_el v <> Own b) ->
  Rel (put A m r (MV Nil 0 0 false k)) (upd r (V [] 0 false k) vs).
Proof.
  intros HR Nv Nu No. eapply Rel_change with (v := v); [exact HR|exact Nv|exact Nu|reflexivity|split; [reflexivity|cbn; auto]|reflexivity| |left; reflexivity].
  intros b. cbn [m_el]. change (in_use A (put A m r _) b) with (in_use A m b). split; [intros H; right; auto|]. intros [[=]|[H _]]. exact H.
Qed.
Lemma Rel_load m vs r v u k ys : Rel m vs -> nth_error (vecs m) r = Some v -> nth_error vs r = Some u -> (forall b, m_el v <> Own b) ->
  Rel (put A (World (heap m) (bufs m ++ [map Live ys]) (vecs m)) r (MV (Buf (length (bufs m))) (length ys) (length ys) false k))
    (upd r (V (map Live ys) (length ys) false k) vs).
Proof.
  intros HR Nv Nu No. assert (Nh : forall r', ~ holds A m r' (Buf (length (bufs m)))).
  { intros r' (v1 & N1 & E1). destruct HR as (L & H & _). destruct (nth_error vs r') as [u1|] eqn:N2.
    - specialize (H r' v1 u1 N1 N2) as (H & _). unfold seen in H. rewrite E1 in H. cbn [VmemModel.load] in H.
      rewrite (proj2 (nth_error_None (bufs m) (length (bufs m)))) in H by lia. discriminate.
    - apply nth_error_None in N2. assert (r' < length (vecs m)) by (apply nth_error_Some; congruence). lia. }
  eapply Rel_change with (v := v); [exact HR|exact Nv|exact Nu|reflexivity| | | |right; right; exact Nh].
  - split; [|cbn; rewrite map_length; auto]. unfold seen. cbn [m_el m_used m_self m_leak VmemModel.load put bufs].
    rewrite nth_error_app2, Nat.sub_diag by lia. reflexivity.
  - intros a Na (r' & _ & Hr). destruct a as [|b|e]; try reflexivity. cbn [VmemModel.load put bufs].
    destruct (Nat.lt_trichotomy e (length (bufs m))) as [H|[->|H]]; [now rewrite nth_error_app1 by exact H|destruct (Nh r' Hr)|].
    rewrite (proj2 (nth_error_None (bufs m ++ _) e)) by (rewrite app_length; cbn; lia). now rewrite (proj2 (nth_error_None (bufs m) e)) by lia.
  - intros b. cbn [m_el]. change (in_use A (put A _ r _) b) with (in_use A m b). split; [intros H; right; auto|]. intros [[=]|[H _]]. exact H.
Qed.
Lemma Rel_swap m vs r r' v o u u' k : r <> r' -> Rel m vs -> nth_error (vecs m) r = Some v -> nth_error (vecs m) r' = Some o ->
  nth_error vs r = Some u -> nth_error vs r' = Some u' -> (forall b, m_el v <> Own b) ->
  Rel (put A (put A m r (MV (m_el o) (m_used o) (m_cap o) (m_self o) k)) r' (MV Nil 0 0 false (m_leak o)))
    (upd r' (V [] 0 false (v_leak u')) (upd r (V (v_slots u') (v_used u') (v_self u') k) vs)).
Proof.
  intros Ne (L & H & O1 & O2) Nv No Nu Nu' Hn. set (m' := put A _ r' _).
  assert (Lr : r < length (vecs m)) by (apply nth_error_Some; congruence). assert (Lr' : r' < length (vecs m)) by (apply nth_error_Some; congruence).
  assert (Hh : forall q a, holds A m' q a <-> (q = r' /\ a = Nil) \/ (q = r /\ m_el o = a) \/ (q <> r /\ q <> r' /\ holds A m q a)).
  { intros q a. unfold holds, m', put. cbn [vecs]. destruct (Nat.eq_dec q r') as [->|N1].
    - rewrite nth_error_upd_eq by (rewrite upd_length; exact Lr'). split; [intros (x & [= <-] & <-); auto|].
      intros [[_ ->]|[[E _]|(_ & E & _)]]; [eexists; split; reflexivity|congruence|congruence].
    - rewrite nth_error_upd_neq by congruence. destruct (Nat.eq_dec q r) as [->|N2].
      + rewrite nth_error_upd_eq by exact Lr. split; [intros (x & [= <-] & <-); auto|].
        intros [[E _]|[[_ <-]|(E & _)]]; [congruence|eexists; split; reflexivity|congruence].
      + rewrite nth_error_upd_neq by congruence. split; [auto|]. intros [[E _]|[[E _]|(_ & _ & Hx)]]; [congruence|congruence|exact Hx]. }
  split; [|split; [|split]].
  - unfold m', put. cbn [vecs]. rewrite !upd_length. exact L.
  - intros q v1 u1 N1 N2. unfold m', put in N1. cbn [vecs] in N1. destruct (Nat.eq_dec q r') as [->|Q1].
    + rewrite nth_error_upd_eq in N1 by (rewrite upd_length; exact Lr'). rewrite nth_error_upd_eq in N2 by (rewrite upd_length, <- L; exact Lr').
      injection N1 as <-. injection N2 as <-. pose proof (H r' o u' No Nu') as (K & _). unfold seen in K. destruct (load m (m_el o)); try discriminate.
      injection K as <-. split; [reflexivity|cbn; auto].
    + rewrite nth_error_upd_neq in N1 by congruence. rewrite nth_error_upd_neq in N2 by congruence. destruct (Nat.eq_dec q r) as [->|Q2].
      * rewrite nth_error_upd_eq in N1 by exact Lr. rewrite nth_error_upd_eq in N2 by (rewrite <- L; exact Lr). injection N1 as <-. injection N2 as <-.
        pose proof (H r' o u' No Nu') as (K & K2). unfold seen in K. destruct (load m (m_el o)) as [l| | |] eqn:El; try discriminate. injection K as <-.
        split; [|exact K2]. unfold seen. cbn [m_el m_used m_self m_leak v_slots v_used v_self]. change (load m' (m_el o)) with (load m (m_el o)). rewrite El. reflexivity.
      * rewrite nth_error_upd_neq in N1 by congruence. rewrite nth_error_upd_neq in N2 by congruence. apply (ok_same m); [reflexivity|]. exact (H q v1 u1 N1 N2).
  - intros b. change (in_use A m' b) with (in_use A m b). rewrite O1. split; intros (q & Hq).
    + destruct Hq as (x & Nx & Ex). destruct (Nat.eq_dec q r') as [->|Q1]; [exists r; apply Hh; right; left; split; [reflexivity|congruence]|].
      destruct (Nat.eq_dec q r) as [->|Q2]; [destruct (Hn b); congruence|]. exists q. apply Hh. right. right. split; [exact Q2|]. split; [exact Q1|]. exists x. auto.
    + apply Hh in Hq as [[_ [=]]|[[_ E]|(_ & _ & Hq)]]; [exists r', o; auto|eauto].
  - assert (F : forall a q, a <> Nil -> m_el o = a -> q <> r' -> holds A m q a -> False).
    { intros a q Na Eo Nq Hq. apply Nq. apply (O2 a q r' Na Hq). exists o. auto. }
    intros a q1 q2 Na H1 H2. apply Hh in H1 as [[_ E1]|[[-> E1]|(N1 & N1' & H1)]]; [congruence| |]; apply Hh in H2 as [[_ E2]|[[-> E2]|(N2 & N2' & H2)]]; try congruence.
    + destruct (F a q2 Na E1 N2' H2).
    + destruct (F a q1 Na E2 N1' H1).
    + exact (O2 a q1 q2 Na H1 H2).
Qed.

Lemma R_empty k : R (V [] 0 false k) [].
Proof. exists []. cbn. repeat split; try tauto. unfold VecProofs.small. cbn. lia. Qed.

Lemma one_ok vs st r ys x (y : res (world * out A)) : Sim vs st -> (exists m' u', y = Ok (m', x) /\ Rel m' (upd r u' vs) /\ R u' ys) ->
  exists m' vs', y = Ok (m', x) /\ Rel m' vs' /\ Sim vs' (upd r ys st).
Proof. intros HS (m' & u' & E & HR & Hu). exists m', (upd r u' vs). split; [exact E|]. split; [exact HR|]. apply Sim_upd; assumption. Qed.
Lemma on_inv r P f st st' : on A small r P f st st' -> exists xs, nth_error st r = Some xs /\ P xs /\ small (length (f xs)) /\ st' = upd r (f xs) st.
Proof. intros []. eauto. Qed.
Theorem mstep_ok m vs st o st' x : Rel m vs -> Sim vs st -> spec A small smallN dflt eqA ltA st o st' x ->
  exists m' vs', mstep m o = Ok (m', x) /\ Rel m' vs' /\ Sim vs' st'.
Proof.
  intros HR HS H. inversion H; subst; cbn [VmemModel.mstep];
    try match goal with O : on A small ?r _ _ ?s _ |- _ =>
      apply on_inv in O as (xs & Hn & HP & Hl & ->); destruct (Sim_nth A w False vs s r xs HS Hn) as (u & Nu & Hu); cbv beta in Hl; apply (one_ok vs); [exact HS|] end.
  - rewrite app_length in Hl. apply (push_any m vs r u xs x0 HR Nu Hu Hl).
  - rewrite insert_at_length in Hl. destruct (more_ok m vs r u xs 1 HR Nu Hu Hl) as (-> & Ew & Hs). cbn [bind].
    apply (growing_ok m vs r u xs _ _ _ _ HR Nu Hu Hs). intros u1 H1 L. destruct (insert_ok A w triv Hw False u1 xs i x0 H1 HP Hl) as (u' & E & H').
    exists u'. split; [now apply pos_ok|]. split; [|exact H']. apply (insert_kept u1 i x0 (u', i + 1)); [|exact E]. rewrite (R_used _ _ _ _ _ H1). change 1%N with (N.of_nat 1). now rewrite Ew.
  - rewrite insert_at_length, repeat_length in Hl. destruct (more_ok m vs r u xs n HR Nu Hu Hl) as (-> & Ew & Hs). cbn [bind].
    apply (growing_ok m vs r u xs _ _ _ _ HR Nu Hu Hs). intros u1 H1 L. destruct (insert_n_ok A w triv Hw False u1 xs i n x0 H1 HP Hl) as (u' & E & H').
    exists u'. split; [now apply pos_ok|]. split; [|exact H']. apply (insert_n_kept u1 i n x0 (u', i + n)); [|exact E]. rewrite (R_used _ _ _ _ _ H1). now rewrite Ew.
  - rewrite insert_at_length in Hl. destruct (Rel_get m vs r u HR Nu) as (v & Nv & K1 & _). unfold get. rewrite Nv. cbn [bind].
    destruct (push_all_any ys m vs r u xs HR Nu Hu Hl) as (m1 & u1 & -> & HR1 & H1). cbn [bind].
    assert (Lr : r < length vs) by (apply nth_error_Some; congruence).
    assert (Uv : m_used v = length xs).
    { unfold seen in K1. destruct (load m (m_el v)); try discriminate. injection K1 as <-. apply (R_used _ _ _ _ _ Hu). }
    destruct (stay_ok m1 (upd r u1 vs) r u1 (xs ++ ys) (pos A (fun u => let* ' (l, p) := rotate A (v_slots u) i (m_used v) (v_used u) in Ok (V l (v_used u) (v_self u) (v_leak u), p)))
      (insert_at A i ys xs) (ONum (i + length ys)) HR1 (nth_error_upd_eq _ _ _ Lr) H1) as (m2 & u2 & E2 & HR2 & H2).
    { destruct H1 as (rest & S1 & U1 & Sm & C1). unfold pos. rewrite S1, U1, Uv, app_length, rotate_R by auto. cbn [bind]. eexists. split; [reflexivity|]. split.
      - split; [|reflexivity]. cbn [v_slots]. rewrite S1, !app_length, !map_length, insert_at_length, app_length. reflexivity.
      - exists rest. cbn [v_slots v_used v_leak]. rewrite insert_at_length. repeat split; try tauto.
        rewrite S1 in Sm. rewrite !app_length, !map_length in *. rewrite insert_at_length, <- app_length. exact Sm. }
    rewrite upd_upd in HR2. eauto.
  - rewrite insert_at_length in Hl. destruct HP as [Hi He]. destruct (Rel_get m vs r u HR Nu) as (v & Nv & K1 & _).
    assert (Uv : m_used v = length xs).
    { unfold seen in K1. destruct (load m (m_el v)); try discriminate. injection K1 as <-. apply (R_used _ _ _ _ _ Hu). }
    destruct (more_ok m vs r u xs (length ys) HR Nu Hu Hl) as (Em & Ew & Hs). unfold get at 1. rewrite Nv. cbn [bind]. rewrite Uv.
    assert (En : (if length xs =? 0 then Ok (N.of_nat (length ys)) else more A w m r (length ys)) = Ok (N.of_nat (length xs) + N.of_nat (length ys))%N).
    { destruct (Nat.eqb_spec (length xs) 0) as [E0|]; [rewrite E0; reflexivity|exact Em]. }
    rewrite En. cbn [bind].
    apply (growing_ok m vs r u xs _ _ _ _ HR Nu Hu Hs). intros u1 H1 L. destruct (insert_range_ok A w triv Hw False u1 xs i ys H1 Hi (fun e => or_intror (He e)) Hl) as (u' & E & H').
    exists u'. split; [now apply pos_ok|]. split; [|exact H']. apply (insert_range_kept u1 i ys (u', i)); [|exact E]. rewrite (R_used _ _ _ _ _ H1), Ew.
    destruct (Nat.eqb_spec (length xs) 0); lia.
  - assert (Hs : smallN (N.of_nat (length ys))) by exact Hl. assert (Lw : (N.of_nat (length ys) <= 2 ^ w - 1)%N) by (pose proof (pow_w w Hw); unfold VecProofs.smallN in Hs; lia).
    unfold verify. rewrite (proj2 (N.leb_le _ _) Lw). cbn [bind]. apply (growing_ok m vs r u xs _ _ _ _ HR Nu Hu Hs). intros u1 H1 L.
    destruct (set_range_ok A w triv Hw False u1 xs ys H1 (False_ind _) Hl) as (u' & E & H'). exists u'. split; [now apply quiet_ok|]. split; [|exact H']. eapply set_kept; eassumption.
  - assert (Hs : small n) by (unfold resized in Hl; rewrite app_length, firstn_length, repeat_length in Hl; eapply small_le; [|exact Hl]; lia).
    apply (growing_ok m vs r u xs _ _ _ _ HR Nu Hu Hs). intros u1 H1 L.
    destruct (resize_ok A w triv Hw False u1 xs n dflt H1 (False_ind _) Hs) as (u' & E & H'). exists u'. split; [now apply quiet_ok|]. split; [|exact H']. eapply resize_kept; eassumption.
  - assert (Hs : small n) by (unfold resized in Hl; rewrite app_length, firstn_length, repeat_length in Hl; eapply small_le; [|exact Hl]; lia).
    apply (growing_ok m vs r u xs _ _ _ _ HR Nu Hu Hs). intros u1 H1 L.
    destruct (resize_ok A w triv Hw False u1 xs n x0 H1 (False_ind _) Hs) as (u' & E & H'). exists u'. split; [now apply quiet_ok|]. split; [|exact H']. eapply resize_kept; eassumption.
  - destruct (reserve_ok A w triv Hw False u xs n Hu) as (u1 & rest & E & S1 & U & Sm & C & L); [assumption|].
    destruct (mreserve_ok m vs r u n u1 HR Nu E L) as (m1 & -> & HR1). cbn [bind]. exists m1, u1. split; [reflexivity|]. split; [exact HR1|]. exists rest. repeat split; tauto.
  - apply (stay_ok m vs r u xs _ _ _ HR Nu Hu). destruct (pop_ok A w False u xs Hu HP) as (u' & E & H'). exists u'. split; [now apply quiet_ok|]. split; [|exact H']. now apply pop_kept.
  - apply (stay_ok m vs r u xs _ _ _ HR Nu Hu). destruct (clear_ok A w False u xs Hu) as (u' & E & H'). exists u'. split; [now apply quiet_ok|]. split; [|exact H']. now apply clear_kept.
  - apply (stay_ok m vs r u xs _ _ _ HR Nu Hu). destruct (erase_ok A w False u xs i Hu HP) as (u' & E & H'). exists u'. split; [now apply pos_ok|]. split; [|exact H'].
    exact (erase_kept u i _ E).
  - assert (ys = remove A i j xs) by (rewrite nth_error_upd_eq in H1 by (apply nth_error_Some; congruence); congruence). subst ys.
    apply (stay_ok m vs r u xs _ _ _ HR Nu Hu). destruct (erase_range_ok A w False u xs i j Hu HP) as (u' & E & H'). exists u'. split; [now apply pos_ok|]. split; [|exact H'].
    exact (erase_range_kept u i j _ E).
  - apply (stay_ok m vs r u xs _ _ _ HR Nu Hu). destruct (write_ok A w False u xs i x0 Hu HP) as (l & E & H'). eexists. split; [unfold quiet; rewrite E; cbn [bind]; reflexivity|].
    split; [|exact H']. apply assign_length in E. split; [exact E|reflexivity].
  - (* Copy *)
    destruct (Sim_nth A w False vs st r' ys HS H0) as (o & Ho & HRo). destruct (Rel_get m vs r' o HR Ho) as (vo & Nvo & K1 & _). unfold get at 1. rewrite Nvo. cbn [bind].
    destruct (Nat.eqb_spec r r') as [->|Hne].
    + assert (o = u) by congruence. assert (ys = xs) by congruence. subst. exists m, u. rewrite (upd_same vs r' u Nu). auto.
    + rewrite K1. cbn [bind]. assert (Uo : m_used vo = length ys).
      { unfold seen in K1. destruct (load m (m_el vo)); try discriminate. injection K1 as <-. apply (R_used _ _ _ _ _ HRo). }
      rewrite Uo. apply (growing_ok m vs r u xs _ _ _ _ HR Nu Hu Hl). intros u1 H1 L.
      destruct (set_vec_ok A w triv Hw False u1 xs o ys H1 (False_ind _) HRo Hl) as (u' & E & H'). exists u'. split; [now apply quiet_ok|]. split; [|exact H']. exact (set_vec_kept u1 o ys u' HRo L E).
  - (* Move *)
    destruct (Sim_nth A w False vs st r xs HS H0) as (u & Nu & Hu). destruct (Sim_nth A w False vs st r' ys HS H1) as (o & No & Ho).
    destruct (drop_ok m vs r u xs HR Nu Hu) as (m1 & v1 & u1 & -> & E1 & HR1 & N1 & Nn). cbn [bind]. rewrite E1. cbn [bind].
    assert (Lr : r < length vs) by (apply nth_error_Some; congruence). assert (Lm : r < length (vecs m1)) by (apply nth_error_Some; congruence).
    destruct (Nat.eq_dec r r') as [->|Ne].
    + rewrite E1. cbn [bind]. unfold get, put. cbn [vecs heap bufs]. rewrite nth_error_upd_eq by exact Lm. cbn [bind m_leak]. rewrite upd_upd.
      eexists. eexists. split; [reflexivity|]. split; [exact (Rel_empty m1 _ r' v1 u1 _ HR1 N1 (nth_error_upd_eq _ _ _ Lr) Nn)|]. rewrite !upd_upd.
      apply Sim_upd; [exact HS|apply R_empty].
    + assert (No1 : nth_error (upd r u1 vs) r' = Some o) by (rewrite nth_error_upd_neq by congruence; exact No).
      destruct (Rel_get m1 _ r' o HR1 No1) as (vo & Nvo & Ko & _). unfold get at 1. rewrite Nvo. cbn [bind]. unfold get, put. cbn [vecs heap bufs].
      rewrite nth_error_upd_neq by congruence. rewrite Nvo. cbn [bind]. eexists. eexists. split; [reflexivity|].
      split; [exact (Rel_swap m1 _ r r' v1 vo u1 o _ Ne HR1 N1 Nvo (nth_error_upd_eq _ _ _ Lr) No1 Nn)|]. rewrite upd_upd. destruct Ho as (q & Q1 & Q2 & Q3 & Q4).
      apply Sim_upd; [apply Sim_upd; [exact HS|]|apply R_empty]. exists q. cbn. repeat split; auto; tauto.
  - (* New *)
    destruct (drop_ok m vs r u xs HR Nu Hu) as (m1 & v1 & u1 & -> & E1 & HR1 & N1 & Nn). cbn [bind]. rewrite E1. cbn [bind].
    assert (Lr : r < length vs) by (apply nth_error_Some; congruence).
    pose proof (Rel_empty m1 _ r v1 u1 (m_leak v1) HR1 N1 (nth_error_upd_eq _ _ _ Lr) Nn) as HR2. rewrite upd_upd in HR2.
    eexists. eexists. split; [reflexivity|]. split; [exact HR2|apply R_empty].
  - (* View *)
    destruct (drop_ok m vs r u xs HR Nu Hu) as (m1 & v1 & u1 & -> & E1 & HR1 & N1 & Nn). cbn [bind]. rewrite E1. cbn [bind].
    assert (Lr : r < length vs) by (apply nth_error_Some; congruence). destruct ys as [|y ys].
    + pose proof (Rel_empty m1 _ r v1 u1 (m_leak v1) HR1 N1 (nth_error_upd_eq _ _ _ Lr) Nn) as HR2. rewrite upd_upd in HR2.
      eexists. eexists. split; [reflexivity|]. split; [exact HR2|apply R_empty].
    + pose proof (Rel_load m1 _ r v1 u1 (m_leak v1) (y :: ys) HR1 N1 (nth_error_upd_eq _ _ _ Lr) Nn) as HR2. rewrite upd_upd in HR2.
      eexists. eexists. split; [reflexivity|]. split; [exact HR2|]. exists []. cbn [v_slots v_used v_leak]. rewrite app_nil_r, map_length. repeat split; try tauto; exact Hl.
  - exists m, vs. split; [|auto]. destruct (Sim_nth A w False vs st' r xs HS H0) as (u & Nu & Hu). destruct (Rel_get m vs r u HR Nu) as (v & Nv & K1 & _).
    unfold get. rewrite Nv. cbn [bind]. rewrite K1. cbn [bind]. unfold at_. rewrite (R_used _ _ _ _ _ Hu). destruct (Nat.leb_spec (length xs) i) as [L|L].
    { apply nth_error_None in L. congruence. } rewrite (read_R _ _ _ _ _ _ _ Hu H1). reflexivity.
  - exists m, vs. split; [|auto]. destruct (Sim_nth A w False vs st' r xs HS H0) as (u & Nu & Hu). destruct (Rel_get m vs r u HR Nu) as (v & Nv & K1 & _).
    unfold get. rewrite Nv. cbn [bind]. rewrite K1. cbn [bind]. unfold at_. rewrite (R_used _ _ _ _ _ Hu). destruct (Nat.leb_spec (length xs) i) as [L|L]; [reflexivity|exfalso; lia].
  - exists m, vs. split; [|auto]. destruct (Sim_nth A w False vs st' r xs HS H0) as (u & Nu & Hu). apply (look_ok m vs r u _ OVal _ HR Nu). eapply read_R; eassumption.
  - exists m, vs. split; [|auto]. destruct (Sim_nth A w False vs st' r _ HS H0) as (u & Nu & Hu). apply (look_ok m vs r u _ OVal _ HR Nu). eapply read_R; [eassumption|reflexivity].
  - exists m, vs. split; [|auto]. destruct (Sim_nth A w False vs st' r _ HS H0) as (u & Nu & Hu). apply (look_ok m vs r u _ OVal _ HR Nu).
    rewrite (R_used _ _ _ _ _ Hu), app_length. cbn [length]. destruct (Nat.eqb_spec (length xs + 1) 0); [lia|]. eapply read_R; [eassumption|]. rewrite Nat.add_sub. apply nth_error_mid.
  - exists m, vs. split; [|auto]. destruct (Sim_nth A w False vs st' r _ HS H0) as (u & Nu & Hu). apply (look_ok m vs r u _ ONum _ HR Nu). now rewrite (R_used _ _ _ _ _ Hu).
  - exists m, vs. split; [|auto]. destruct (Sim_nth A w False vs st' r _ HS H0) as (u & Nu & Hu). apply (look_ok m vs r u _ OList _ HR Nu). eapply contents_R; eassumption.
  - exists m, vs. split; [|auto]. destruct (Sim_nth A w False vs st' r _ HS H0) as (u & Nu & Hu). destruct (Sim_nth A w False vs st' r' _ HS H1) as (o & No & Ho).
    apply (look2_ok m vs r r' u o _ _ HR Nu No). unfold veq. rewrite (contents_R _ _ _ _ _ Hu), (contents_R _ _ _ _ _ Ho). cbn [bind]. f_equal.
    eapply bool_iff; eauto using std_equal_spec.
  - exists m, vs. split; [|auto]. destruct (Sim_nth A w False vs st' r _ HS H0) as (u & Nu & Hu). destruct (Sim_nth A w False vs st' r' _ HS H1) as (o & No & Ho).
    apply (look2_ok m vs r r' u o _ _ HR Nu No). unfold vlt. rewrite (contents_R _ _ _ _ _ Hu), (contents_R _ _ _ _ _ Ho). cbn [bind]. f_equal.
    eapply bool_iff; eauto using std_lex_spec.
  - exists m, vs. split; [|auto]. destruct (Sim_nth A w False vs st' r _ HS H0) as (u & Nu & Hu). destruct (Sim_nth A w False vs st' r' _ HS H1) as (o & No & Ho).
    apply (look2_ok m vs r r' u o _ _ HR Nu No). unfold vgt, vlt. rewrite (contents_R _ _ _ _ _ Hu), (contents_R _ _ _ _ _ Ho). cbn [bind]. f_equal.
    eapply bool_iff; eauto using std_lex_spec.
  - exists m, vs. split; [|auto]. destruct (Sim_nth A w False vs st' r _ HS H0) as (u & Nu & Hu). destruct (Sim_nth A w False vs st' r' _ HS H1) as (o & No & Ho).
    apply (look2_ok m vs r r' u o _ _ HR Nu No). unfold vle, vgt, vlt. rewrite (contents_R _ _ _ _ _ Hu), (contents_R _ _ _ _ _ Ho). cbn [bind]. f_equal.
    eapply bool_iff; eauto using std_lex_spec, not_iff.
  - exists m, vs. split; [|auto]. destruct (Sim_nth A w False vs st' r _ HS H0) as (u & Nu & Hu). destruct (Sim_nth A w False vs st' r' _ HS H1) as (o & No & Ho).
    apply (look2_ok m vs r r' u o _ _ HR Nu No). unfold vge, vlt. rewrite (contents_R _ _ _ _ _ Hu), (contents_R _ _ _ _ _ Ho). cbn [bind]. f_equal.
    eapply bool_iff; eauto using std_lex_spec, not_iff.
Qed.

Notation mrun := (mrun A w triv dflt eqA ltA).
Theorem mrun_ok m vs st ops st' xs : Rel m vs -> Sim vs st -> history A small smallN dflt eqA ltA st ops st' xs ->
  exists m' vs', mrun m ops = Ok (m', xs) /\ Rel m' vs' /\ Sim vs' st'.
Proof.
  intros HR HS H. revert m vs HR HS. induction H; intros m vs HR HS; cbn [VmemModel.mrun]; [eauto|].
  destruct (mstep_ok m vs st o st1 x HR HS H) as (m1 & vs1 & -> & HR1 & HS1). cbn [bind].
  destruct (IHhistory m1 vs1 HR1 HS1) as (m2 & vs2 & -> & HR2 & HS2). cbn [bind]. eauto.
Qed.
Lemma Rel_start n : Rel (start A n) (repeat vnew n).
Proof.
  split; [cbn; now rewrite !repeat_length|]. split; [|split].
  - intros r v u N1 N2. cbn in N1. apply nth_error_In, repeat_spec in N1, N2. subst. split; [reflexivity|cbn; auto].
  - intros b. split; [intros (l & Hl); destruct b; discriminate|]. intros (r & v & N & E). cbn in N. apply nth_error_In, repeat_spec in N. subst. discriminate.
  - intros a r r' Na (v & N & E). cbn in N. apply nth_error_In, repeat_spec in N. subst. cbn in Na. congruence.
Qed.
(* ---- all blocks are freed in the end ---- *)
Lemma new_ok m vs st r xs : Rel m vs -> Sim vs st -> nth_error st r = Some xs ->
  exists m' vs', mstep m (New r) = Ok (m', ONone) /\ Rel m' vs' /\ Sim vs' (upd r [] st) /\ holds A m' r Nil /\
    forall q, q <> r -> nth_error (vecs m') q = nth_error (vecs m) q.
Proof.
  intros HR HS Hn. destruct (Sim_nth A w False vs st r xs HS Hn) as (u & Nu & Hu). cbn [VmemModel.mstep].
  destruct (Rel_get m vs r u HR Nu) as (v & Nv & _).
  destruct (drop_ok m vs r u xs HR Nu Hu) as (m1 & v1 & u1 & E & E1 & HR1 & N1 & Nn). rewrite E. cbn [bind]. rewrite E1. cbn [bind].
  assert (Lr : r < length vs) by (apply nth_error_Some; congruence). assert (Lm : r < length (vecs m1)) by (apply nth_error_Some; congruence).
  pose proof (Rel_empty m1 _ r v1 u1 (m_leak v1) HR1 N1 (nth_error_upd_eq _ _ _ Lr) Nn) as HR2. rewrite upd_upd in HR2.
  eexists. eexists. split; [reflexivity|]. split; [exact HR2|]. split; [apply Sim_upd; [exact HS|apply R_empty]|]. split.
  - eexists. split; [unfold put; cbn [vecs]; apply nth_error_upd_eq; exact Lm|reflexivity].
  - intros q Nq. unfold put. cbn [vecs]. rewrite nth_error_upd_neq by congruence. unfold VmemModel.mdeallocate, get in E. rewrite Nv in E. cbn [bind] in E.
    destruct (negb (m_self v) || is_nil (m_el v))%bool; [congruence|]. step E. step E. step E. injection E as <-. cbn [vecs put]. rewrite nth_error_upd_neq by congruence.
    destruct (m_el v); cbn [free_ VmemModel.store] in E3; [congruence| |discriminate]. cbn [heap] in E3.
    destruct (nth_error _ b) as [[?|]|] in E3; try discriminate. injection E3 as <-. reflexivity.
Qed.
Lemma news_ok k : forall i m vs st, Rel m vs -> Sim vs st -> i + k <= length st -> (forall q, q < i -> holds A m q Nil) ->
  exists m' vs', mrun m (map New (seq i k)) = Ok (m', repeat ONone k) /\ Rel m' vs' /\ length vs' = length st /\ forall q, q < i + k -> holds A m' q Nil.
Proof.
  induction k as [|k IH]; intros i m vs st HR HS L H.
  { exists m, vs. split; [reflexivity|]. split; [exact HR|]. split; [|intros q Lq; apply H; lia]. clear -HS. induction HS; cbn; congruence. }
  destruct (nth_error st i) as [xs|] eqn:E; [|apply nth_error_None in E; lia].
  destruct (new_ok m vs st i xs HR HS E) as (m1 & vs1 & E1 & HR1 & HS1 & H1 & O1). cbn [seq map VmemModel.mrun repeat]. rewrite E1. cbn [bind].
  destruct (IH (S i) m1 vs1 (upd i [] st) HR1 HS1) as (m2 & vs2 & E2 & HR2 & L2 & H2).
  { rewrite upd_length. lia. }
  { intros q Lq. destruct (Nat.eq_dec q i) as [->|Nq]; [exact H1|]. destruct (H q) as (v & Nv & Ev); [lia|]. exists v. rewrite (O1 q Nq). auto. }
  rewrite E2. cbn [bind]. exists m2, vs2. rewrite upd_length in L2. split; [reflexivity|]. split; [exact HR2|]. split; [exact L2|]. intros q Lq. apply H2. lia.
Qed.
Lemma mrun_app a : forall m b, mrun m (a ++ b) = let* ' (m, xs) := mrun m a in let* ' (m, ys) := mrun m b in Ok (m, xs ++ ys).
Proof.
  induction a as [|o a IH]; intros m b; cbn [app VmemModel.mrun].
  - cbn [bind]. destruct (mrun m b) as [[? ?]| | |]; reflexivity.
  - destruct (mstep m o) as [[m1 x]| | |]; cbn [bind]; try reflexivity. rewrite IH. destruct (mrun m1 a) as [[m2 xs]| | |]; cbn [bind]; try reflexivity.
    destruct (mrun m2 b) as [[m3 ys]| | |]; reflexivity.
Qed.
Lemma history_length st ops st' xs : history A small smallN dflt eqA ltA st ops st' xs -> length st' = length st.
Proof.
  induction 1 as [|st o st1 x ops st2 xs H _ IH]; [reflexivity|]. rewrite IH. clear IH.
  inversion H; subst; try reflexivity; try match goal with O : on A small _ _ _ _ _ |- _ => apply on_inv in O as (? & _ & _ & _ & ->) end; rewrite ?upd_length; reflexivity.
Qed.
Theorem memory_ok n ops st xs : history A small smallN dflt eqA ltA (repeat [] n) ops st xs ->
  exists m, mrun (start A n) ops = Ok (m, xs) /\ owned A m /\
    (forall r ys, nth_error st r = Some ys -> mstep m (All r) = Ok (m, OList ys)) /\
    exists m', mrun (start A n) (ops ++ map New (seq 0 n)) = Ok (m', xs ++ repeat ONone n) /\ forall b, ~ in_use A m' b.
Proof.
  intros H. pose proof (history_length _ _ _ _ H) as L. rewrite repeat_length in L.
  destruct (mrun_ok _ _ _ _ _ _ (Rel_start n) (Sim_init A w dflt eqA ltA False n) H) as (m & vs & E & HR & HS). exists m. split; [exact E|]. split; [apply HR|]. split.
  { intros r ys Hr. destruct (mstep_ok m vs st (All r) st (OList ys) HR HS) as (m' & vs' & E' & _); [now constructor|].
    pose proof E' as E2. cbn [VmemModel.mstep] in E2. unfold look in E2. step E2. step E2. step E2. injection E2 as <- _. exact E'. }
  destruct (news_ok n 0 m vs st HR HS) as (m' & vs' & E' & HR' & L' & Hn); [lia|intros q Hq; lia|]. exists m'. rewrite mrun_app, E. cbn [bind]. rewrite E'. cbn [bind].
  split; [reflexivity|]. intros b Hb. destruct HR' as (Lv & _ & O1 & _). apply O1 in Hb as (r & v & Nv & Ev). destruct (Hn r) as (v2 & Nv2 & Ev2); [|congruence].
  assert (r < length (vecs m')) by (apply nth_error_Some; congruence). lia.
Qed.

(* ---- buffers ---- *)
Definition fr (r : nat) (m m' : world) : Prop :=
  (forall e l, nth_error (bufs m) e = Some l -> holds A m r (Buf e) \/ nth_error (bufs m') e = Some l) /\
  (forall e, holds A m' r (Buf e) -> holds A m r (Buf e)).
Lemma fr_trans r m1 m2 m3 : fr r m1 m2 -> fr r m2 m3 -> fr r m1 m3.
Proof. intros [A1 A2] [B1 B2]. split; [|auto]. intros e l H. destruct (A1 e l H) as [|H2]; [auto|]. destruct (B1 e l H2) as [|]; auto. Qed.
Lemma bufs_store m a l e : a <> Buf e -> nth_error (bufs (store m a l)) e = nth_error (bufs m) e.
Proof. intros N. destruct a; try reflexivity. cbn. apply nth_error_upd_neq. congruence. Qed.
Lemma bufs_free m a m' : free_ A m a = Ok m' -> bufs m' = bufs m /\ vecs m' = vecs m.
Proof. destruct a; cbn; [intros [= <-]; auto| |discriminate]. destruct (nth_error (heap m) b) as [[?|]|]; try discriminate. intros [= <-]. auto. Qed.
Lemma vecs_store m a l : vecs (store m a l) = vecs m.
Proof. destruct a; reflexivity. Qed.
Lemma get_some m r v : get A m r = Ok v -> nth_error (vecs m) r = Some v.
Proof. unfold get. destruct (nth_error (vecs m) r); congruence. Qed.
Lemma addr_dec (a b : addr) : {a = b} + {a <> b}.
Proof. repeat decide equality. Qed.
Lemma holds_put m r v a : holds A (put A m r v) r a -> r < length (vecs m) -> m_el v = a.
Proof. intros (v1 & N & E) L. cbn in N. rewrite nth_error_upd_eq in N by exact L. congruence. Qed.
Lemma fr_reserve m r n m' : mreserve m r n = Ok m' -> fr r m m'.
Proof.
  intros H. unfold VmemModel.mreserve in H. step H. rename a into v. apply get_some in E. assert (L : r < length (vecs m)) by (apply nth_error_Some; congruence).
  destruct (_ <=? _)%N in H; [injection H as <-; split; auto|]. step H. step H. destruct a0 as [old new]. step H. cbn [malloc] in H. cbv zeta in H. cbn [malloc] in H. step H. injection H as <-.
  assert (F : bufs a1 = bufs (store m (m_el v) a0) /\ vecs a1 = vecs m).
  { destruct (m_self v); [apply bufs_free in E3 as [-> ->]|injection E3 as <-]; cbn [bufs vecs]; rewrite vecs_store; auto. }
  destruct F as [F1 F2]. split.
  - intros e l0 He. destruct (addr_dec (m_el v) (Buf e)) as [Ev|Ev]; [left; exists v; auto|]. right. cbn [put bufs]. rewrite F1, bufs_store by exact Ev. exact He.
  - intros e He. apply holds_put in He; [discriminate|]. rewrite F2. exact L.
Qed.
Lemma fr_place m r k m' x : in_place m r k = Ok (m', x) -> fr r m m'.
Proof.
  intros H. unfold VmemModel.in_place in H. step H. rename a into v. apply get_some in E. assert (L : r < length (vecs m)) by (apply nth_error_Some; congruence).
  step H. step H. destruct a0 as [s y]. destruct (_ =? _) in H; [|discriminate]. injection H as <- _. split.
  - intros e l0 He. destruct (addr_dec (m_el v) (Buf e)) as [Ev|Ev]; [left; exists v; auto|]. right. cbn [put bufs]. rewrite bufs_store by exact Ev. exact He.
  - intros e He. apply holds_put in He; [exists v; auto|]. rewrite vecs_store. exact L.
Qed.
Lemma fr_growing m r n k m' x : growing m r n k = Ok (m', x) -> fr r m m'.
Proof. intros H. unfold VmemModel.growing in H. step H. eapply fr_trans; [eapply fr_reserve; eassumption|eapply fr_place; eassumption]. Qed.
Lemma fr_push_all xs : forall m r m', mpush_all A w triv m r xs = Ok m' -> fr r m m'.
Proof.
  induction xs as [|x xs IH]; intros m r m' H; cbn [mpush_all] in H; [injection H as <-; split; auto|]. step H. step H. destruct a0 as [m1 y].
  eapply fr_trans; [eapply fr_growing; eassumption|apply IH; exact H].
Qed.
Lemma bufs_deallocate m r m' : mdeallocate m r = Ok m' -> bufs m' = bufs m.
Proof.
  intros H. unfold VmemModel.mdeallocate in H. step H. destruct (_ || _)%bool in H; [congruence|]. step H. step H. step H. injection H as <-. cbn [put bufs].
  pose proof E2 as F. apply bufs_free in F as [-> _]. destruct (m_el a); try reflexivity. discriminate.
Qed.
Theorem buffers_ok m o m' x e l : mstep m o = Ok (m', x) -> nth_error (bufs m) e = Some l ->
  (forall r, touches A o r -> ~ holds A m r (Buf e)) -> nth_error (bufs m') e = Some l.
Proof.
  intros H He Ht. assert (F : forall r, touches A o r -> fr r m m' -> nth_error (bufs m') e = Some l) by (intros r T [F _]; destruct (F e l He) as [C|]; [destruct (Ht r T C)|auto]).
  destruct o; cbn [VmemModel.mstep touches] in *.
  Ltac fin H := repeat (match type of H with bind ?x _ = Ok _ => let E := fresh "E" in destruct x eqn:E; cbn [bind] in H; try discriminate H end).
  - apply (F r eq_refl). fin H. eapply fr_growing; eassumption.
  - apply (F r eq_refl). fin H. destruct (same_addr _ _) in H; [|discriminate]. eapply fr_trans; [eapply fr_reserve; eassumption|eapply fr_place; eassumption].
  - apply (F r eq_refl). fin H. eapply fr_growing; eassumption.
  - apply (F r eq_refl). fin H. eapply fr_growing; eassumption.
  - apply (F r eq_refl). step H. step H. eapply fr_trans; [eapply fr_push_all; eassumption|eapply fr_place; eassumption].
  - apply (F r eq_refl). fin H. eapply fr_growing; eassumption.
  - apply (F r eq_refl). fin H. eapply fr_growing; eassumption.
  - apply (F r eq_refl). eapply fr_growing; eassumption.
  - apply (F r eq_refl). eapply fr_growing; eassumption.
  - apply (F r eq_refl). step H. injection H as <- _. eapply fr_reserve; eassumption.
  - apply (F r eq_refl). eapply fr_place; eassumption.
  - apply (F r eq_refl). eapply fr_place; eassumption.
  - apply (F r eq_refl). eapply fr_place; eassumption.
  - apply (F r eq_refl). eapply fr_place; eassumption.
  - apply (F r eq_refl). eapply fr_place; eassumption.
  - apply (F r eq_refl). step H. destruct (r =? r') eqn:Er; [injection H as <- _; split; auto|]. step H. eapply fr_growing; eassumption.
  - fin H. injection H as <- _. cbn [put bufs]. now rewrite (bufs_deallocate _ _ _ E).
  - fin H. injection H as <- _. cbn [put bufs]. now rewrite (bufs_deallocate _ _ _ E).
  - step H. step H. apply bufs_deallocate in E. destruct xs; injection H as <- _; cbn [put bufs]; rewrite E; [exact He|]. rewrite nth_error_app1; [exact He|]. apply nth_error_Some. congruence.
  - step H. step H. destruct (at_ A a0 i); try discriminate; injection H as <- _; exact He.
  - unfold look in H. fin H. injection H as <- _. exact He.
  - unfold look in H. fin H. injection H as <- _. exact He.
  - unfold look in H. fin H. injection H as <- _. exact He.
  - unfold look in H. fin H. injection H as <- _. exact He.
  - unfold look in H. fin H. injection H as <- _. exact He.
  - unfold look2, look in H. fin H. injection H as <- _. exact He.
  - unfold look2, look in H. fin H. injection H as <- _. exact He.
  - unfold look2, look in H. fin H. injection H as <- _. exact He.
  - unfold look2, look in H. fin H. injection H as <- _. exact He.
  - unfold look2, look in H. fin H. injection H as <- _. exact He.
Qed.
End Vmem.
