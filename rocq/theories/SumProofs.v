From Verif Require Import Base FlatModel FlatSpec FlatProofs MmProofs PagedProofs SumModel SumSpec.

Lemma upd_map {A B} (f : A -> B) i x l : upd i (f x) (map f l) = map f (upd i x l).
Proof. revert i; induction l as [|y l IH]; intros [|i]; cbn; auto. f_equal. apply IH. Qed.
Lemma idx_map {A B} (f : A -> B) i x l : nth_error l i = Some x -> idx (map f l) i = Ok (f x).
Proof. intros H. unfold idx. rewrite (map_nth_error f _ _ H). auto. Qed.

(* simulation of histories *)
Section Sim.
Variables W T O Y : Type.
Variable step : W -> O -> res (W * Y).
Variable spec : T -> O -> option (T * Y).
Variable R : W -> T -> Prop.
Hypothesis step_ok : forall w t o t' r, R w t -> spec t o = Some (t', r) -> exists w', step w o = Ok (w', r) /\ R w' t'.
Lemma runs_ok ops : forall w t t' xs, R w t -> sruns T O Y spec t ops = Some (t', xs) -> exists w', runs W O Y step w ops = Ok (w', xs) /\ R w' t'.
Proof.
  induction ops as [|o ops IH]; intros w t t' xs H E; cbn [sruns runs] in *.
  - injection E as <- <-. exists w. auto.
  - destruct (spec t o) as [(t1, x)|] eqn:E1; [|discriminate]. destruct (sruns T O Y spec t1 ops) as [(t2, ys)|] eqn:E2; [|discriminate]. injection E as <- <-.
    destruct (step_ok _ _ _ _ _ H E1) as (w1 & -> & H1). cbn [bind]. destruct (IH _ _ _ _ H1 E2) as (w2 & -> & H2). cbn [bind]. exists w2. auto.
Qed.
Lemma sruns_app ops1 ops2 : forall t t1 xs t2 ys, sruns T O Y spec t ops1 = Some (t1, xs) -> sruns T O Y spec t1 ops2 = Some (t2, ys) ->
  sruns T O Y spec t (ops1 ++ ops2) = Some (t2, xs ++ ys).
Proof.
  induction ops1 as [|o ops IH]; intros t t1 xs t2 ys E1 E2; cbn [app sruns] in *.
  - injection E1 as <- <-. auto.
  - destruct (spec t o) as [(t0, x)|]; [|discriminate]. destruct (sruns T O Y spec t0 ops) as [(t3, zs)|] eqn:E3; [|discriminate].
    injection E1 as <- <-. rewrite (IH _ _ _ _ _ E3 E2). auto.
Qed.
End Sim.

(* ---------------- variant ---------------- *)
Section V.
Variable V : Type.
Variable moved : V -> V.
Variable cmpv : cmp -> V -> V -> bool.
Variable tys : list nat.
Hypothesis nodup : NoDup tys.
Hypothesis few : length tys <= 255.
Notation state := (vstate V).

Definition enc (x : option (nat * V)) : var V := match x with None => Var None None | Some (k, y) => Var (Some k) (Some (nth k tys 0, y)) end.
Definition c1 (x : option (nat * V)) : nat := match x with None => 0 | Some _ => 1 end.
Fixpoint full (t : state) : nat := match t with [] => 0 | x :: t => c1 x + full t end.
Record VR (w : vworld V) (t : state) : Prop := {
  vr_vars : vvars w = map enc t;
  vr_idx : forall i k x, nth_error t i = Some (Some (k, x)) -> k < length tys;
  vr_cnt : vmade w = vgone w + full t
}.
Lemma full_upd t : forall i x y, nth_error t i = Some x -> full (upd i y t) + c1 x = full t + c1 y.
Proof. clear nodup few. induction t as [|z t IH]; intros [|i] x y H; cbn in *; try discriminate. { injection H as ->. lia. } specialize (IH i x y H). lia. Qed.
Lemma full_app t x : full (t ++ [x]) = full t + c1 x.
Proof. clear nodup few. induction t as [|z t IH]; cbn; lia. Qed.
Lemma index_spec t l k : index_of t l = Some k -> k < length l /\ nth k l 0 = t.
Proof.
  revert k; induction l as [|u l IH]; intros k H; cbn in *; [discriminate|]. destruct (Nat.eqb_spec t u) as [->|Hn].
  - injection H as <-. split; [lia|auto].
  - destruct (index_of t l) as [q|]; [|discriminate]. injection H as <-. destruct (IH q eq_refl). split; [lia|auto].
Qed.
Lemma index_nth k l : NoDup l -> k < length l -> index_of (nth k l 0) l = Some k.
Proof.
  revert k; induction l as [|u l IH]; intros k N H; cbn in H; [lia|]. inversion N as [|? ? N1 N2]; subst. destruct k as [|k]; cbn.
  - rewrite Nat.eqb_refl. auto.
  - destruct (Nat.eqb_spec (nth k l 0) u) as [E|E]. { destruct N1. rewrite <- E. apply nth_In. lia. } rewrite IH; auto. lia.
Qed.
Lemma elem_enc k x : k < length tys -> elem V tys (enc (Some (k, x))) = Ok (nth k tys 0, x).
Proof.
  clear nodup few. intros H. unfold elem. cbn [enc vi vst]. unfold idx. rewrite (nth_error_nth' _ 0 H). cbn [bind]. rewrite Nat.eqb_refl. auto.
Qed.
Lemma vr_put w t i x y : VR w t -> nth_error t i = Some x -> match y with Some (k, _) => k < length tys | None => True end ->
  forall m g, m = g + full (upd i y t) -> VR (VW (upd i (enc y) (map enc t)) m g) (upd i y t).
Proof.
  intros R Hx Hy m g E. split; cbn [vvars vmade vgone]; auto.
  - apply upd_map.
  - intros j k v H. rewrite nth_error_upd' in H by (apply nth_error_Some; congruence). destruct (Nat.eqb_spec i j) as [->|].
    + injection H as ->. auto.
    + eapply vr_idx; eauto.
Qed.
Lemma vr_new w t x n : VR w t -> match x with Some (k, _) => k < length tys | None => True end -> n = c1 x -> VR (vnew V w (enc x) n) (t ++ [x]).
Proof.
  intros R H ->. split; cbn [vnew vvars vmade vgone].
  - rewrite (vr_vars _ _ R), map_app. auto.
  - intros i k y E. destruct (lt_dec i (length t)) as [L|L].
    + rewrite nth_error_app1 in E by auto. eapply vr_idx; eauto.
    + rewrite nth_error_app2 in E by lia. destruct (i - length t) as [|[|q]]; try discriminate. cbn in E. injection E as ->. auto.
  - rewrite full_app, (vr_cnt _ _ R). lia.
Qed.
Lemma vdestruct_ok w t i x : VR w t -> nth_error t i = Some x ->
  vdestruct V tys w i = Ok (VW (upd i (Var (rank V x) None) (map enc t)) (vmade w) (c1 x + vgone w)).
Proof.
  clear nodup few. intros R Hx. unfold vdestruct. rewrite (vr_vars _ _ R), (idx_map enc i x t Hx). cbn [bind]. destruct x as [(k, y)|].
  - cbn [enc vi]. assert (E : elem V tys (Var (Some k) (Some (nth k tys 0, y))) = _) by (apply (elem_enc k y); eapply vr_idx; eauto). rewrite E. cbn [bind]. auto.
  - cbn [enc vi rank c1 plus]. rewrite upd_same by (apply (map_nth_error enc _ _ Hx)). rewrite <- (vr_vars _ _ R). destruct w; auto.
Qed.
Lemma build_ok w t i x k y : VR w t -> nth_error t i = Some x -> k < length tys ->
  exists w', (let* w := vdestruct V tys w i in vbuild V w i k (nth k tys 0) y) = Ok w' /\ VR w' (upd i (Some (k, y)) t).
Proof.
  intros R Hx Hk. rewrite (vdestruct_ok w t i x R Hx). cbn [bind]. unfold vbuild. cbn [vvars vmade vgone].
  assert (Li : i < length (map enc t)) by (rewrite map_length; apply nth_error_Some; congruence).
  unfold idx. rewrite nth_error_upd', Nat.eqb_refl by auto. cbn [bind]. rewrite upd_upd. eexists. split; [reflexivity|].
  change (Var (Some k) (Some (nth k tys 0, y))) with (enc (Some (k, y))). apply (vr_put w t i x); auto.
  pose proof (full_upd t i x (Some (k, y)) Hx). rewrite (vr_cnt _ _ R). cbn [c1] in *. lia.
Qed.
Lemma same_put w t i k x y : VR w t -> nth_error t i = Some (Some (k, x)) -> VR (vput V w i (enc (Some (k, y)))) (upd i (Some (k, y)) t).
Proof.
  intros R Hx. unfold vput. rewrite (vr_vars _ _ R). apply (vr_put w t i (Some (k, x))); auto.
  - eapply vr_idx; eauto.
  - pose proof (full_upd t i _ (Some (k, y)) Hx). rewrite (vr_cnt _ _ R). cbn [c1] in *. lia.
Qed.
Lemma vassign_ok w t i x ty k y rv : VR w t -> nth_error t i = Some x -> index_of ty tys = Some k -> rv = true \/ holds V t i k = false ->
  exists w', vassign V tys w i ty y rv = Ok w' /\ VR w' (upd i (Some (k, y)) t).
Proof.
  intros R Hx Hk Hr. destruct (index_spec _ _ _ Hk) as (Lk & <-). unfold vassign. rewrite Hk, (vr_vars _ _ R), (idx_map enc i x t Hx). cbn [bind].
  unfold holds in Hr. rewrite Hx in Hr. destruct x as [(q, z)|].
  - cbn [enc vi]. destruct (Nat.eqb_spec k q) as [<-|Hn].
    + destruct Hr as [->|Hr]; [|discriminate].
      assert (E : elem V tys (Var (Some k) (Some (nth k tys 0, z))) = _) by (apply (elem_enc k z); auto). rewrite E. cbn [bind andb]. rewrite Nat.eqb_refl.
      eexists. split; [reflexivity|]. apply (same_put w t i k z y); auto.
    + apply (build_ok w t i (Some (q, z))); auto.
  - cbn [enc vi]. apply (build_ok w t i None); auto.
Qed.
Lemma vtake_ok w t j k x : VR w t -> nth_error t j = Some (Some (k, x)) ->
  exists w', vtake V moved tys w j = Ok w' /\ VR w' (upd j (Some (k, moved x)) t).
Proof.
  intros R Hx. unfold vtake. rewrite (vr_vars _ _ R), (idx_map enc j _ t Hx). cbn [bind]. rewrite elem_enc by (eapply vr_idx; eauto). cbn [bind].
  eexists. split; [reflexivity|]. apply (same_put w t j k x (moved x)); auto.
Qed.
Lemma vr_tmp w t : VR w t -> forall n, VR (VW (vvars w) (n + vmade w) (n + vgone w)) t.
Proof. intros [R1 R2 R3] n. split; cbn; auto. lia. Qed.
Lemma vget_some (t : state) i x : nth_error t i = Some x -> i < length t.
Proof. intros H. apply nth_error_Some. congruence. Qed.
Lemma vsetx_some t i x t' r : vsetx V t i x = Some (t', r) -> (exists y, nth_error t i = Some y) /\ t' = upd i x t /\ r = VNone.
Proof.
  unfold vsetx. intros H. apply guard_some in H as (H & E). injection E as <- <-. apply Nat.ltb_lt in H.
  destruct (nth_error t i) as [y|] eqn:Q; [eauto|]. apply nth_error_None in Q. lia.
Qed.
Lemma upd_comm {A} (l : list A) : forall i j x y, i <> j -> upd i x (upd j y l) = upd j y (upd i x l).
Proof. induction l as [|z l IH]; intros [|i] [|j] x y H; cbn; auto; try congruence. f_equal. apply IH. congruence. Qed.

Lemma var_step_ok w t o t' r : VR w t -> var_spec V moved cmpv tys t o = Some (t', r) ->
  exists w', var_step V moved cmpv tys w o = Ok (w', r) /\ VR w' t'.
Proof.
  intros R E. destruct o; cbn [var_spec var_step] in *.
  - injection E as <- <-. eexists. split; [reflexivity|]. apply (vr_new w t None 0); auto.
  - destruct (index_of t0 tys) as [k|] eqn:Ek; [|discriminate]. injection E as <- <-. destruct (index_spec _ _ _ Ek) as (L & <-).
    eexists. split; [reflexivity|]. apply (vr_new w t (Some (k, x)) 1); auto.
  - unfold vfrom. rewrite (vr_vars _ _ R). destruct (nth_error t j) as [[(k, x)|]|] eqn:Ej; [| |discriminate]; injection E as <- <-; rewrite (idx_map enc j _ t Ej); cbn [bind].
    + change (vi (enc (Some (k, x)))) with (Some k). cbn match. rewrite elem_enc by (eapply vr_idx; eauto). cbn [bind vmute]. eexists. split; [reflexivity|].
      apply (vr_new w t (Some (k, x)) 1); auto. eapply vr_idx; eauto.
    + cbn [enc vi]. exists w. auto.
  - unfold vfrom. rewrite (vr_vars _ _ R). destruct (nth_error t j) as [[(k, x)|]|] eqn:Ej; [| |discriminate]; injection E as <- <-; rewrite (idx_map enc j _ t Ej); cbn [bind].
    + change (vi (enc (Some (k, x)))) with (Some k). cbn match. rewrite elem_enc by (eapply vr_idx; eauto). cbn [bind vmute].
      destruct (vtake_ok w t j k x R Ej) as (w1 & -> & R1). cbn [bind]. eexists. split; [reflexivity|].
      apply (vr_new w1 _ (Some (k, x)) 1); auto. exact (vr_idx _ _ R _ _ _ Ej).
    + cbn [enc vi]. exists w. auto.
  - destruct (index_of t0 tys) as [k|] eqn:Ek; [|discriminate]. apply vsetx_some in E as ((y & Hy) & -> & ->).
    destruct (vassign_ok w t i y t0 k x true R Hy Ek (or_introl eq_refl)) as (w' & -> & R'). exists w'. auto.
  - destruct (index_of t0 tys) as [k|] eqn:Ek; [|discriminate]. destruct (holds V t i k) eqn:Eh; [discriminate|]. apply vsetx_some in E as ((y & Hy) & -> & ->).
    destruct (vassign_ok w t i y t0 k x false R Hy Ek (or_intror Eh)) as (w' & -> & R'). exists w'. auto.
  - unfold vfrom. rewrite (vr_vars _ _ R). destruct (nth_error t j) as [[(k, x)|]|] eqn:Ej; [| |discriminate]; rewrite (idx_map enc j _ t Ej); cbn [bind].
    + change (vi (enc (Some (k, x)))) with (Some k). cbn match. pose proof (vr_idx _ _ R _ _ _ Ej) as Lk. rewrite elem_enc by auto. cbn [bind].
      destruct (negb (i =? j) && holds V t i k) eqn:Eh; [discriminate|]. apply vsetx_some in E as ((y & Hy) & -> & ->).
      destruct (Nat.eqb_spec i j) as [->|Hn].
      * rewrite Ej in Hy. injection Hy as <-. unfold vassign. rewrite (index_nth k tys nodup Lk), (vr_vars _ _ R), (idx_map enc j _ t Ej). cbn [bind].
        change (vi (enc (Some (k, x)))) with (Some k). cbn match. rewrite Nat.eqb_refl, elem_enc by auto. cbn [bind andb vmute].
        exists w. rewrite upd_same by auto. auto.
      * cbn [negb andb] in Eh.
        destruct (vassign_ok w t i y _ k x false R Hy (index_nth k tys nodup Lk) (or_intror Eh)) as (w' & -> & R'). exists w'. auto.
    + injection E as <- <-. cbn [enc vi]. exists w. auto.
  - unfold vfrom. rewrite (vr_vars _ _ R). destruct (nth_error t j) as [[(k, x)|]|] eqn:Ej; [| |discriminate]; rewrite (idx_map enc j _ t Ej); cbn [bind].
    + change (vi (enc (Some (k, x)))) with (Some k). cbn match. pose proof (vr_idx _ _ R _ _ _ Ej) as Lk. rewrite elem_enc by auto. cbn [bind].
      apply guard_some in E as (C & E). injection E as <- <-. apply andb_prop in C as (C1 & C2). apply Nat.ltb_lt in C2. destruct (Nat.eqb_spec i j) as [->|Hn]; [discriminate|].
      destruct (nth_error t i) as [y|] eqn:Hy; [|apply nth_error_None in Hy; lia].
      destruct (vassign_ok w t i y _ k x true R Hy (index_nth k tys nodup Lk) (or_introl eq_refl)) as (w1 & -> & R1). cbn [bind].
      destruct (vtake_ok w1 _ j k x R1) as (w2 & -> & R2). { rewrite nth_error_upd' by auto. destruct (Nat.eqb_spec i j); [congruence|auto]. }
      exists w2. auto.
    + injection E as <- <-. cbn [enc vi]. exists w. auto.
  - destruct (Nat.ltb_spec k (length tys)) as [L|L]; [|discriminate]. apply vsetx_some in E as ((y & Hy) & -> & ->).
    unfold vemplace, idx at 1. rewrite (nth_error_nth' _ 0 L). cbn [bind]. destruct (build_ok w t i y k x R Hy L) as (w' & -> & R'). exists w'. auto.
  - discriminate.
  - destruct (nth_error t i) as [[(k, x)|]|] eqn:Ei; try discriminate. destruct (nth_error t j) as [[(l, y)|]|] eqn:Ej; try discriminate. injection E as <- <-.
    pose proof (vr_idx _ _ R _ _ _ Ei) as Lk. pose proof (vr_idx _ _ R _ _ _ Ej) as Ll.
    unfold vswap. rewrite (vr_vars _ _ R), (idx_map enc i _ t Ei). cbn [bind]. rewrite (idx_map enc j _ t Ej). cbn [bind].
    change (vi (enc (Some (k, x)))) with (Some k). change (vi (enc (Some (l, y)))) with (Some l). cbn [same_idx].
    destruct (Nat.eqb_spec k l) as [<-|Hn].
    + rewrite !elem_enc by auto. cbn [bind]. eexists. split; [reflexivity|].
      assert (R1 : VR (vput V w i (enc (Some (k, y)))) (upd i (Some (k, y)) t)) by (apply (same_put w t i k x y); auto).
      destruct (Nat.eq_dec i j) as [->|Hij].
      * rewrite Ei in Ej. injection Ej as ->. apply (same_put _ _ j k y y R1). rewrite nth_error_upd', Nat.eqb_refl by (eapply vget_some; eauto). auto.
      * apply (same_put _ _ j k y x R1). rewrite nth_error_upd' by (eapply vget_some; eauto). destruct (Nat.eqb_spec i j); [congruence|auto].
    + assert (Hij : i <> j). { intros ->. rewrite Ei in Ej. injection Ej as -> _. congruence. }
      rewrite !elem_enc by auto. cbn [bind]. destruct (vtake_ok w t j l y R Ej) as (w1 & -> & R1). cbn [bind].
      pose proof (vr_tmp w1 _ R1 1) as R1'. cbn [plus] in R1'.
      assert (Lj : j < length t) by (eapply vget_some; eauto). assert (Li : i < length t) by (eapply vget_some; eauto).
      assert (R1s : VR (VW (vvars w1) (S (vmade w1)) (S (vgone w1))) (upd j (Some (l, moved y)) t)) by exact R1'.
      (* tmp is alive: count it as destroyed already *)
      assert (F : forall u i0 ty z v w'', vassign V tys (VW (vvars u) (vmade u) (S (vgone u))) i0 ty z v = Ok w'' ->
                  exists w', vassign V tys u i0 ty z v = Ok w' /\ w'' = VW (vvars w') (vmade w') (S (vgone w'))).
      { clear. intros u i0 ty z v w'' H. unfold vassign, vdestruct, vbuild, vput in *. destruct (index_of ty tys); [|discriminate]. cbn [vvars vmade vgone] in *.
        destruct (idx (vvars u) i0) as [a| | |] eqn:Ea; try discriminate. cbn [bind] in *.
        destruct (match vi a with Some k' => n =? k' | None => false end).
        - destruct (elem V tys a) as [(p, q)| | |]; try discriminate. cbn [bind] in *. injection H as <-. eexists. split; [reflexivity|]. destruct (v && (p =? ty)); auto.
        - destruct (vi a).
          + destruct (elem V tys a); try discriminate. cbn [bind vvars vmade vgone] in *. destruct (idx (upd _ _ _) i0); try discriminate. cbn [bind] in *. injection H as <-. eexists. split; reflexivity.
          + cbn [bind vvars vmade vgone] in *. rewrite Ea in *. cbn [bind] in *. injection H as <-. eexists. split; reflexivity. }
      assert (G : forall u i0 w'', vtake V moved tys (VW (vvars u) (vmade u) (S (vgone u))) i0 = Ok w'' ->
                  exists w', vtake V moved tys u i0 = Ok w' /\ w'' = VW (vvars w') (vmade w') (S (vgone w'))).
      { clear. intros u i0 w'' H. unfold vtake, vput in *. cbn [vvars vmade vgone] in *. destruct (idx (vvars u) i0) as [a| | |]; try discriminate. cbn [bind] in *.
        destruct (elem V tys a) as [(p, q)| | |]; try discriminate. cbn [bind] in *. injection H as <-. eexists. split; reflexivity. }
      destruct (vassign_ok _ _ j (Some (l, moved y)) (nth k tys 0) k x true R1s) with (2 := index_nth k tys nodup Lk) as (w2 & E2 & R2); auto.
      { rewrite nth_error_upd', Nat.eqb_refl by auto. auto. }
      destruct (F (VW (vvars w1) (S (vmade w1)) (vgone w1)) _ _ _ _ _ E2) as (w2' & -> & ->). cbn [bind]. rewrite upd_upd in R2.
      destruct (vtake_ok _ _ i k x R2) as (w3 & E3 & R3). { rewrite nth_error_upd' by auto. destruct (Nat.eqb_spec j i); [congruence|auto]. }
      destruct (G _ _ _ E3) as (w3' & -> & ->). cbn [bind].
      destruct (vassign_ok _ _ i (Some (k, moved x)) (nth l tys 0) l y true R3) with (2 := index_nth l tys nodup Ll) as (w4 & E4 & R4); auto.
      { rewrite nth_error_upd', Nat.eqb_refl by (rewrite upd_length; auto). auto. }
      destruct (F _ _ _ _ _ _ E4) as (w4' & -> & ->). cbn [bind]. eexists. split; [reflexivity|].
      rewrite upd_upd in R4. rewrite upd_comm by auto. exact R4.
  - apply vsetx_some in E as ((y & Hy) & -> & ->). rewrite (vdestruct_ok w t i y R Hy). cbn [bind vvars].
    unfold idx. rewrite nth_error_upd', Nat.eqb_refl by (rewrite map_length; eapply vget_some; eauto). cbn [bind]. eexists. split; [reflexivity|].
    unfold vput. cbn [vvars vmade vgone]. rewrite upd_upd. apply (vr_put w t i y None); auto.
    pose proof (full_upd t i y None Hy). rewrite (vr_cnt _ _ R). cbn [c1] in *. lia.
  - destruct (nth_error t i) as [x|] eqn:Ei; [|discriminate]. injection E as <- <-. rewrite (vr_vars _ _ R), (idx_map enc i x t Ei). cbn [bind]. exists w. split; auto.
    destruct x as [(k, y)|]; auto.
  - rewrite (vr_vars _ _ R). destruct (nth_error t i) as [[(k, x)|]|] eqn:Ei; [| |discriminate]; injection E as <- <-; rewrite (idx_map enc i _ t Ei); cbn [bind].
    + change (vi (enc (Some (k, x)))) with (Some k). cbn match. rewrite elem_enc by (eapply vr_idx; eauto). exists w. auto.
    + exists w. auto.
  - unfold vcmp. rewrite (vr_vars _ _ R). destruct (nth_error t i) as [x|] eqn:Ei; [|discriminate].
    destruct (nth_error t j) as [y|] eqn:Ej; [|destruct x as [(k, x)|]; discriminate]. rewrite (idx_map enc i _ t Ei). cbn [bind]. rewrite (idx_map enc j _ t Ej). cbn [bind].
    assert (K : forall a b, match a with Some k => k < 255 | None => True end -> match b with Some k => k < 255 | None => True end -> same_idx a b = false ->
                 cmpn c (inum a) (inum b) = rank_cmp c a b).
    { clear. intros a b Ha Hb S. unfold rank_cmp. rewrite S. destruct a as [k|], b as [l|]; cbn [same_idx] in S; try discriminate; cbn [inum];
        destruct c; cbn [cmpn negb orb]; rewrite ?Bool.orb_false_r;
        repeat match goal with |- context[?p =? ?q] => destruct (Nat.eqb_spec p q) | |- context[?p <? ?q] => destruct (Nat.ltb_spec p q) | |- context[?p <=? ?q] => destruct (Nat.leb_spec p q) end;
        auto; try lia; subst; try (rewrite Nat.eqb_refl in S; discriminate);
        (apply Nat.eqb_neq in S; lia). }
    assert (B : forall i0 z, nth_error t i0 = Some z -> match vi (enc z) with Some k => k < 255 | None => True end /\ vi (enc z) = rank V z).
    { intros i0 [(q, z)|] Hq; cbn; split; auto. pose proof (vr_idx _ _ R _ _ _ Hq). lia. }
    destruct (B _ _ Ei) as (B1 & B1'). destruct (B _ _ Ej) as (B2 & B2'). exists w.
    destruct (same_idx (vi (enc x)) (vi (enc y))) eqn:S.
    + rewrite B1', B2' in S. destruct x as [(k, x)|], y as [(l, y)|]; cbn [rank same_idx] in S; try discriminate. injection E as <- <-.
      rewrite !elem_enc by (eapply vr_idx; eauto). cbn [bind]. rewrite S. auto.
    + rewrite K by auto. cbn [bind]. rewrite B1', B2' in *. destruct x as [(k, x)|], y as [(l, y)|]; cbn [rank same_idx] in S; try discriminate; injection E as <- <-; auto.
      rewrite S. auto.
Qed.
End V.

Lemma vr_init V tys : VR V tys (VW [] 0 0) [].
Proof. split; auto. intros [|i] k x H; discriminate. Qed.
(* destroying everything *)
Lemma vdestroy_spec V moved cmpv tys m : forall k (t : vstate V), k + m = length t -> (forall i x, i < k -> nth_error t i = Some x -> x = None) ->
  exists xs t', sruns _ _ _ (var_spec V moved cmpv tys) t (map VDestroy (seq k m)) = Some (t', xs) /\ forall i x, nth_error t' i = Some x -> x = None.
Proof.
  induction m as [|m IH]; intros k t L Z; cbn [seq map sruns].
  - exists [], t. split; auto. intros i x H. apply (Z i); auto. assert (i < length t) by (apply nth_error_Some; congruence). lia.
  - cbn [var_spec]. unfold vsetx, guard. destruct (Nat.ltb_spec k (length t)); [|lia].
    destruct (IH (S k) (upd k None t)) as (xs & t' & -> & Z').
    + rewrite upd_length. lia.
    + intros i x Hi H'. rewrite nth_error_upd' in H' by auto. destruct (Nat.eqb_spec k i); [congruence|]. apply (Z i); auto. lia.
    + eauto.
Qed.
Lemma full_none V (t : vstate V) : (forall i x, nth_error t i = Some x -> x = None) -> full V t = 0.
Proof.
  induction t as [|x t IH]; intros H; auto. cbn. rewrite IH by (intros i y Hy; exact (H (S i) y Hy)). rewrite (H 0 x eq_refl). auto.
Qed.
Lemma var_history V moved cmpv tys : NoDup tys -> length tys <= 15 ->
  forall ops t xs, sruns _ _ _ (var_spec V moved cmpv tys) [] ops = Some (t, xs) ->
  exists w, runs _ _ _ (var_step V moved cmpv tys) (VW [] 0 0) ops = Ok (w, xs) /\
    exists w' ys, runs _ _ _ (var_step V moved cmpv tys) (VW [] 0 0) (ops ++ map VDestroy (seq 0 (length t))) = Ok (w', ys) /\ vmade w' = vgone w'.
Proof.
  intros N L ops t xs E. assert (L' : length tys <= 255) by lia.
  destruct (runs_ok _ _ _ _ _ _ (VR V tys) (var_step_ok V moved cmpv tys N L') ops _ _ _ _ (vr_init V tys) E) as (w & Ew & R). exists w. split; auto.
  destruct (vdestroy_spec V moved cmpv tys (length t) 0 t eq_refl) as (ys & t' & E2 & Z). { intros; lia. }
  pose proof (sruns_app _ _ _ _ _ _ _ _ _ _ _ E E2) as E3.
  destruct (runs_ok _ _ _ _ _ _ (VR V tys) (var_step_ok V moved cmpv tys N L') _ _ _ _ _ (vr_init V tys) E3) as (w' & Ew' & R').
  exists w', (xs ++ ys). split; auto. rewrite (vr_cnt _ _ _ _ R'), (full_none V t' Z). lia.
Qed.

(* ---------------- optional ---------------- *)
Section O.
Variable V : Type.
Variable moved : V -> V.
Variable of_bool : bool -> V.
Definition omatch1 (o : opt V) (x : option V) : Prop := match x with Some v => o = Opt true (Some v) | None => ov o = false end.
Definition OR (w : oworld V) (t : ostate V) : Prop := Forall2 omatch1 (oopts w) t.
Lemma f2_nth {A B} (P : A -> B -> Prop) l m i y : Forall2 P l m -> nth_error m i = Some y -> exists x, nth_error l i = Some x /\ P x y.
Proof. intros H. revert i; induction H; intros [|i] E; cbn in *; try discriminate; eauto. injection E as ->. eauto. Qed.
Lemma f2_upd {A B} (P : A -> B -> Prop) l m i x y : Forall2 P l m -> P x y -> Forall2 P (upd i x l) (upd i y m).
Proof. intros H Hp. revert i; induction H; intros [|i]; cbn; auto. Qed.
Lemma f2_len {A B} (P : A -> B -> Prop) l m : Forall2 P l m -> length l = length m.
Proof. intros H; induction H; cbn; auto. Qed.
Lemma f2_snoc {A B} (P : A -> B -> Prop) l m x y : Forall2 P l m -> P x y -> Forall2 P (l ++ [x]) (m ++ [y]).
Proof. intros H Hp. induction H; cbn; auto. Qed.
Lemma ocopy_ok w t i j x mv : OR w t -> i < length t -> nth_error t j = Some x -> mv = false \/ i <> j ->
  exists w', ocopy V moved w i j mv = Ok w' /\ OR w' (if mv then upd j (option_map moved x) (upd i x t) else upd i x t).
Proof.
  intros R Hi Hj Hm. unfold ocopy. destruct (nth_error t i) as [y|] eqn:Ei; [|apply nth_error_None in Ei; lia].
  destruct (f2_nth _ _ _ _ _ R Ei) as (a & Ha & Ma). destruct (f2_nth _ _ _ _ _ R Hj) as (b & Hb & Mb).
  rewrite (idx_some _ _ _ Ha). cbn [bind]. rewrite (idx_some _ _ _ Hb). cbn [bind]. destruct x as [v|]; cbn [omatch1] in Mb.
  - rewrite Mb. cbn [ov oget ost bind]. eexists. split; [reflexivity|]. destruct mv; cbn [option_map]; unfold OR; cbn [oopts].
    + apply f2_upd; [|reflexivity]. apply f2_upd; auto. reflexivity.
    + apply f2_upd; auto. reflexivity.
  - rewrite Mb. eexists. split; [reflexivity|]. unfold OR. cbn [oopts]. assert (F : Forall2 omatch1 (upd i (Opt false (ost a)) (oopts w)) (upd i None t)) by (apply f2_upd; auto; reflexivity).
    destruct mv; auto. cbn [option_map]. destruct Hm as [Hm|Hm]; [discriminate|].
    rewrite (upd_same (upd i None t) j None); auto. rewrite nth_error_upd' by auto. destruct (Nat.eqb_spec i j); [congruence|auto].
Qed.
Lemma opt_step_ok w t o t' r : OR w t -> opt_spec V moved t o = Some (t', r) -> exists w', opt_step V moved of_bool w o = Ok (w', r) /\ OR w' t'.
Proof.
  intros R E. destruct o; cbn [opt_spec opt_step] in *.
  - injection E as <- <-. eexists. split; [reflexivity|]. apply f2_snoc; auto. reflexivity.
  - injection E as <- <-. eexists. split; [reflexivity|]. apply f2_snoc; auto. reflexivity.
  - destruct (nth_error t j) as [x|] eqn:Ej; [|discriminate]. injection E as <- <-. rewrite (f2_len _ _ _ R).
    assert (R1 : OR (onew V w (Opt false None) 0) (t ++ [None])) by (apply f2_snoc; auto; reflexivity).
    destruct (ocopy_ok _ _ (length t) j x false R1) as (w' & E' & R'); auto.
    { rewrite app_length. cbn. lia. } { rewrite nth_error_app1; auto. apply nth_error_Some. congruence. }
    rewrite E'. cbn [bind]. exists w'. split; auto. replace (t ++ [x]) with (upd (length t) x (t ++ [None])); auto.
    clear. induction t; cbn; auto. f_equal. auto.
  - discriminate.
  - destruct (nth_error t j) as [x|] eqn:Ej; [|discriminate]. injection E as <- <-. rewrite (f2_len _ _ _ R).
    assert (Lj : j < length t) by (apply nth_error_Some; congruence).
    assert (R1 : OR (onew V w (Opt false None) 0) (t ++ [None])) by (apply f2_snoc; auto; reflexivity).
    destruct (ocopy_ok _ _ (length t) j x true R1) as (w' & E' & R'); auto.
    { rewrite app_length. cbn. lia. } { rewrite nth_error_app1; auto. } { right. lia. }
    rewrite E'. cbn [bind]. exists w'. split; auto. replace (upd j (option_map moved x) t ++ [x]) with (upd j (option_map moved x) (upd (length t) x (t ++ [None]))); auto.
    assert (U : upd (length t) x (t ++ [None]) = t ++ [x]) by (clear; induction t; cbn; auto; f_equal; auto). rewrite U.
    apply upd_app1. auto.
  - destruct (nth_error t j) as [x|] eqn:Ej; [|discriminate]. apply guard_some in E as (C & E). injection E as <- <-. apply Nat.ltb_lt in C.
    destruct (ocopy_ok w t i j x false R C Ej) as (w' & -> & R'); auto. exists w'. auto.
  - destruct (nth_error t j) as [x|] eqn:Ej; [|discriminate]. apply guard_some in E as (C & E). injection E as <- <-. apply andb_prop in C as (C1 & C2). apply Nat.ltb_lt in C2.
    destruct (Nat.eqb_spec i j); [discriminate|]. destruct (ocopy_ok w t i j x true R C2 Ej) as (w' & -> & R'); auto. exists w'. auto.
  - apply guard_some in E as (C & E). injection E as <- <-. apply Nat.ltb_lt in C. destruct (nth_error t i) as [y|] eqn:Ei; [|apply nth_error_None in Ei; lia].
    destruct (f2_nth _ _ _ _ _ R Ei) as (a & Ha & Ma). rewrite (idx_some _ _ _ Ha). cbn [bind]. eexists. split; [reflexivity|]. apply f2_upd; auto. reflexivity.
  - destruct (nth_error t i) as [y|] eqn:Ei; [|discriminate]. injection E as <- <-. destruct (f2_nth _ _ _ _ _ R Ei) as (a & Ha & Ma). rewrite (idx_some _ _ _ Ha). cbn [bind].
    exists w. split; auto. destruct y; cbn [omatch1] in Ma; rewrite Ma; auto.
  - destruct (nth_error t i) as [[y|]|] eqn:Ei; [| |discriminate]; injection E as <- <-; destruct (f2_nth _ _ _ _ _ R Ei) as (a & Ha & Ma); rewrite (idx_some _ _ _ Ha); cbn [bind];
      cbn [omatch1] in Ma; rewrite Ma; exists w; auto.
  - destruct (nth_error t i) as [[y|]|] eqn:Ei; try discriminate. injection E as <- <-. destruct (f2_nth _ _ _ _ _ R Ei) as (a & Ha & Ma). rewrite (idx_some _ _ _ Ha). cbn [bind].
    cbn [omatch1] in Ma. rewrite Ma. exists w. auto.
Qed.
Lemma opt_history ops t xs : sruns _ _ _ (opt_spec V moved) [] ops = Some (t, xs) ->
  exists w, runs _ _ _ (opt_step V moved of_bool) (OW [] 0 0) ops = Ok (w, xs).
Proof.
  intros E. destruct (runs_ok _ _ _ _ _ _ OR opt_step_ok ops (OW [] 0 0) [] _ _ (Forall2_nil _) E) as (w & Ew & _). eauto.
Qed.
End O.

(* ---------------- unique_ptr ---------------- *)
Section U.
Variable V : Type.
Definition uenc (p : upt) : uptr := match p with Null => U None false | Owns a => U (Some a) true | Points a => U (Some a) false end.
Definition o1 (p : upt) (a : nat) : nat := if owner a p then 1 else 0.
Fixpoint owns (ps : list upt) (a : nat) : nat := match ps with [] => 0 | p :: ps => o1 p a + owns ps a end.
Definition is_alive (h : list (hobj V)) (a : nat) : nat := match nth_error h a with Some x => alive1 V x | None => 0 end.
Record UR (w : uworld V) (t : ustate V) : Prop := {
  ur_heap : uheap w = fst t;
  ur_ptrs : uptrs w = map uenc (snd t);
  ur_own : forall a, owns (snd t) a <= is_alive (fst t) a
}.
Lemma owns_upd ps : forall i p q a, nth_error ps i = Some p -> owns (upd i q ps) a + o1 p a = owns ps a + o1 q a.
Proof. induction ps as [|z ps IH]; intros [|i] p q a H; cbn in *; try discriminate. { injection H as ->. lia. } specialize (IH i p q a H). lia. Qed.
Lemma owns_app ps p a : owns (ps ++ [p]) a = owns ps a + o1 p a.
Proof. induction ps; cbn; lia. Qed.
Lemma owns_in ps : forall i p a, nth_error ps i = Some p -> o1 p a <= owns ps a.
Proof. induction ps as [|z ps IH]; intros [|i] p a H; cbn in *; try discriminate. { injection H as ->. lia. } specialize (IH i p a H). lia. Qed.
Lemma alive_app h x a : is_alive (h ++ [x]) a = is_alive h a + (if a =? length h then alive1 V x else 0).
Proof.
  unfold is_alive. destruct (lt_dec a (length h)) as [L|L].
  - rewrite nth_error_app1 by auto. destruct (Nat.eqb_spec a (length h)); [lia|]. lia.
  - rewrite nth_error_app2 by lia. rewrite (proj2 (nth_error_None h a)) by lia. destruct (Nat.eqb_spec a (length h)) as [->|Hn].
    + rewrite Nat.sub_diag. cbn. auto.
    + destruct (a - length h) as [|[|q]] eqn:Q; cbn; auto. lia.
Qed.
Lemma alive_upd h i x a : i < length h -> is_alive (upd i x h) a = if i =? a then alive1 V x else is_alive h a.
Proof. intros H. unfold is_alive. rewrite nth_error_upd' by auto. destruct (i =? a); auto. Qed.
Lemma owns_none ps a : existsb (owner a) ps = false -> owns ps a = 0.
Proof. induction ps as [|p ps IH]; cbn; auto. intros H. apply Bool.orb_false_iff in H as (H1 & H2). unfold o1. rewrite H1, IH; auto. Qed.
Lemma o1_self a : o1 (Owns a) a = 1. Proof. unfold o1. cbn. rewrite Nat.eqb_refl. auto. Qed.

(* dropping what pointer i holds and putting q there, where q owns nothing that it did not own before *)
Lemma drop_own h ps i p : nth_error ps i = Some p -> (forall a, owns ps a <= is_alive h a) -> forall a, owns (upd i Null ps) a <= is_alive (drop V h p) a.
Proof.
  intros Hp Ho a. pose proof (owns_upd ps i p Null a Hp) as E. pose proof (Ho a) as Ha. change (o1 Null a) with 0 in E. destruct p as [|b|b]; cbn [drop].
  - lia.
  - assert (Hb : b < length h). { specialize (Ho b). pose proof (owns_in ps i _ b Hp) as Q. rewrite o1_self in Q. unfold is_alive in Ho.
      apply nth_error_Some. destruct (nth_error h b); congruence || (cbn in Ho; lia). }
    rewrite alive_upd by auto. destruct (Nat.eqb_spec b a) as [->|Hn]; [|lia].
    rewrite o1_self in E. cbn [alive1]. assert (is_alive h a <= 1). { unfold is_alive. destruct (nth_error h a) as [[]|]; cbn; lia. } lia.
  - lia.
Qed.
Lemma ureset_ok w t i p : UR w t -> nth_error (snd t) i = Some p -> exists w', ureset V w i = Ok w' /\
  match p with Points _ => w' = w | _ => UR w' (drop V (fst t) p, upd i Null (snd t)) end.
Proof.
  intros R Hp. unfold ureset. rewrite (ur_ptrs _ _ R), (idx_map uenc i p _ Hp). cbn [bind].
  pose proof (drop_own (fst t) (snd t) i p Hp (ur_own _ _ R)) as D. destruct p as [|a|a]; cbn [uenc uself uel].
  - exists w. split; auto. cbn [drop] in *. rewrite upd_same in * by auto. destruct R; split; auto.
  - pose proof (ur_own _ _ R a) as Q. pose proof (owns_in _ _ _ a Hp) as Q2. rewrite o1_self in Q2. unfold is_alive in Q. rewrite (ur_heap _ _ R).
    destruct (nth_error (fst t) a) as [[x|]|] eqn:Ea; cbn in Q; try lia. rewrite (idx_some _ _ _ Ea). cbn [bind]. eexists. split; [reflexivity|].
    split; cbn [uheap uptrs fst snd drop]; auto. apply (upd_map uenc i Null).
  - exists w. auto.
Qed.
Lemma uput_ok w t i q p : UR w t -> nth_error (snd t) i = Some p -> (forall a, o1 q a <= o1 p a) -> UR (uput V w i (uenc q)) (fst t, upd i q (snd t)).
Proof.
  intros [R1 R2 R3] Hp Hq. split; cbn [uput uheap uptrs fst snd]; auto.
  - rewrite R2. apply upd_map.
  - intros a. pose proof (owns_upd (snd t) i p q a Hp). specialize (Hq a). specialize (R3 a). lia.
Qed.
Lemma umove_ok w t i j p q : UR w t -> i <> j -> nth_error (snd t) i = Some p -> nth_error (snd t) j = Some q ->
  exists w', umove V w i j = Ok w' /\ UR w' (drop V (fst t) p, upd j Null (upd i q (snd t))).
Proof.
  intros R Hn Hp Hq. unfold umove. destruct (ureset_ok w t i p R Hp) as (w1 & -> & H1). cbn [bind].
  assert (Li : i < length (snd t)) by (apply nth_error_Some; congruence). assert (Lj : j < length (snd t)) by (apply nth_error_Some; congruence).
  assert (P1 : exists b, uptrs w1 = upd i b (map uenc (snd t)) /\ uheap w1 = drop V (fst t) p).
  { destruct p; [destruct H1 as [A B _]; exists (uenc Null); cbn [fst snd] in *; rewrite A, B, <- upd_map; auto
               | destruct H1 as [A B _]; exists (uenc Null); cbn [fst snd] in *; rewrite A, B, <- upd_map; auto|].
    subst w1. exists (uenc (Points a)). rewrite upd_same by (apply (map_nth_error uenc _ _ Hp)). destruct R; auto. }
  destruct P1 as (b & P1 & P2). unfold idx. rewrite P1, nth_error_upd' by (rewrite map_length; auto). destruct (Nat.eqb_spec i j); [congruence|].
  rewrite (map_nth_error uenc _ _ Hq). cbn [bind]. eexists. split; [reflexivity|]. split; cbn [uput uheap uptrs fst snd]; auto.
  - rewrite P1, upd_upd. rewrite (upd_map uenc i q). exact (upd_map uenc j Null _).
  - intros a. pose proof (drop_own (fst t) (snd t) i p Hp (ur_own _ _ R) a) as D. pose proof (owns_upd (snd t) i p Null a Hp) as U1.
    pose proof (owns_upd (snd t) i p q a Hp) as U2.
    assert (Hq' : nth_error (upd i q (snd t)) j = Some q). { rewrite nth_error_upd' by auto. destruct (Nat.eqb_spec i j); [congruence|auto]. }
    pose proof (owns_upd _ j q Null a Hq') as U3. change (o1 Null a) with 0 in *. lia.
Qed.
Lemma uptr_step_ok w t o t' r : UR w t -> uptr_spec V t o = Some (t', r) -> exists w', uptr_step V w o = Ok (w', r) /\ UR w' t'.
Proof.
  intros R E. destruct t as (h, ps). assert (H0 : uheap w = h) by apply (ur_heap _ _ R). assert (P0 : uptrs w = map uenc ps) by apply (ur_ptrs _ _ R).
  pose proof (ur_own _ _ R) as O0. cbn [fst snd] in O0. destruct o; cbn [uptr_spec uptr_step] in *.
  - injection E as <- <-. eexists. split; [reflexivity|]. split; cbn [uheap uptrs fst snd].
    + congruence.
    + rewrite map_app, P0, H0. auto.
    + intros a. rewrite owns_app, alive_app. specialize (O0 a). unfold o1. cbn [owner alive1]. destruct (a =? length h); lia.
  - injection E as <- <-. eexists. split; [reflexivity|]. split; cbn [uheap uptrs fst snd]; auto.
    + congruence.
    + intros a. rewrite alive_app. specialize (O0 a). lia.
  - destruct (nth_error h a) as [[x|]|] eqn:Ea; try discriminate. apply guard_some in E as (C & E). injection E as <- <-.
    eexists. split; [reflexivity|]. split; cbn [uheap uptrs fst snd]; auto.
    + rewrite map_app, P0. destruct own; auto.
    + intros b. rewrite owns_app. specialize (O0 b). destruct own; cbn [negb orb] in C; [|unfold o1; cbn; lia].
      unfold o1. cbn [owner]. destruct (Nat.eqb_spec b a) as [->|]; [|lia]. apply Bool.negb_true_iff in C. rewrite owns_none by auto.
      unfold is_alive. rewrite Ea. auto.
  - injection E as <- <-. eexists. split; [reflexivity|]. split; cbn [uheap uptrs fst snd]; auto.
    + rewrite map_app, P0. auto.
    + intros a. rewrite owns_app. unfold o1. cbn. specialize (O0 a). lia.
  - destruct (nth_error ps j) as [q|] eqn:Ej; [|discriminate]. injection E as <- <-. assert (Lj : j < length ps) by (apply nth_error_Some; congruence).
    assert (R1 : UR (UW (uheap w) (uptrs w ++ [U None false])) (h, ps ++ [Null])).
    { split; cbn [uheap uptrs fst snd]; auto. - rewrite map_app, P0. auto. - intros a. rewrite owns_app. unfold o1. cbn. specialize (O0 a). lia. }
    rewrite P0, map_length.
    assert (HP0 : uptrs w = map uenc ps) by auto. rewrite <- HP0.
    destruct (umove_ok _ _ (length ps) j Null q R1) as (w' & E' & R').
    { lia. } { cbn [snd]. rewrite nth_error_app2, Nat.sub_diag by lia. auto. } { cbn [snd]. rewrite nth_error_app1; auto. }
    rewrite E'. cbn [bind]. exists w'. split; auto. cbn [fst snd drop] in R'.
    assert (Uq : upd (length ps) q (ps ++ [Null]) = ps ++ [q]) by (clear; induction ps; cbn; auto; f_equal; auto). rewrite Uq in R'.
    rewrite upd_app1 in R' by auto. auto.
  - destruct (nth_error ps i) as [p|] eqn:Ei; [|discriminate]. destruct (nth_error ps j) as [q|] eqn:Ej; [|discriminate].
    apply guard_some in E as (C & E). injection E as <- <-. destruct (Nat.eqb_spec i j); [discriminate|].
    destruct (umove_ok w (h, ps) i j p q R n Ei Ej) as (w' & -> & R'). exists w'. auto.
  - destruct (nth_error ps i) as [p|] eqn:Ei; [|discriminate]. destruct (ureset_ok w (h, ps) i p R Ei) as (w' & -> & R'). cbn [bind]. exists w'.
    destruct p; [| |discriminate]; injection E as <- <-; auto.
  - destruct (nth_error ps i) as [p|] eqn:Ei; [|discriminate]. injection E as <- <-. destruct (ureset_ok w (h, ps) i p R Ei) as (w1 & -> & R'). cbn [bind].
    assert (Li : i < length ps) by (apply nth_error_Some; congruence).
    assert (G : match p with Points _ => False | _ => True end -> exists w', (let* _ := idx (uptrs w1) i in Ok (uput V w1 i (U None false), @UNone V)) = Ok (w', UNone) /\
      UR w' (drop V h p, upd i Null ps)).
    { intros Hp. assert (R2 : UR w1 (drop V h p, upd i Null ps)) by (destruct p; auto; contradiction).
      assert (Q : nth_error (upd i Null ps) i = Some Null) by (rewrite nth_error_upd', Nat.eqb_refl by auto; auto).
      rewrite (ur_ptrs _ _ R2). cbn [snd]. rewrite (idx_map uenc i Null _ Q). cbn [bind]. eexists. split; [reflexivity|].
      pose proof (uput_ok w1 _ i Null Null R2 Q (fun a => le_n _)) as R3. cbn [fst snd] in R3. rewrite upd_upd in R3. exact R3. }
    destruct p as [|a|a]; try (apply G; exact I). subst w1. rewrite P0, (idx_map uenc i _ _ Ei). cbn [bind]. eexists. split; [reflexivity|].
    apply (uput_ok w (h, ps) i Null (Points a) R Ei). intros b. unfold o1. cbn. auto.
  - destruct (nth_error ps i) as [p|] eqn:Ei; [|discriminate]. injection E as <- <-. rewrite P0, (idx_map uenc i _ _ Ei). cbn [bind]. exists w. split; auto. destruct p; auto.
  - destruct (nth_error ps i) as [p|] eqn:Ei; [|discriminate]. rewrite P0, (idx_map uenc i _ _ Ei). cbn [bind]. assert (T : uel (uenc p) = target p) by (destruct p; auto). rewrite T.
    destruct (target p) as [a|]; [|discriminate]. rewrite H0. destruct (nth_error h a) as [[x|]|] eqn:Ea; try discriminate. injection E as <- <-.
    rewrite (idx_some _ _ _ Ea). exists w. auto.
  - destruct (nth_error ps i) as [p|] eqn:Ei; [|discriminate]. rewrite P0, (idx_map uenc i _ _ Ei). cbn [bind]. assert (T : uel (uenc p) = target p) by (destruct p; auto). rewrite T.
    destruct (target p) as [a|]; [|discriminate]. rewrite H0. destruct (nth_error h a) as [[y|]|] eqn:Ea; try discriminate. injection E as <- <-.
    rewrite (idx_some _ _ _ Ea). cbn [bind]. eexists. split; [reflexivity|]. split; cbn [uheap uptrs fst snd]; auto.
    intros b. rewrite alive_upd by (apply nth_error_Some; congruence). specialize (O0 b). destruct (Nat.eqb_spec a b) as [->|]; auto.
    unfold is_alive in O0. rewrite Ea in O0. auto.
Qed.

(* counting *)
Definition own1 (p : upt) : nat := match p with Owns _ => 1 | _ => 0 end.
Fixpoint nowns (ps : list upt) : nat := match ps with [] => 0 | p :: ps => own1 p + nowns ps end.
Lemma nowns_upd ps : forall i p q, nth_error ps i = Some p -> nowns (upd i q ps) + own1 p = nowns ps + own1 q.
Proof. induction ps as [|z ps IH]; intros [|i] p q H; cbn in *; try discriminate. { injection H as ->. lia. } specialize (IH i p q H). lia. Qed.
Lemma nowns_app ps p : nowns (ps ++ [p]) = nowns ps + own1 p. Proof. induction ps; cbn; lia. Qed.
Lemma nalive_upd h : forall i x y, nth_error h i = Some x -> nalive V (upd i y h) + alive1 V x = nalive V h + alive1 V y.
Proof. induction h as [|z h IH]; intros [|i] x y H; cbn in *; try discriminate. { injection H as ->. lia. } specialize (IH i x y H). lia. Qed.
Lemma nalive_app h x : nalive V (h ++ [x]) = nalive V h + alive1 V x. Proof. induction h; cbn; lia. Qed.
Lemma nalive_drop h ps i p : (forall a, owns ps a <= is_alive h a) -> nth_error ps i = Some p -> nalive V (drop V h p) + own1 p = nalive V h.
Proof.
  intros O Hp. destruct p as [|a|a]; cbn [drop own1]; auto; try lia. specialize (O a). pose proof (owns_in _ _ _ a Hp) as Q. rewrite o1_self in Q.
  unfold is_alive in O. destruct (nth_error h a) as [[x|]|] eqn:Ea; cbn in O; try lia. pose proof (nalive_upd h a _ Deleted Ea) as E. cbn [alive1] in E. lia.
Qed.
Lemma ucount t o t' r : (forall a, owns (snd t) a <= is_alive (fst t) a) -> uptr_spec V t o = Some (t', r) ->
  nalive V (fst t') + nowns (snd t) + adopt1 V o = nalive V (fst t) + nowns (snd t') + raw1 V o.
Proof.
  intros O E. destruct t as (h, ps). cbn [fst snd] in *. destruct o; cbn [uptr_spec adopt1 raw1] in *.
  - injection E as <- <-. cbn [fst snd]. rewrite nalive_app, nowns_app. cbn. lia.
  - injection E as <- <-. cbn [fst snd]. rewrite nalive_app. cbn. lia.
  - destruct (nth_error h a) as [[x|]|]; try discriminate. apply guard_some in E as (_ & E). injection E as <- <-. cbn [fst snd]. rewrite nowns_app. destruct own; cbn; lia.
  - injection E as <- <-. cbn [fst snd]. rewrite nowns_app. cbn. lia.
  - destruct (nth_error ps j) as [q|] eqn:Ej; [|discriminate]. injection E as <- <-. cbn [fst snd]. rewrite nowns_app. pose proof (nowns_upd ps j q Null Ej) as Q. cbn [own1] in Q. lia.
  - destruct (nth_error ps i) as [p|] eqn:Ei; [|discriminate]. destruct (nth_error ps j) as [q|] eqn:Ej; [|discriminate].
    apply guard_some in E as (C & E). injection E as <- <-. destruct (Nat.eqb_spec i j) as [|Hn]; [discriminate|]. cbn [fst snd].
    pose proof (nalive_drop h ps i p O Ei). pose proof (nowns_upd ps i p q Ei).
    assert (Hq' : nth_error (upd i q ps) j = Some q). { rewrite nth_error_upd' by (apply nth_error_Some; congruence). destruct (Nat.eqb_spec i j); [congruence|auto]. }
    pose proof (nowns_upd _ j q Null Hq') as Q. cbn [own1] in Q. lia.
  - destruct (nth_error ps i) as [p|] eqn:Ei; [|discriminate]. pose proof (nalive_drop h ps i p O Ei). pose proof (nowns_upd ps i p Null Ei) as Q. cbn [own1] in Q.
    destruct p; try discriminate; injection E as <- <-; cbn [fst snd drop own1] in *; lia.
  - destruct (nth_error ps i) as [p|] eqn:Ei; [|discriminate]. pose proof (nalive_drop h ps i p O Ei). pose proof (nowns_upd ps i p Null Ei) as Q. cbn [own1] in Q.
    injection E as <- <-; cbn [fst snd]; lia.
  - destruct (nth_error ps i); [|discriminate]. injection E as <- <-. cbn; lia.
  - destruct (nth_error ps i) as [p|]; [|discriminate]. destruct (target p); [|discriminate]. destruct (nth_error h n) as [[|]|]; try discriminate. injection E as <- <-. cbn; lia.
  - destruct (nth_error ps i) as [p|]; [|discriminate]. destruct (target p) as [a|]; [|discriminate]. destruct (nth_error h a) as [[y|]|] eqn:Ea; try discriminate. injection E as <- <-.
    cbn [fst snd]. pose proof (nalive_upd h a _ (Alive x) Ea) as Q. cbn [alive1] in Q. lia.
Qed.
Lemma ucounts ops : forall w t t' xs, UR w t -> sruns _ _ _ (uptr_spec V) t ops = Some (t', xs) ->
  nalive V (fst t') + nowns (snd t) + adopts V ops = nalive V (fst t) + nowns (snd t') + raws V ops.
Proof.
  induction ops as [|o ops IH]; intros w t t' xs R E; cbn [sruns raws adopts] in *.
  - injection E as <- <-. lia.
  - destruct (uptr_spec V t o) as [(t1, x)|] eqn:E1; [|discriminate]. destruct (sruns _ _ _ (uptr_spec V) t1 ops) as [(t2, ys)|] eqn:E2; [|discriminate]. injection E as <- <-.
    destruct (uptr_step_ok w t o t1 x R E1) as (w1 & _ & R1). pose proof (ucount t o t1 x (ur_own _ _ R) E1). pose proof (IH _ _ _ _ R1 E2). lia.
Qed.
Lemma udestroy_spec m : forall k (t : ustate V), k + m = length (snd t) -> (forall i x, i < k -> nth_error (snd t) i = Some x -> x = Null) ->
  exists xs t', sruns _ _ _ (uptr_spec V) t (map UDestroy (seq k m)) = Some (t', xs) /\ nowns (snd t') = 0.
Proof.
  induction m as [|m IH]; intros k (h, ps) L Z; cbn [seq map sruns fst snd] in *.
  - exists [], (h, ps). split; auto. cbn [snd]. assert (Z' : forall i x, nth_error ps i = Some x -> x = Null).
    { intros i x H. apply (Z i); auto. assert (i < length ps) by (apply nth_error_Some; congruence). lia. }
    clear -Z'. induction ps as [|p ps IH]; auto. cbn. rewrite (Z' 0 p eq_refl). cbn. apply IH. intros i x H. exact (Z' (S i) x H).
  - cbn [uptr_spec]. destruct (nth_error ps k) as [p|] eqn:Ek; [|apply nth_error_None in Ek; lia].
    destruct (IH (S k) (drop V h p, upd k Null ps)) as (xs & t' & -> & Z').
    + cbn [snd]. rewrite upd_length. lia.
    + cbn [snd]. intros i x Hi H'. rewrite nth_error_upd' in H' by (apply nth_error_Some; congruence). destruct (Nat.eqb_spec k i); [congruence|]. apply (Z i); auto. lia.
    + eauto.
Qed.
Lemma raws_app a b : raws V (a ++ b) = raws V a + raws V b. Proof. induction a; cbn; lia. Qed.
Lemma adopts_app a b : adopts V (a ++ b) = adopts V a + adopts V b. Proof. induction a; cbn; lia. Qed.
Lemma none_destroy k m : raws V (map UDestroy (seq k m)) = 0 /\ adopts V (map UDestroy (seq k m)) = 0.
Proof. revert k; induction m; intros k; cbn; auto. Qed.
Lemma ur_init : UR (UW [] []) ([], []).
Proof. split; auto. cbn. intros a. lia. Qed.
Lemma uptr_history ops t xs : sruns _ _ _ (uptr_spec V) ([], []) ops = Some (t, xs) ->
  exists w, runs _ _ _ (uptr_step V) (UW [] []) ops = Ok (w, xs) /\ uheap w = fst t /\
    exists w' ys, runs _ _ _ (uptr_step V) (UW [] []) (ops ++ map UDestroy (seq 0 (length (snd t)))) = Ok (w', ys) /\ nalive V (uheap w') + adopts V ops = raws V ops.
Proof.
  intros E. destruct (runs_ok _ _ _ _ _ _ UR uptr_step_ok ops _ _ _ _ ur_init E) as (w & Ew & R). exists w. split; auto. split; [apply (ur_heap _ _ R)|].
  destruct (udestroy_spec (length (snd t)) 0 t eq_refl) as (ys & t' & E2 & Z). { intros; lia. }
  pose proof (sruns_app _ _ _ _ _ _ _ _ _ _ _ E E2) as E3.
  destruct (runs_ok _ _ _ _ _ _ UR uptr_step_ok _ _ _ _ _ ur_init E3) as (w' & Ew' & R'). exists w', (xs ++ ys). split; auto.
  pose proof (ucounts _ _ _ _ _ ur_init E3) as C. rewrite raws_app, adopts_app in C. destruct (none_destroy 0 (length (snd t))) as (N1 & N2). rewrite N1, N2 in C.
  rewrite (ur_heap _ _ R'). cbn [fst snd nalive nowns] in C. lia.
Qed.
End U.

Lemma owner_unique V ops h ps xs : sruns _ _ _ (uptr_spec V) ([], []) ops = Some ((h, ps), xs) ->
  forall i a, nth_error ps i = Some (Owns a) -> (exists v, nth_error h a = Some (Alive v)) /\ forall j, nth_error ps j = Some (Owns a) -> j = i.
Proof.
  intros E i a Hi. destruct (runs_ok _ _ _ _ _ _ (UR V) (uptr_step_ok V) ops _ _ _ _ (ur_init V) E) as (w & _ & R).
  pose proof (ur_own _ _ _ R a) as O. cbn [fst snd] in O. pose proof (owns_in _ _ _ a Hi) as Q. rewrite o1_self in Q. split.
  - unfold is_alive in O. destruct (nth_error h a) as [[v|]|] eqn:Ea; cbn in O; try lia. eauto.
  - intros j Hj. destruct (Nat.eq_dec j i) as [|Hn]; auto. exfalso.
    pose proof (owns_upd ps i _ Null a Hi) as U1. assert (Hj' : nth_error (upd i Null ps) j = Some (Owns a)).
    { rewrite nth_error_upd' by (apply nth_error_Some; congruence). destruct (Nat.eqb_spec i j); [congruence|auto]. }
    pose proof (owns_in _ _ _ a Hj') as Q2. rewrite o1_self in *. change (o1 Null a) with 0 in U1.
    assert (is_alive V h a <= 1). { unfold is_alive. destruct (nth_error h a) as [[]|]; cbn; lia. } lia.
Qed.
Lemma opt_leaks V moved of_bool ops w xs : runs _ _ _ (opt_step V moved of_bool) (OW [] 0 0) ops = Ok (w, xs) -> ogone w = 0.
Proof.
  assert (S : forall w o w' x, opt_step V moved of_bool w o = Ok (w', x) -> ogone w' = ogone w).
  { clear. assert (C : forall w i j mv w', ocopy V moved w i j mv = Ok w' -> ogone w' = ogone w).
    { intros w i j mv w' H. unfold ocopy in H. destruct (idx _ i); try discriminate. cbn [bind] in H. destruct (idx _ j) as [b| | |]; try discriminate. cbn [bind] in H.
      destruct (ov b); [destruct (oget V b); try discriminate; cbn [bind] in H|]; injection H as <-; auto. }
    intros w o w' x H. destruct o; cbn [opt_step] in H;
      try (injection H as <- <-; reflexivity);
      try match type of H with context[ocopy ?V ?m ?w ?i ?j ?b] => destruct (ocopy V m w i j b) as [w1| | |] eqn:E; try discriminate; cbn [bind] in H; injection H as <- <-; apply C in E; auto end;
      match type of H with context[idx ?l ?i] => destruct (idx l i) as [a| | |]; try discriminate; cbn [bind] in H end;
      try (injection H as <- <-; reflexivity).
    - destruct (ov a); [destruct (oget V a); try discriminate; cbn [bind] in H|]; injection H as <- <-; auto.
    - destruct (oget V a); try discriminate. cbn [bind] in H. injection H as <- <-; auto. }
  assert (G : forall ops w w' xs, runs _ _ _ (opt_step V moved of_bool) w ops = Ok (w', xs) -> ogone w' = ogone w).
  { clear -S. induction ops as [|o ops IH]; intros w w' xs H; cbn [runs] in H. { injection H as <- <-. auto. }
    destruct (opt_step _ _ _ w o) as [(w1, x)| | |] eqn:E; try discriminate. cbn [bind] in H. destruct (runs _ _ _ _ w1 ops) as [(w2, ys)| | |] eqn:E2; try discriminate.
    cbn [bind] in H. injection H as <- <-. rewrite (IH _ _ _ E2). eapply S; eauto. }
  apply G.
Qed.

(* ---------------- the calls left out above ---------------- *)
Lemma runs_app W O Y (step : W -> O -> res (W * Y)) a b : forall w w1 xs, runs W O Y step w a = Ok (w1, xs) ->
  runs W O Y step w (a ++ b) = (let* ' (w2, ys) := runs W O Y step w1 b in Ok (w2, xs ++ ys)).
Proof.
  induction a as [|o a IH]; intros w w1 xs E; cbn [app runs] in *.
  - injection E as <- <-. destruct (runs W O Y step w b) as [(?, ?)| | |]; reflexivity.
  - destruct (step w o) as [(w0, x)| | |]; try discriminate. cbn [bind] in *. destruct (runs W O Y step w0 a) as [(w2, zs)| | |] eqn:E2; try discriminate.
    cbn [bind] in E. injection E as <- <-. rewrite (IH _ _ _ E2). destruct (runs W O Y step w2 b) as [(?, ?)| | |]; reflexivity.
Qed.
Lemma sruns_more T O Y (f g : T -> O -> option (T * Y)) : (forall t o r, f t o = Some r -> g t o = Some r) ->
  forall ops t r, sruns T O Y f t ops = Some r -> sruns T O Y g t ops = Some r.
Proof.
  intros H. induction ops as [|o ops IH]; intros t r E; cbn [sruns] in *; auto.
  destruct (f t o) as [(t1, x)|] eqn:E1; [|discriminate]. rewrite (H _ _ _ E1).
  destruct (sruns T O Y f t1 ops) as [(t2, ys)|] eqn:E2; [|discriminate]. rewrite (IH _ _ E2). auto.
Qed.
Section VA.
Variable V : Type.
Variable moved : V -> V.
Variable cmpv : cmp -> V -> V -> bool.
Variable tys : list nat.
Hypothesis nodup : NoDup tys.
Hypothesis few : length tys <= 15.
Notation act := (var_actual V moved cmpv tys).
Notation step := (var_step V moved cmpv tys).
Lemma var_more t o r : var_spec V moved cmpv tys t o = Some r -> act t o = Some r.
Proof. unfold var_actual. intros ->. auto. Qed.
Lemma vassign_same w t i k ty x : VR V tys w t -> holds V t i k = true -> index_of ty tys = Some k -> vassign V tys w i ty x false = Ok w.
Proof.
  intros R H K. unfold holds in H. destruct (nth_error t i) as [[(q, z)|]|] eqn:E; try discriminate. apply Nat.eqb_eq in H as <-.
  unfold vassign. rewrite K, (vr_vars _ _ _ _ R), (idx_map (enc V tys) i _ t E). cbn [bind enc vi]. rewrite Nat.eqb_refl.
  assert (Q : elem V tys (Var (Some k) (Some (nth k tys 0, z))) = _) by (apply (elem_enc V tys k z); eapply vr_idx; eauto). rewrite Q. reflexivity.
Qed.
Lemma act_step_ok w t o t' r : VR V tys w t -> act t o = Some (t', r) -> exists w', step w o = Ok (w', r) /\ VR V tys w' t'.
Proof.
  intros R E. unfold var_actual in E. destruct (var_spec V moved cmpv tys t o) as [p|] eqn:S0; cbn [orelse] in E.
  { injection E as ->. assert (F : length tys <= 255) by lia. eapply (var_step_ok V moved cmpv tys nodup F); eauto. }
  clear S0. destruct o; try discriminate; cbn [var_step].
  - destruct (index_of t0 tys) as [k|] eqn:K; [|discriminate]. apply guard_some in E as (H & E). injection E as <- <-.
    rewrite (vassign_same w t i k t0 x R H K). exists w. auto.
  - destruct (nth_error t j) as [[(k, x)|]|] eqn:J; try discriminate. apply guard_some in E as (H & E). injection E as <- <-.
    unfold vfrom. rewrite (vr_vars _ _ _ _ R), (idx_map (enc V tys) j _ t J). cbn [bind enc vi].
    assert (Lk : k < length tys) by (eapply vr_idx; eauto).
    assert (Q : elem V tys (Var (Some k) (Some (nth k tys 0, x))) = _) by (apply (elem_enc V tys k x); auto). rewrite Q. cbn [bind].
    rewrite (vassign_same w t i k (nth k tys 0) x R H) by (apply (index_nth tys); auto; lia). exists w. auto.
  - destruct (nth_error t i) as [[(k, x)|]|] eqn:I; destruct (nth_error t j) as [[(l, y)|]|] eqn:J; try discriminate; injection E as <- <-;
      unfold vswap; rewrite (vr_vars _ _ _ _ R), (idx_map (enc V tys) i _ t I); cbn [bind]; rewrite (idx_map (enc V tys) j _ t J); cbn [bind enc vi same_idx].
    + exists w. auto.
    + assert (Ll : l < length tys) by (eapply vr_idx; eauto).
      assert (Q : elem V tys (Var (Some l) (Some (nth l tys 0, y))) = _) by (apply (elem_enc V tys l y); auto). rewrite Q. cbn [bind].
      assert (F : length tys <= 255) by lia. destruct (vtake_ok V moved cmpv tys F w t j l y R J) as (w1 & -> & R1). cbn [bind vvars vmade vgone].
      eexists. split; [reflexivity|]. exact (vr_tmp V tys F w1 _ R1 1).
Qed.
Lemma act_history ops t xs : sruns _ _ _ act [] ops = Some (t, xs) ->
  exists w, runs _ _ _ step (VW [] 0 0) ops = Ok (w, xs) /\
    exists w' ys, runs _ _ _ step (VW [] 0 0) (ops ++ map VDestroy (seq 0 (length t))) = Ok (w', ys) /\ vmade w' = vgone w'.
Proof.
  intros E. destruct (runs_ok _ _ _ _ _ _ (VR V tys) act_step_ok ops _ _ _ _ (vr_init V tys) E) as (w & Ew & R). exists w. split; auto.
  destruct (vdestroy_spec V moved cmpv tys (length t) 0 t eq_refl) as (ys & t' & E2 & Z). { intros; lia. }
  apply (sruns_more _ _ _ _ act var_more) in E2. pose proof (sruns_app _ _ _ _ _ _ _ _ _ _ _ E E2) as E3.
  destruct (runs_ok _ _ _ _ _ _ (VR V tys) act_step_ok _ _ _ _ _ (vr_init V tys) E3) as (w' & Ew' & R').
  exists w', (xs ++ ys). split; auto. rewrite (vr_cnt _ _ _ _ R'), (full_none V t' Z). lia.
Qed.
Lemma act_empty ops t xs i j : sruns _ _ _ act [] ops = Some (t, xs) -> nth_error t i = Some None -> nth_error t j = Some None ->
  (forall c, runs _ _ _ step (VW [] 0 0) (ops ++ [VCmp c i j]) = UB) /\ runs _ _ _ step (VW [] 0 0) (ops ++ [VSwap i j]) = UB.
Proof.
  intros E I J. destruct (runs_ok _ _ _ _ _ _ (VR V tys) act_step_ok ops _ _ _ _ (vr_init V tys) E) as (w & Ew & R).
  split; [intros c|]; rewrite (runs_app _ _ _ _ _ _ _ _ _ Ew); cbn [runs var_step]; [unfold vcmp|unfold vswap];
    rewrite (vr_vars _ _ _ _ R), (idx_map (enc V tys) i _ t I); cbn [bind]; rewrite (idx_map (enc V tys) j _ t J); reflexivity.
Qed.
Lemma act_throw ops t xs i k x : sruns _ _ _ act [] ops = Some (t, xs) -> nth_error t i = Some x -> k < length tys ->
  (exists w, runs _ _ _ step (VW [] 0 0) (ops ++ [VEmplaceThrow i k; VIndex i]) = Ok (w, xs ++ [VThrow; VIdx (Some k)])) /\
  runs _ _ _ step (VW [] 0 0) (ops ++ [VEmplaceThrow i k; VGet i]) = UB /\
  runs _ _ _ step (VW [] 0 0) (ops ++ [VEmplaceThrow i k; VDestroy i]) = UB.
Proof.
  intros E I K. destruct (runs_ok _ _ _ _ _ _ (VR V tys) act_step_ok ops _ _ _ _ (vr_init V tys) E) as (w & Ew & R).
  assert (Li : i < length t) by (apply nth_error_Some; congruence).
  assert (T : exists w1, var_step V moved cmpv tys w (VEmplaceThrow i k) = Ok (w1, VThrow) /\ nth_error (vvars w1) i = Some (Var (Some k) None)).
  { cbn [var_step]. unfold vemplace_throw. destruct (nth_error tys k) as [ty|] eqn:Ek; [|apply nth_error_None in Ek; lia].
    rewrite (idx_some _ _ _ Ek). cbn [bind]. rewrite (vdestruct_ok V tys w t i x R I). cbn [bind vvars].
    unfold idx at 1. rewrite nth_error_upd' by (rewrite map_length; auto). rewrite Nat.eqb_refl. cbn [bind]. eexists. split; [reflexivity|].
    unfold vput. cbn [vvars]. rewrite nth_error_upd' by (rewrite upd_length, map_length; auto). rewrite Nat.eqb_refl. auto. }
  destruct T as (w1 & T1 & T2). assert (Q : elem V tys (Var (Some k) None) = UB).
  { unfold elem. cbn [vi vst]. destruct (nth_error tys k) as [ty|] eqn:Ek; [|apply nth_error_None in Ek; lia]. rewrite (idx_some _ _ _ Ek). reflexivity. }
  repeat split; rewrite (runs_app _ _ _ _ _ _ _ _ _ Ew); cbn [runs]; rewrite T1; cbn [bind var_step]; unfold vdestruct; rewrite (idx_some _ _ _ T2); cbn [bind vi].
  - eexists. reflexivity.
  - rewrite Q. reflexivity.
  - rewrite Q. reflexivity.
Qed.
End VA.
Section OA.
Variable V : Type.
Variable moved : V -> V.
Variable of_bool : bool -> V.
Lemma oact_step_ok w t o t' r : OR V w t -> opt_actual V moved of_bool t o = Some (t', r) -> exists w', opt_step V moved of_bool w o = Ok (w', r) /\ OR V w' t'.
Proof.
  intros R E. unfold opt_actual in E. destruct (opt_spec V moved t o) as [p|] eqn:S0; cbn [orelse] in E.
  { injection E as ->. eapply opt_step_ok; eauto. }
  clear S0. destruct o; try discriminate. cbn [opt_step]. destruct (nth_error t j) as [x|] eqn:J; [|discriminate]. injection E as <- <-.
  destruct (f2_nth _ _ _ _ _ R J) as (b & Hb & Mb). rewrite (idx_some _ _ _ Hb). cbn [bind]. eexists. split; [reflexivity|].
  apply f2_snoc; auto. destruct x; cbn [omatch1] in *; rewrite Mb; reflexivity.
Qed.
Lemma oact_history ops t xs : sruns _ _ _ (opt_actual V moved of_bool) [] ops = Some (t, xs) ->
  exists w, runs _ _ _ (opt_step V moved of_bool) (OW [] 0 0) ops = Ok (w, xs).
Proof.
  intros E. destruct (runs_ok _ _ _ _ _ _ (OR V) oact_step_ok ops (OW [] 0 0) [] _ _ (Forall2_nil _) E) as (w & Ew & _). eauto.
Qed.
End OA.
Section UA.
Variable V : Type.
Lemma uself w t i p : UR V w t -> nth_error (snd t) i = Some p -> exists w', umove V w i i = Ok w' /\ UR V w' (drop V (fst t) p, upd i Null (snd t)).
Proof.
  intros R Hp. unfold umove. destruct (ureset_ok V w t i p R Hp) as (w1 & -> & H1). cbn [bind].
  assert (Li : i < length (snd t)) by (apply nth_error_Some; congruence).
  assert (G : forall w t q, UR V w t -> nth_error (snd t) i = Some q ->
    exists w', (let* p := idx (uptrs w) i in Ok (uput V (uput V w i p) i (U None false))) = Ok w' /\ UR V w' (fst t, upd i Null (snd t))).
  { clear. intros w t q R Hq. rewrite (ur_ptrs _ _ _ R), (idx_map uenc i q _ Hq). cbn [bind]. eexists. split; [reflexivity|].
    replace (uput V (uput V w i (uenc q)) i (U None false)) with (uput V w i (uenc Null)).
    - apply (uput_ok V w t i Null q R Hq). intros a. change (o1 Null a) with 0. lia.
    - unfold uput. cbn [uheap uptrs uenc]. rewrite upd_upd. auto. }
  assert (N : nth_error (upd i Null (snd t)) i = Some Null) by (rewrite nth_error_upd' by auto; rewrite Nat.eqb_refl; auto).
  destruct p as [|a|a].
  - destruct (G _ _ _ H1 N) as (w' & -> & R'). exists w'. split; auto. cbn [fst snd] in R'. rewrite upd_upd in R'. auto.
  - destruct (G _ _ _ H1 N) as (w' & -> & R'). exists w'. split; auto. cbn [fst snd] in R'. rewrite upd_upd in R'. auto.
  - subst w1. destruct (G _ _ _ R Hp) as (w' & -> & R'). exists w'. auto.
Qed.
Lemma uact_step_ok w t o t' r : UR V w t -> uptr_actual V t o = Some (t', r) -> exists w', uptr_step V w o = Ok (w', r) /\ UR V w' t'.
Proof.
  intros R E. unfold uptr_actual in E. destruct (uptr_spec V t o) as [q|] eqn:S0; cbn [orelse] in E.
  { injection E as ->. eapply uptr_step_ok; eauto. }
  clear S0. destruct o; try discriminate; cbn [uptr_step].
  - destruct (nth_error (snd t) i) as [p|] eqn:I; [|discriminate]. apply guard_some in E as (H & E). injection E as <- <-. apply Nat.eqb_eq in H as <-.
    destruct (uself w t i p R I) as (w' & -> & R'). exists w'. auto.
  - destruct (nth_error (snd t) i) as [[|a|a]|] eqn:I; try discriminate. injection E as <- <-.
    destruct (ureset_ok V w t i _ R I) as (w' & -> & ->). exists w. auto.
Qed.
Lemma uact_count t o t' r : (forall a, owns (snd t) a <= is_alive V (fst t) a) -> uptr_actual V t o = Some (t', r) ->
  nalive V (fst t') + nowns (snd t) + adopt1 V o = nalive V (fst t) + nowns (snd t') + raw1 V o.
Proof.
  intros O E. unfold uptr_actual in E. destruct (uptr_spec V t o) as [q|] eqn:S0; cbn [orelse] in E.
  { injection E as ->. eapply ucount; eauto. }
  clear S0. destruct o; try discriminate; cbn [adopt1 raw1].
  - destruct (nth_error (snd t) i) as [p|] eqn:I; [|discriminate]. apply guard_some in E as (_ & E). injection E as <- <-. cbn [fst snd].
    pose proof (nalive_drop V (fst t) (snd t) i p O I). pose proof (nowns_upd (snd t) i p Null I) as Q. cbn [own1] in Q. lia.
  - destruct (nth_error (snd t) i) as [[|a|a]|] eqn:I; try discriminate. injection E as <- <-. lia.
Qed.
Lemma uact_counts ops : forall w t t' xs, UR V w t -> sruns _ _ _ (uptr_actual V) t ops = Some (t', xs) ->
  nalive V (fst t') + nowns (snd t) + adopts V ops = nalive V (fst t) + nowns (snd t') + raws V ops.
Proof.
  induction ops as [|o ops IH]; intros w t t' xs R E; cbn [sruns raws adopts] in *.
  - injection E as <- <-. lia.
  - destruct (uptr_actual V t o) as [(t1, x)|] eqn:E1; [|discriminate]. destruct (sruns _ _ _ (uptr_actual V) t1 ops) as [(t2, ys)|] eqn:E2; [|discriminate]. injection E as <- <-.
    destruct (uact_step_ok w t o t1 x R E1) as (w1 & _ & R1). pose proof (uact_count t o t1 x (ur_own _ _ _ R) E1). pose proof (IH _ _ _ _ R1 E2). lia.
Qed.
Lemma uact_history ops t xs : sruns _ _ _ (uptr_actual V) ([], []) ops = Some (t, xs) ->
  exists w, runs _ _ _ (uptr_step V) (UW [] []) ops = Ok (w, xs) /\ uheap w = fst t /\
    exists w' ys, runs _ _ _ (uptr_step V) (UW [] []) (ops ++ map UDestroy (seq 0 (length (snd t)))) = Ok (w', ys) /\ nalive V (uheap w') + adopts V ops = raws V ops.
Proof.
  intros E. destruct (runs_ok _ _ _ _ _ _ (UR V) uact_step_ok ops _ _ _ _ (ur_init V) E) as (w & Ew & R). exists w. split; auto. split; [apply (ur_heap _ _ _ R)|].
  destruct (udestroy_spec V (length (snd t)) 0 t eq_refl) as (ys & t' & E2 & Z). { intros; lia. }
  apply (sruns_more _ _ _ _ (uptr_actual V)) in E2; [|intros ? ? ? Q; unfold uptr_actual; rewrite Q; auto].
  pose proof (sruns_app _ _ _ _ _ _ _ _ _ _ _ E E2) as E3.
  destruct (runs_ok _ _ _ _ _ _ (UR V) uact_step_ok _ _ _ _ _ (ur_init V) E3) as (w' & Ew' & R'). exists w', (xs ++ ys). split; auto.
  pose proof (uact_counts _ _ _ _ _ (ur_init V) E3) as C. rewrite raws_app, adopts_app in C. destruct (none_destroy V 0 (length (snd t))) as (N1 & N2). rewrite N1, N2 in C.
  rewrite (ur_heap _ _ _ R'). cbn [fst snd nalive nowns] in C. lia.
Qed.
End UA.
