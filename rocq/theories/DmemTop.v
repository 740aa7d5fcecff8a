(* Whole programs with nested vectors. *)
From Verif Require Import Base ArithModel ArithProofs DmemModel DmemSpec DmemProofs DmemOps DmemPath DmemSplit.

Section Top.
Variable w : N.
Hypothesis Hw : npo2_width w.
Variable vars : list dty.
Notation rep := (rep w).
Notation inv := (inv w vars).
Notation found := (found w vars).

Lemma same_ty_eq a b : same_ty (Some a) (Some b) = true -> a = b.
Proof. revert b. induction a as [|a IH]; intros [|b] H; try discriminate H; [reflexivity|]. f_equal. apply IH. exact H. Qed.
Lemma same_eq r s : same r s = true -> r = s.
Proof. unfold same. destruct r as [a p], s as [b q]. cbn [fst snd]. destruct (Nat.eqb_spec a b), (list_eq_dec Nat.eq_dec p q); cbn; congruence. Qed.
Lemma aset_id : forall path v x, aget v path = Some x -> aset v path x = v.
Proof.
  induction path as [|i path IH]; intros v x H; cbn [aget aset] in *; [congruence|]. destruct v as [y|l]; [reflexivity|]. destruct (nth_error l i) as [vi|] eqn:E; [|discriminate].
  rewrite (IH _ _ H). f_equal. apply list_ext. intros j. destruct (Nat.eq_dec j i) as [->|N]; [rewrite nth_error_upd_eq by (apply nth_error_Some; congruence); auto|apply nth_error_upd_neq; auto].
Qed.
Lemma aput_id vs r x : aref vs r = Some x -> aput vs r x = vs.
Proof.
  unfold aref, aput. destruct (nth_error vs (fst r)) as [v|] eqn:E; [|reflexivity]. intros H. rewrite (aset_id _ _ _ H). apply list_ext. intros j.
  destruct (Nat.eq_dec j (fst r)) as [->|N]; [rewrite nth_error_upd_eq by (apply nth_error_Some; congruence); auto|apply nth_error_upd_neq; auto].
Qed.
Lemma small_le n : small w n = true -> (N.of_nat n <= 2 ^ (w - 1))%N.
Proof. unfold small. apply N.leb_le. Qed.
Lemma vec_aref vs r l : vec vs r = Some l -> aref vs r = Some (VL l).
Proof. unfold vec. destruct (aref vs r) as [[|]|]; congruence. Qed.
Lemma rep_vec h ty o l F : rep h ty o (VL l) F -> exists t, ty = DV t.
Proof. destruct ty; [destruct o; intros []|eauto]. Qed.
Lemma rep_sc h ty o x F : rep h ty o (VS x) F -> ty = DS /\ o = Sc x.
Proof. destruct ty, o; cbn; try tauto. intros [-> _]. auto. Qed.

(* what an operation does not change *)
Lemma aget_aset : forall p v y, aget v p <> None -> aget (aset v p y) p = Some y.
Proof.
  induction p as [|i p IH]; intros v y A; cbn [aget aset] in *; [reflexivity|]. destruct v as [|l]; [contradiction|]. destruct (nth_error l i) as [vi|] eqn:E; [|contradiction].
  rewrite nth_error_upd_eq by (apply nth_error_Some; congruence). apply IH. exact A.
Qed.
Lemma aget_other : forall p q v y, diverge p q = true -> aget (aset v p y) q = aget v q.
Proof.
  induction p as [|i p IH]; intros [|j q] v y D; try discriminate D. cbn [diverge] in D. cbn [aget aset]. destruct v as [|l]; [reflexivity|]. destruct (nth_error l i) as [vi|] eqn:E; [|reflexivity].
  destruct (Nat.eqb_spec i j) as [<-|N]; [|rewrite nth_error_upd_neq by auto; reflexivity]. rewrite nth_error_upd_eq by (apply nth_error_Some; congruence). rewrite E. apply IH. exact D.
Qed.
Lemma aref_aput vs r x : aref vs r <> None -> aref (aput vs r x) r = Some x.
Proof.
  unfold aref, aput. destruct (nth_error vs (fst r)) as [v|] eqn:E; [|contradiction]. intros A. rewrite nth_error_upd_eq by (apply nth_error_Some; congruence). apply aget_aset. exact A.
Qed.
Lemma aref_other vs m r x : separate m r = true -> aref (aput vs m x) r = aref vs r.
Proof.
  unfold separate, aref, aput. intros D. destruct (nth_error vs (fst m)) as [v|] eqn:E; [|reflexivity]. destruct (Nat.eqb_spec (fst m) (fst r)) as [<-|N]; [|rewrite nth_error_upd_neq by auto; reflexivity].
  rewrite nth_error_upd_eq by (apply nth_error_Some; congruence). rewrite E. apply aget_other. exact D.
Qed.
Lemma take_other vs s x mv r : (forall m, In m (if mv : bool then [s] else []) -> separate m r = true) -> aref (take vs s x mv) r = aref vs r.
Proof. intros H. unfold take. destruct mv; [|reflexivity]. apply aref_other. apply H. left. reflexivity. Qed.
Lemma step_keeps vs o vs' a r : astep w vars vs o = Some (vs', a) -> (forall m, In m (modified o) -> separate m r = true) -> aref vs' r = aref vs r.
Proof.
  intros E K. destruct o; cbn [astep modified] in *;
    repeat match type of E with context [match ?x with _ => _ end] => lazymatch x with context [match _ with _ => _ end] => fail | _ => destruct x eqn:? end end; try discriminate E; injection E as <- _;
    rewrite ?take_other by (intros m Hm; apply K; right; exact Hm); try reflexivity; repeat rewrite aref_other by (apply K; cbn; auto); reflexivity.
Qed.
Lemma run_keeps : forall os vs vs' l r, arun w vars vs os = Some (vs', l) -> (forall o m, In o os -> In m (modified o) -> separate m r = true) -> aref vs' r = aref vs r.
Proof.
  induction os as [|o os IH]; intros vs vs' l r E K; cbn [arun] in E; [injection E as <- _; reflexivity|]. destruct (astep w vars vs o) as [[vs1 a]|] eqn:E1; [|discriminate].
  destruct (arun w vars vs1 os) as [[vs2 l2]|] eqn:E2; [|discriminate]. injection E as <- _. rewrite (IH _ _ _ r E2) by (intros o' m H1; apply K; right; exact H1). apply (step_keeps _ _ _ _ _ E1). intros m. apply (K o). left. reflexivity.
Qed.
Lemma copy_reads vs r s x vs1 : aref vs s = Some x -> astep w vars vs (Copy r s) = Some (vs1, None_) -> aref vs1 r = Some x.
Proof.
  intros A C. cbn [astep] in C. destruct (aref vs r) as [y|] eqn:Ar; [|discriminate]. rewrite A in C. destruct (same r s) eqn:Sm; [apply same_eq in Sm as <-; injection C as <-; exact A|].
  destruct (_ && _) eqn:G in C; [|discriminate]. injection C as <-. apply aref_aput. congruence.
Qed.

Ltac one I A := destruct (at_ref w vars _ _ _ _ _ I A) as (t & v & ty & p & o' & F' & Fnd); pose proof (upd1 w vars _ _ _ _ _ _ _ _ _ _ _ I Fnd) as U;
  pose proof Fnd as (Et & Ev & Fi & Ty & Sp & Rp & Np & Pp & _).
Ltac both I N V A := destruct (two w vars _ _ _ _ _ _ _ I N V A) as (t & v & ty & p & o' & F' & ts & vsrc & tys & q & oq & Fq & Fnd & Fq' & X1 & X2 & X3 & X4 & U2); pose proof (upd1 w vars _ _ _ _ _ _ _ _ _ _ _ I Fnd) as U;
  pose proof Fnd as (Et & Ev & Fi & Ty & Sp & Rp & Np & Pp & _).
Ltac fin U H := destruct (U _ _ H) as (h2 & FF2 & -> & I2); exists h2, FF2; split; [reflexivity|exact I2].

Lemma step_ok h vs FF o vs' a : inv h vs FF -> astep w vars vs o = Some (vs', a) -> exists h' FF', step w vars h o = Ok (h', a) /\ inv h' vs' FF'.
Proof.
  intros I E. destruct o as [r s move|r k s move|r|r|r k|r n|r n|r x|r s|r s|r|r]; cbn [astep step] in *.
  - destruct (vec vs r) as [l|] eqn:V; [|discriminate]. apply vec_aref in V. destruct (aref vs s) as [x|] eqn:A; [|discriminate]. destruct (_ && small w _) eqn:C; [|discriminate]. injection E as <- <-.
    apply andb_true_iff in C as [C Sm]. apply andb_true_iff in C as [N Same]. apply small_le in Sm. both I N V A.
    pose proof Fq' as (_ & _ & Fiq & Tyq & Sq & Rq & Nq & Pq & _).
    destruct (rep_vec _ _ _ _ _ Rp) as [te ->]. rewrite Ty, Tyq in Same. cbn [elems] in Same. apply same_ty_eq in Same as <-.
    
    rewrite Fi. cbn [bind vecty]. rewrite Fiq. cbn [bind]. unfold quiet_.
    pose proof (push_ok w Hw te h p o' l F' Sp Rp Np Pp q oq x Fq Sq Rq Nq X1 X2 X3 Pq X4 move Sm) as B.
    destruct (U2 move _ _ B) as (h2 & FF2 & -> & I2). exists h2, FF2. split; [reflexivity|exact I2].
  - destruct (vec vs r) as [l|] eqn:V; [|discriminate]. apply vec_aref in V. destruct (aref vs s) as [x|] eqn:A; [|discriminate]. destruct (_ && (k <=? length l)) eqn:C; [|discriminate]. injection E as <- <-.
    apply andb_true_iff in C as [C Hk]. apply Nat.leb_le in Hk. apply andb_true_iff in C as [C Sm]. apply andb_true_iff in C as [N Same]. apply small_le in Sm. both I N V A.
    pose proof Fq' as (_ & _ & Fiq & Tyq & Sq & Rq & Nq & Pq & _).
    destruct (rep_vec _ _ _ _ _ Rp) as [te ->]. rewrite Ty, Tyq in Same. cbn [elems] in Same. apply same_ty_eq in Same as <-.
    
    rewrite Fi. cbn [bind vecty]. rewrite Fiq. cbn [bind]. unfold quiet_.
    pose proof (insert_ok w Hw te h p o' l F' Sp Rp Np Pp q oq x Fq Sq Rq Nq X1 X2 X3 Pq X4 move k Hk Sm) as B.
    destruct (U2 move _ _ B) as (h2 & FF2 & -> & I2). exists h2, FF2. split; [reflexivity|exact I2].
  - destruct (vec vs r) as [[|l0 l]|] eqn:V; try discriminate. apply vec_aref in V. injection E as <- <-. one I V. destruct (rep_vec _ _ _ _ _ Rp) as [te ->]. rewrite Fi. cbn [bind vecty]. unfold quiet_.
    pose proof (pop_ok w te h p o' (l0 :: l) F' Sp Rp Np Pp ltac:(discriminate)) as B. fin U B.
  - destruct (vec vs r) as [l|] eqn:V; [|discriminate]. apply vec_aref in V. injection E as <- <-. one I V. destruct (rep_vec _ _ _ _ _ Rp) as [te ->]. rewrite Fi. cbn [bind vecty]. unfold quiet_.
    pose proof (clear_ok w te h p o' l F' Sp Rp Np Pp) as B. fin U B.
  - destruct (vec vs r) as [l|] eqn:V; [|discriminate]. apply vec_aref in V. destruct (Nat.ltb_spec k (length l)); [|discriminate]. injection E as <- <-. one I V. destruct (rep_vec _ _ _ _ _ Rp) as [te ->].
    rewrite Fi. cbn [bind vecty]. unfold quiet_. pose proof (erase_ok w te h p o' l F' Sp Rp Np Pp k H) as B. fin U B.
  - destruct (vec vs r) as [l|] eqn:V; [|discriminate]. apply vec_aref in V. one I V. destruct (rep_vec _ _ _ _ _ Rp) as [te ->]. rewrite Ty in E. cbn [elems] in E.
    destruct (_ && small w n) eqn:C; [|discriminate]. injection E as <- <-. apply andb_true_iff in C as [C Sm]. apply small_le in Sm. rewrite Fi. cbn [bind vecty]. unfold quiet_.
    assert (Hn : length l <= n \/ te = DS). { apply orb_true_iff in C as [C|C]; [left; apply Nat.leb_le; exact C|right]. destruct te; [reflexivity|discriminate]. }
    pose proof (resize_ok w Hw te h p o' l F' Sp Rp Np Pp n Sm Hn) as B. fin U B.
  - destruct (vec vs r) as [l|] eqn:V; [|discriminate]. apply vec_aref in V. destruct (small w n) eqn:Sm; [|discriminate]. apply small_le in Sm. injection E as <- <-. one I V.
    destruct (rep_vec _ _ _ _ _ Rp) as [te ->]. rewrite Fi. cbn [bind vecty]. unfold quiet_. rewrite <- (aput_id _ _ _ V).
    pose proof (reserve_is w Hw te h p o' l F' Sp Rp Np Pp n Sm) as B. fin U B.
  - destruct (aref vs r) as [[y|]|] eqn:V; try discriminate. injection E as <- <-. one I V. destruct (rep_sc _ _ _ _ _ Rp) as [-> ->]. rewrite Fi. cbn [bind]. unfold quiet_.
    pose proof (write_ok w h p _ _ F' x Sp Rp) as B. fin U B.
  - destruct (aref vs r) as [y|] eqn:V; [|discriminate]. destruct (aref vs s) as [x|] eqn:A; [|discriminate]. destruct (same r s) eqn:Sm.
    { apply same_eq in Sm as <-. assert (y = x) as -> by congruence. injection E as <- <-. one I V. rewrite Fi. cbn [bind]. unfold quiet_. rewrite <- (aput_id _ _ _ V). pose proof (copy_self_ok w ty h p o' x F' Sp Rp Np Pp) as B. fin U B. }
    destruct (_ && _) eqn:C in E; [|discriminate]. injection E as <- <-.
    apply andb_true_iff in C as [C Hy]. apply andb_true_iff in C as [N Same]. both I N V A.
    pose proof Fq' as (_ & _ & Fiq & Tyq & Sq & Rq & Nq & Pq & _).
    rewrite Ty in Hy, Same. rewrite Tyq in Same. apply same_ty_eq in Same as <-.
     rewrite Fi. cbn [bind]. rewrite Fiq. cbn [bind]. unfold quiet_.
    assert (Hv : match y with VL (_ :: _) => ty = DV DS | _ => True end) by (destruct y as [|[|]]; auto; destruct ty as [|[|]]; try discriminate Hy; reflexivity).
    pose proof (copy_assign_ok w Hw ty h p o' y F' Sp Rp Np Pp q oq x Fq Sq Rq Nq X1 X2 X3 Pq X4 Hv) as B. fin U B.
  - destruct (aref vs r) as [y|] eqn:V; [|discriminate]. destruct (aref vs s) as [x|] eqn:A; [|discriminate]. destruct (same r s) eqn:Sm.
    { apply same_eq in Sm as <-. assert (y = x) as -> by congruence. injection E as <- <-. one I V. rewrite Fi. cbn [bind]. unfold quiet_. pose proof (move_self_ok w ty h p o' x F' Sp Rp Np Pp) as B. fin U B. }
    destruct (_ && _) eqn:C in E; [|discriminate]. injection E as <- <-.
    apply andb_true_iff in C as [N Same]. both I N V A.
    pose proof Fq' as (_ & _ & Fiq & Tyq & Sq & Rq & Nq & Pq & _).
    rewrite Ty, Tyq in Same. apply same_ty_eq in Same as <-.
     rewrite Fi. cbn [bind]. rewrite Fiq. cbn [bind]. unfold quiet_.
    pose proof (move_assign_ok w ty h p o' y F' Sp Rp Np Pp q oq x Fq Sq Rq Nq X1 X2 X3 Pq X4) as B.
    destruct (U2 true _ _ B) as (h2 & FF2 & -> & I2). exists h2, FF2. split; [reflexivity|exact I2].
  - destruct (aref vs r) as [[y|]|] eqn:V; try discriminate. injection E as <- <-. one I V. destruct (rep_sc _ _ _ _ _ Rp) as [-> ->]. rewrite Fi. cbn [bind]. rewrite (proj2 (rd_sl _ _ _) Sp). cbn [bind].
    exists h, FF. auto.
  - destruct (vec vs r) as [l|] eqn:V; [|discriminate]. apply vec_aref in V. injection E as <- <-. one I V. destruct (rep_vec _ _ _ _ _ Rp) as [te ->]. rewrite Fi. cbn [bind].
    destruct o' as [|el used cap self]; [destruct Rp|]. rewrite (rdv_ok _ _ _ _ _ _ Sp). cbn [bind]. cbn [DmemSpec.rep] in Rp. destruct Rp as (-> & _). exists h, FF. auto.
Qed.
Lemma run_ok : forall os h vs FF vs' l, inv h vs FF -> arun w vars vs os = Some (vs', l) -> exists h' FF', run w vars h os = Ok (h', l) /\ inv h' vs' FF'.
Proof.
  induction os as [|o os IH]; intros h vs FF vs' l I E; cbn [arun run] in *; [injection E as <- <-; eauto|]. destruct (astep w vars vs o) as [[vs1 a]|] eqn:E1; [|discriminate].
  destruct (arun w vars vs1 os) as [[vs2 l2]|] eqn:E2; [|discriminate]. injection E as <- <-. destruct (step_ok _ _ _ _ _ _ I E1) as (h1 & FF1 & -> & I1). cbn [bind].
  destruct (IH _ _ _ _ _ I1 E2) as (h2 & FF2 & -> & I2). exists h2, FF2. auto.
Qed.
Lemma start_inv : inv (start vars) (map zero vars) (fun _ => []).
Proof.
  split; cbn; auto.
  - unfold blen. cbn. rewrite map_length. reflexivity.
  - apply map_length.
  - intros k t v Ht Hv. rewrite (map_nth_error _ _ _ Ht) in Hv. injection Hv as <-. exists (match t with DS => Sc 0 | DV _ => empty_vec end).
    unfold sl. cbn. rewrite (map_nth_error _ _ _ Ht). split; [reflexivity|]. destruct t; cbn; repeat split; auto. lia.
  - intros _. split; [constructor|intros []].
  - intros b. destruct b as [|b]; cbn; [split; [auto|discriminate]|]. split; [|intros [H|[_ []]]; discriminate]. intros H. exfalso. apply H. unfold blk. cbn. destruct b; reflexivity.
Qed.
Lemma nodup_concat : forall (Fs : list (list nat)), (forall k, NoDup (nth k Fs [])) -> (forall k l c, k <> l -> In c (nth k Fs []) -> ~ In c (nth l Fs [])) -> NoDup (concat Fs).
Proof.
  induction Fs as [|F Fs IH]; intros N D; cbn; [constructor|]. apply nodup_app. split; [exact (N 0)|]. split.
  - apply IH; [intros k; exact (N (S k))|]. intros k l c Nk. exact (D (S k) (S l) c ltac:(congruence)).
  - intros c H1 H2. apply in_concat in H2 as (G & H2 & H3). destruct (In_nth _ _ [] H2) as (n & _ & <-). exact (D 0 (S n) c ltac:(discriminate) H1 H3).
Qed.
Lemma inv_holds h vs FF : inv h vs FF -> holds w vars h vs.
Proof.
  intros I. pose proof (i_len _ _ _ _ _ I) as L. unfold blen in L. destruct (blk h 0) as [l|] eqn:E; [|discriminate]. injection L as L.
  set (os := map (fun s => match s with Some o => o | None => Sc 0 end) l). set (Fs := map FF (seq 0 (length vars))). exists os, Fs.
  assert (NF : forall k, nth k Fs [] = FF k).
  { intros k. unfold Fs. destruct (le_lt_dec (length vars) k) as [Ge|Lt].
    - rewrite nth_overflow by (rewrite map_length, seq_length; exact Ge). symmetry. apply (i_out _ _ _ _ _ I). exact Ge.
    - rewrite (nth_indep _ [] (FF 0)) by (rewrite map_length, seq_length; exact Lt). rewrite map_nth, seq_nth by exact Lt. reflexivity. }
  assert (SL : forall k, k < length vars -> exists o, nth_error l k = Some (Some o)).
  { intros k Hk. destruct (nth_error vars k) as [t|] eqn:Et; [|apply nth_error_None in Et; lia]. destruct (nth_error vs k) as [v|] eqn:Ev; [|apply nth_error_None in Ev; rewrite (i_vs _ _ _ _ _ I) in Ev; lia].
    destruct (i_var _ _ _ _ _ I _ _ _ Et Ev) as (o & S & _). unfold sl in S. cbn [fst snd] in S. rewrite E in S. eauto. }
  split; [|split; [unfold Fs; rewrite map_length; apply seq_length|split; [unfold os; rewrite map_length; exact L|split; [apply (i_vs _ _ _ _ _ I)|split; [|split]]]]].
  - rewrite E. f_equal. unfold os. rewrite map_map. apply list_ext. intros k. destruct (le_lt_dec (length vars) k) as [Ge|Lt].
    + rewrite !(proj2 (nth_error_None _ _)); [reflexivity|rewrite map_length; lia|lia].
    + destruct (SL k Lt) as [o Ho]. rewrite Ho. symmetry. apply (map_nth_error (fun x => Some (match x with Some o => o | None => Sc 0 end)) _ _ Ho).
  - intros k t o v Ht Ho Hv. rewrite NF. destruct (i_var _ _ _ _ _ I _ _ _ Ht Hv) as (o' & S & R). unfold sl in S. cbn [fst snd] in S. rewrite E in S.
    unfold os in Ho. rewrite (map_nth_error _ _ _ S) in Ho. injection Ho as <-. exact R.
  - constructor.
    + intros H. apply in_concat in H as (G & H1 & H2). destruct (In_nth _ _ [] H1) as (n & _ & <-). rewrite NF in H2. exact (proj2 (i_nd _ _ _ _ _ I n) H2).
    + apply nodup_concat; [intros k; rewrite NF; apply (i_nd _ _ _ _ _ I)|]. intros k j c. rewrite !NF. apply (i_dj _ _ _ _ _ I).
  - intros b. unfold in_use. rewrite (i_use _ _ _ _ _ I). cbn [In]. split.
    + intros [->|[k Hk]]; [auto|]. right. apply in_concat. exists (FF k). split; [|exact Hk]. rewrite <- NF. apply nth_In. unfold Fs. rewrite map_length, seq_length.
      destruct (le_lt_dec (length vars) k) as [Ge|Lt]; [|exact Lt]. rewrite (i_out _ _ _ _ _ I k Ge) in Hk. destruct Hk.
    + intros [<-|H]; [auto|]. right. apply in_concat in H as (G & H1 & H2). destruct (In_nth _ _ [] H1) as (n & _ & <-). rewrite NF in H2. eauto.
Qed.

(* the destructors of the variables *)
Lemma finish_ok : forall ts k h vs FF, blen h 0 <> None -> length vs = length ts ->
  (forall j t v, nth_error ts j = Some t -> nth_error vs j = Some v -> exists o, sl h (0, k + j) = Some (Some o) /\ rep h t o v (FF (k + j))) ->
  (forall j, NoDup (FF j) /\ ~ In 0 (FF j)) -> (forall j, k + length ts <= j -> FF j = []) -> (forall i j c, i <> j -> In c (FF i) -> ~ In c (FF j)) ->
  (forall b, in_use h b -> b = 0 \/ exists j, k <= j /\ In b (FF j)) ->
  exists h', finish h k ts = Ok h' /\ forall b, in_use h' b <-> b = 0.
Proof.
  induction ts as [|t ts IH]; intros k h vs FF L0 Lv V Nd Out Dj Use; cbn [finish].
  - exists h. split; [reflexivity|]. intros b. split.
    + intros H. destruct (Use b H) as [->|(j & Hj & Hb)]; [reflexivity|]. rewrite (Out j) in Hb by (cbn; lia). destruct Hb.
    + intros ->. unfold in_use. unfold blen in L0. destruct (blk h 0); [discriminate|contradiction].
  - destruct vs as [|v vs]; [discriminate|]. destruct (V 0 t v eq_refl eq_refl) as (o & S & R). rewrite Nat.add_0_r in S, R. destruct (Nd k) as [Nk Zk].
    destruct (destroy_ok w t h (0, k) o v (FF k) S R Nk Zk) as (h1 & -> & S1 & L1 & C). cbn [bind]. assert (Lt0 : 0 < length h) by (apply (sl_lt _ _ _ S)).
    apply (IH (k + 1) h1 vs (fun j => if j =? k then [] else FF j)) || (rewrite <- Nat.add_1_r; apply (IH (k + 1) h1 vs (fun j => if j =? k then [] else FF j))).
    + rewrite (proj1 (c_frame _ _ _ _ _ C 0 Lt0 Zk)). exact L0.
    + cbn in Lv. lia.
    + intros j tj vj Ht Hv. destruct (V (j + 1) tj vj) as (oj & Sj & Rj); [rewrite Nat.add_1_r; exact Ht|rewrite Nat.add_1_r; exact Hv|]. replace (k + 1 + j) with (k + (j + 1)) by lia.
      destruct (Nat.eqb_spec (k + (j + 1)) k); [lia|]. exists oj. split.
      * rewrite <- Sj. eapply sl_keep; [exact C|exact Lt0|exact Zk|]. intros H. injection H as H. lia.
      * eapply rep_agree; [exact Rj|]. intros c Hc. eapply chg_keep; [exact C|apply blk_lt; eapply rep_live; [exact Rj|exact Hc]|exact (Dj _ _ c n Hc)|]. intros i [= -> _]. exact (proj2 (Nd _) Hc).
    + intros j. destruct (j =? k); [split; [constructor|intros []]|apply Nd].
    + intros j Hj. destruct (j =? k); [reflexivity|]. apply Out. cbn. lia.
    + intros i j c Nij. destruct (i =? k); [intros []|]. destruct (j =? k); [intros _ []|]. apply Dj. exact Nij.
    + intros b Hb. destruct (Nat.eq_dec b 0) as [|Nz]; [auto|]. right. destruct (le_lt_dec (length h) b) as [Ge|Lt]; [destruct (c_new _ _ _ _ _ C b Ge Hb)|].
      destruct (in_dec Nat.eq_dec b (FF k)) as [I1|N1]; [destruct (Hb (c_dead _ _ _ _ _ C b I1 ltac:(intros [])))|].
      assert (Hb1 : in_use h b). { destruct (c_frame _ _ _ _ _ C b Lt N1) as [G _]. unfold in_use in *. unfold blen in G. destruct (blk h1 b), (blk h b); congruence. }
      destruct (Use b Hb1) as [->|(j & Hj & Hbj)]; [contradiction|]. assert (Njk : j <> k) by (intros ->; auto). exists j. split; [lia|]. destruct (Nat.eqb_spec j k); [contradiction|exact Hbj].
Qed.
Lemma finish_inv h vs FF : inv h vs FF -> exists h', finish h 0 vars = Ok h' /\ forall b, in_use h' b <-> b = 0.
Proof.
  intros I. apply (finish_ok vars 0 h vs FF).
  - rewrite (i_len _ _ _ _ _ I). discriminate.
  - apply (i_vs _ _ _ _ _ I).
  - cbn. apply (i_var _ _ _ _ _ I).
  - apply (i_nd _ _ _ _ _ I).
  - cbn. apply (i_out _ _ _ _ _ I).
  - apply (i_dj _ _ _ _ _ I).
  - intros b H. apply (i_use _ _ _ _ _ I) in H as [H|[k H]]; [auto|]. right. exists k. split; [lia|exact H].
Qed.
End Top.
