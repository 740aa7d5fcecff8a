(* Two places in the same nested vector. *)
From Verif Require Import Base ArithModel ArithProofs DmemModel DmemSpec DmemProofs DmemOps DmemPath.

Section Split.
Variable w : N.
Notation rep := (rep w).

Lemma e3_get {A B C} (R : A -> B -> C -> Prop) : forall a b c, each3 R a b c -> forall k x, nth_error b k = Some x -> exists y z, nth_error a k = Some y /\ nth_error c k = Some z /\ R y x z.
Proof. induction 1 as [|x y z a b c r E IH]; intros [|k] u H; try discriminate H; cbn in *; [injection H as <-; eauto|apply IH; exact H]. Qed.
Lemma e3_make {A B C} (R : A -> B -> C -> Prop) : forall a b c, length b = length a -> length c = length a ->
  (forall k x y z, nth_error a k = Some x -> nth_error b k = Some y -> nth_error c k = Some z -> R x y z) -> each3 R a b c.
Proof.
  induction a as [|x a IH]; intros [|y b] [|z c] Lb Lc H; try discriminate; constructor; [exact (H 0 x y z eq_refl eq_refl eq_refl)|]. apply IH; auto. intros k. exact (H (S k)).
Qed.
Lemma in_concat_nth (Fs : list (list nat)) c : In c (concat Fs) <-> exists k F, nth_error Fs k = Some F /\ In c F.
Proof.
  rewrite in_concat. split.
  - intros (F & H1 & H2). destruct (In_nth_error _ _ H1) as [k Hk]. eauto.
  - intros (k & F & H1 & H2). exists F. split; [eapply nth_error_In; exact H1|exact H2].
Qed.
Lemma nodup_nth : forall Fs : list (list nat), NoDup (concat Fs) <->
  (forall k F, nth_error Fs k = Some F -> NoDup F) /\ (forall k l F G c, k <> l -> nth_error Fs k = Some F -> nth_error Fs l = Some G -> In c F -> ~ In c G).
Proof.
  induction Fs as [|F Fs IH]; cbn [concat]; [split; [intros _; split; [intros [|k] ?|intros [|k] l ? ? ? ?]; discriminate|constructor]|]. rewrite nodup_app, IH. split.
  - intros (N1 & (N2 & N3) & D). split.
    + intros [|k] G Hk; cbn in Hk; [injection Hk as <-; exact N1|exact (N2 k G Hk)].
    + intros [|k] [|l] G H c Nkl Hk Hl Hc; cbn in Hk, Hl; [contradiction| | |].
      * injection Hk as <-. intros Hh. apply (D c Hc). apply in_concat_nth. eauto.
      * injection Hl as <-. intros Hh. apply (D c Hh). apply in_concat_nth. eauto.
      * exact (N3 k l G H c ltac:(congruence) Hk Hl Hc).
  - intros (N & D). split; [exact (N 0 F eq_refl)|]. split; [split; [intros k; exact (N (S k))|intros k l G H c Nkl; exact (D (S k) (S l) G H c ltac:(congruence))]|].
    intros c Hc Hh. apply in_concat_nth in Hh as (k & G & Hk & Hg). exact (D 0 (S k) F G c ltac:(discriminate) eq_refl Hk Hc Hg).
Qed.
Lemma nth_upd {A} i (x : A) l k y : nth_error (upd i x l) k = Some y -> (k = i /\ y = x) \/ (k <> i /\ nth_error l k = Some y).
Proof.
  intros H. destruct (Nat.eq_dec k i) as [->|N]; [|right; rewrite nth_error_upd_neq in H by auto; auto]. left. split; [reflexivity|].
  rewrite nth_error_upd_eq in H; [congruence|]. rewrite <- (upd_len i x l). apply nth_error_Some. congruence.
Qed.

(* the blocks of a value are determined *)
Lemma rep_fun : forall t h o v F v' F', rep h t o v F -> rep h t o v' F' -> v = v' /\ F = F'.
Proof.
  induction t as [|t IH]; intros h o v F v' F' R R'; destruct o as [x|el used cap self], v as [y|l], v' as [y'|l']; cbn [DmemSpec.rep] in *; try contradiction.
  - destruct R as (-> & ->), R' as (-> & ->). auto.
  - destruct R as (U & _ & R), R' as (U' & _ & R'). destruct el as [b|].
    + destruct R as (_ & os & sp & Fs & Eb & _ & _ & -> & Es), R' as (_ & os' & sp' & Fs' & Eb' & _ & _ & -> & Es'). rewrite Eb in Eb'. injection Eb' as Eb'.
      destruct (e3_len _ _ _ _ Es) as [Lo _], (e3_len _ _ _ _ Es') as [Lo' _]. apply app_inj_length in Eb' as [Eo _]; [|rewrite !map_length; lia].
      assert (os = os') as <-. { clear - Eo. revert os' Eo. induction os as [|a os I]; intros [|a' os'] E; try discriminate; [reflexivity|]. cbn in E. injection E as -> E. f_equal. auto. }
      assert (Q : l = l' /\ Fs = Fs'). { clear - IH Es Es'. revert l' Fs' Es'. induction Es as [|a b c os l Fs r E I]; intros l' Fs' Es'; inversion Es'; subst; [auto|]. destruct (IH _ _ _ _ _ _ r H1) as [-> ->]. destruct (I _ _ H4) as [-> ->]. auto. }
      destruct Q as [-> ->]. auto.
    + destruct R as (R1 & _ & _ & ->), R' as (_ & _ & _ & ->). rewrite R1 in U, U'. destruct l, l'; try discriminate. auto.
Qed.

(* a vector some of whose elements have changed *)
Lemma revec h h2 t b os sp os' l' Fs' : blk h b = Some (map Some os ++ sp) -> length os' = length os -> length l' = length os -> length Fs' = length os -> blen h2 b = blen h b ->
  (forall k, length os <= k -> sl h2 (b, k) = sl h (b, k)) -> (forall k o, nth_error os' k = Some o -> sl h2 (b, k) = Some (Some o)) ->
  (forall k o v F, nth_error os' k = Some o -> nth_error l' k = Some v -> nth_error Fs' k = Some F -> rep h2 t o v F) ->
  blk h2 b = Some (map Some os' ++ sp) /\ each3 (rep h2 t) os' l' Fs'.
Proof.
  intros E L1 L2 L3 B K S R. split; [|apply e3_make; [lia|lia|exact R]]. unfold blen in B. rewrite E in B. destruct (blk h2 b) as [l2|] eqn:E2; [|discriminate]. injection B as B. f_equal.
  unfold sl in K, S. cbn [fst snd] in K, S. rewrite E2 in K, S. rewrite E in K. apply list_ext. intros k. destruct (lt_dec k (length os)) as [Lt|Ge].
  - rewrite nth_error_app1 by (rewrite map_length; lia). destruct (nth_error os' k) as [o|] eqn:Eo; [|apply nth_error_None in Eo; lia]. rewrite (S k o Eo). symmetry. apply map_nth_error. exact Eo.
  - rewrite (K k ltac:(lia)). rewrite !nth_error_app2 by (rewrite map_length; lia). rewrite !map_length, L1. reflexivity.
Qed.

Lemma plug2 : forall pr ps t h root o v F subr subs, sl h root = Some (Some o) -> rep h t o v F -> NoDup F -> ~ In (fst root) F -> aget v pr = Some subr -> aget v ps = Some subs -> diverge pr ps = true ->
  exists tyr p or Fr tys q os Fq, locate h t root pr = Ok (tyr, p) /\ locate h t root ps = Ok (tys, q) /\ sl h p = Some (Some or) /\ sl h q = Some (Some os) /\ rep h tyr or subr Fr /\ rep h tys os subs Fq /\
    In (fst p) F /\ In (fst q) F /\ q <> p /\ ~ In (fst p) Fq /\ ~ In (fst q) Fr /\ (forall c, In c Fr -> ~ In c Fq) /\ incl Fr F /\ incl Fq F /\
    (forall h2 o2 v2 F2 o3 v3 F3, sl h2 p = Some (Some o2) -> rep h2 tyr o2 v2 F2 -> NoDup F2 -> sl h2 q = Some (Some o3) -> rep h2 tys o3 v3 F3 -> NoDup F3 ->
       ~ In (fst p) F2 -> ~ In (fst q) F2 -> ~ In (fst p) F3 -> ~ In (fst q) F3 -> (forall c, In c F2 -> ~ In c F3) ->
       (forall c, In c F2 \/ In c F3 -> In c F -> In c Fr \/ In c Fq) -> (forall c, In c F -> ~ In c Fr -> ~ In c Fq -> blen h2 c = blen h c) ->
       (forall c i, In c F -> ~ In c Fr -> ~ In c Fq -> (c, i) <> p -> (c, i) <> q -> sl h2 (c, i) = sl h (c, i)) -> sl h2 root = sl h root ->
       exists FR, rep h2 t o (aset (aset v pr v2) ps v3) FR /\ NoDup FR /\ (forall c, In c FR <-> In c F2 \/ In c F3 \/ (In c F /\ ~ In c Fr /\ ~ In c Fq))).
Proof.
  induction pr as [|i pr IH]; intros [|j ps] t h root o v F subr subs S R Nd Nr Ar As D; try discriminate D. cbn [diverge] in D. cbn [aget] in Ar, As.
  destruct v as [y|l]; [discriminate|]. destruct (nth_error l i) as [vi|] eqn:Ei; [|discriminate]. destruct (nth_error l j) as [vj|] eqn:Ej; [|discriminate].
  destruct t as [|t]; [destruct o; destruct R|]. destruct o as [y|el used cap self]; [destruct R|].
  cbn [DmemSpec.rep] in R. destruct R as (U & Su & R). assert (Li : i < length l) by (apply nth_error_Some; congruence). assert (Lj : j < length l) by (apply nth_error_Some; congruence).
  cbn [locate]. rewrite (rdv_ok _ _ _ _ _ _ S). cbn [bind]. destruct (Nat.ltb_spec i used); [|lia]. destruct (Nat.ltb_spec j used); [|lia].
  destruct el as [b|]; [|destruct R as (R & _); lia]. destruct R as (-> & os & sp & Fs & Eb & Ec & Pl & -> & Es). cbn [elem bind].
  destruct (e3_get _ _ _ _ Es i vi Ei) as (oi & Fi & Eoi & EFi & Ri). destruct (e3_get _ _ _ _ Es j vj Ej) as (oj & Fj & Eoj & EFj & Rj). destruct (e3_len _ _ _ _ Es) as [Lo Lf].
  apply NoDup_cons_iff in Nd as [Nb Nd]. apply nodup_nth in Nd as [Nd Dj].
  assert (Sk : forall k o, nth_error os k = Some o -> sl h (b, k) = Some (Some o)).
  { intros k o Hk. unfold sl. cbn [fst snd]. rewrite Eb. rewrite nth_error_app1 by (rewrite map_length; apply nth_error_Some; congruence). apply map_nth_error. exact Hk. }
  assert (InF : forall k F c, nth_error Fs k = Some F -> In c F -> In c (concat Fs)) by (intros k F c H1 H2; apply in_concat_nth; eauto).
  assert (NbF : forall k F, nth_error Fs k = Some F -> ~ In b F) by (intros k F Hk Hb; apply Nb; eauto).
  assert (Bn : fst root <> b) by (intros H1; apply Nr; left; auto).
  destruct (Nat.eqb_spec i j) as [<-|Nij].
  - assert (vj = vi) as -> by congruence. assert (oj = oi) as -> by congruence. assert (Fj = Fi) as -> by congruence. clear Ej Eoj EFj Rj Lj.
    destruct (IH ps t h (b, i) oi vi Fi subr subs (Sk _ _ Eoi) Ri (Nd _ _ EFi) (NbF _ _ EFi) Ar As D) as (tyr & p & orr & Fr & tys & q & oss & Fq & L1 & L2 & Sp & Sq & Rp & Rq & Pp & Pq & Nqp & X1 & X2 & X3 & I1 & I2 & Plug).
    cbn [fst] in *. exists tyr, p, orr, Fr, tys, q, oss, Fq. do 6 (split; [assumption|]). split; [right; eauto|]. split; [right; eauto|]. do 4 (split; [assumption|]).
    split; [intros c Hc; right; eauto|]. split; [intros c Hc; right; eauto|].
    intros h2 o2 v2 F2 o3 v3 F3 S2 R2 N2 S3 R3 N3 P2 Q2 P3 Q3 D23 Dn Lb2 K Kr.
    assert (NbR : ~ In b Fr) by (intros H1; apply (NbF _ _ EFi); auto). assert (NbQ : ~ In b Fq) by (intros H1; apply (NbF _ _ EFi); auto).
    assert (Kb : forall k, sl h2 (b, k) = sl h (b, k)).
    { intros k. apply K; [left; reflexivity|exact NbR|exact NbQ| |]; intros H1; [rewrite <- H1 in Pp|rewrite <- H1 in Pq]; cbn [fst] in *; exact (NbF _ _ EFi ltac:(eassumption)). }
    destruct (Plug h2 o2 v2 F2 o3 v3 F3 S2 R2 N2 S3 R3 N3 P2 Q2 P3 Q3 D23) as (FR & RR & NR & InR).
    { intros c H1 H2. apply (Dn c H1). right. eauto. }
    { intros c H1 H2 H3. apply Lb2; auto. right. eauto. }
    { intros c k H1 H2 H3 H4 H5. apply K; auto. right. eauto. }
    { apply Kb. }
    assert (Kc : forall k G c, k <> i -> nth_error Fs k = Some G -> In c G -> blk h2 c = blk h c).
    { intros k G c Nk Hk Hc. assert (Nc : ~ In c Fi) by exact (Dj k i G Fi c Nk Hk EFi Hc). assert (In c (b :: concat Fs)) by (right; eauto). apply blk_ext; [apply Lb2; auto|]. intros m.
      apply K; auto; intros H3; [rewrite <- H3 in Pp|rewrite <- H3 in Pq]; auto. }
    destruct (revec h h2 t b os sp os (upd i (aset (aset vi pr v2) ps v3) l) (upd i FR Fs) Eb) as [B2 E2]; rewrite ?upd_len; try lia; auto.
    { apply Lb2; [left; reflexivity|exact NbR|exact NbQ]. }
    { intros k ok Hk. rewrite Kb. auto. }
    { intros k ok vk Fk Hok Hvk HFk. destruct (nth_upd _ _ _ _ _ Hvk) as [[-> ->]|[Nk Hv]].
      - destruct (nth_upd _ _ _ _ _ HFk) as [[_ ->]|[Nk _]]; [|contradiction]. assert (ok = oi) as -> by congruence. exact RR.
      - destruct (nth_upd _ _ _ _ _ HFk) as [[-> _]|[_ HF]]; [contradiction|]. destruct (e3_get _ _ _ _ Es k vk Hv) as (o' & F' & Ho' & HF' & Rk). assert (ok = o') as -> by congruence. assert (Fk = F') as -> by congruence.
        eapply rep_agree; [exact Rk|]. intros c Hc. exact (Kc k F' c Nk HF Hc). }
    exists (b :: concat (upd i FR Fs)).
    assert (InU : forall c, In c (concat (upd i FR Fs)) <-> In c FR \/ exists k G, k <> i /\ nth_error Fs k = Some G /\ In c G).
    { intros c. rewrite in_concat_nth. split.
      - intros (k & G & Hk & Hc). destruct (nth_upd _ _ _ _ _ Hk) as [[-> ->]|[Nk HG]]; [auto|]. right. eauto.
      - intros [Hc|(k & G & Nk & Hk & Hc)]; [exists i, FR; split; [apply nth_error_upd_eq; lia|exact Hc]|exists k, G; split; [rewrite nth_error_upd_neq by auto; exact Hk|exact Hc]]. }
    assert (Frest : forall k G c, k <> i -> nth_error Fs k = Some G -> In c G -> ~ In c FR).
    { intros k G c Nk Hk Hc H1. assert (Nc : ~ In c Fi) by exact (Dj k i G Fi c Nk Hk EFi Hc). apply InR in H1 as [H1|[H1|[H1 _]]]; [| |auto]; (destruct (Dn c) as [H2|H2]; [auto|right; eauto|apply Nc; auto|apply Nc; auto]). }
    split; [|split].
    + cbn [aset]. rewrite Ei. cbn [aset]. rewrite nth_error_upd_eq by lia. replace (upd i (aset (aset vi pr v2) ps v3) (upd i (aset vi pr v2) l)) with (upd i (aset (aset vi pr v2) ps v3) l).
      2:{ apply list_ext. intros k. destruct (Nat.eq_dec k i) as [->|Nk]; [rewrite !nth_error_upd_eq by (rewrite ?upd_len; lia); reflexivity|rewrite !nth_error_upd_neq by auto; reflexivity]. }
      cbn [DmemSpec.rep]. split; [rewrite upd_len; exact U|]. split; [exact Su|]. split; [reflexivity|]. exists os, sp, (upd i FR Fs). auto 8.
    + constructor.
      * rewrite InU. intros [H1|(k & G & Nk & Hk & Hc)]; [|exact (NbF _ _ Hk Hc)]. apply InR in H1 as [H1|[H1|[H1 _]]]; [| |exact (NbF _ _ EFi H1)]; (destruct (Dn b) as [H2|H2]; [auto|left; reflexivity|auto|auto]).
      * apply nodup_nth. split.
        -- intros k G Hk. destruct (nth_upd _ _ _ _ _ Hk) as [[-> ->]|[Nk HG]]; [exact NR|exact (Nd _ _ HG)].
        -- intros k m G H' c Nkm Hk Hm Hc. destruct (nth_upd _ _ _ _ _ Hk) as [[-> ->]|[Nk HG]]; destruct (nth_upd _ _ _ _ _ Hm) as [[-> ->]|[Nm HH]]; [contradiction| | |].
           ++ intros H2. exact (Frest m H' c Nm HH H2 Hc).
           ++ exact (Frest k G c Nk HG Hc).
           ++ exact (Dj k m G H' c Nkm HG HH Hc).
    + intros c. cbn [In]. rewrite InU. split.
      * intros [<-|[H1|(k & G & Nk & Hk & Hc)]]; [right; right; auto| |].
        -- apply InR in H1 as [H1|[H1|[H1 H2]]]; auto. right. right. split; [right; eauto|exact H2].
        -- assert (Nc : ~ In c Fi) by exact (Dj k i G Fi c Nk Hk EFi Hc). right. right. split; [right; eauto|]. split; intros H1; apply Nc; auto.
      * intros [H1|[H1|[[<-|H1] [H2 H3]]]]; [right; left; apply InR; auto|right; left; apply InR; auto|auto|]. apply in_concat_nth in H1 as (k & G & Hk & Hc). destruct (Nat.eq_dec k i) as [->|Nk].
        -- right. left. apply InR. assert (G = Fi) as -> by congruence. auto.
        -- right. right. eauto.
  - clear IH. destruct (plug w pr t h (b, i) oi vi Fi subr (Sk _ _ Eoi) Ri (Nd _ _ EFi) (NbF _ _ EFi) Ar) as (tyr & p & orr & Fr & L1 & _ & Sp & Rp & Np & Pp & I1 & Or1 & Plug1).
    destruct (plug w ps t h (b, j) oj vj Fj subs (Sk _ _ Eoj) Rj (Nd _ _ EFj) (NbF _ _ EFj) As) as (tys & q & oss & Fq & L2 & _ & Sq & Rq & Nq & Pq & I2 & Or2 & Plug2). cbn [fst] in *.
    assert (Dij : forall c, In c Fi -> ~ In c Fj) by (intros c; exact (Dj i j Fi Fj c Nij EFi EFj)).
    assert (Bp : fst p = b \/ In (fst p) Fi) by (destruct Or1 as [->|O]; auto). assert (Bq : fst q = b \/ In (fst q) Fj) by (destruct Or2 as [->|O]; auto).
    assert (Nqp : q <> p).
    { intros E. destruct Or1 as [O1|O1], Or2 as [O2|O2].
      - rewrite E, O1 in O2. injection O2 as O2. auto.
      - rewrite E, O1 in O2. exact (NbF _ _ EFj O2).
      - rewrite <- E, O2 in O1. exact (NbF _ _ EFi O1).
      - rewrite E in O2. exact (Dij _ O1 O2). }
    assert (PFq : ~ In (fst p) Fq) by (intros H1; apply I2 in H1; destruct Bp as [H2|H2]; [rewrite H2 in H1; exact (NbF _ _ EFj H1)|exact (Dij _ H2 H1)]).
    assert (QFr : ~ In (fst q) Fr) by (intros H1; apply I1 in H1; destruct Bq as [H2|H2]; [rewrite H2 in H1; exact (NbF _ _ EFi H1)|exact (Dij _ H1 H2)]).
    exists tyr, p, orr, Fr, tys, q, oss, Fq. do 6 (split; [assumption|]). split; [destruct Bp as [->|Bp]; [left; reflexivity|right; eauto]|]. split; [destruct Bq as [->|Bq]; [left; reflexivity|right; eauto]|].
    do 3 (split; [assumption|]). split; [intros c H1 H2; exact (Dij c (I1 _ H1) (I2 _ H2))|]. split; [intros c Hc; right; eauto|]. split; [intros c Hc; right; eauto|].
    intros h2 o2 v2 F2 o3 v3 F3 S2 R2 N2 S3 R3 N3 P2 Q2 P3 Q3 D23 Dn Lb2 K Kr.
    assert (NbR : ~ In b Fr) by (intros H1; apply (NbF _ _ EFi); auto). assert (NbQ : ~ In b Fq) by (intros H1; apply (NbF _ _ EFj); auto).
    assert (Nb2 : ~ In b F2) by (intros H1; destruct (Dn b (or_introl H1) (or_introl eq_refl)); auto). assert (Nb3 : ~ In b F3) by (intros H1; destruct (Dn b (or_intror H1) (or_introl eq_refl)); auto).
    assert (Kp : forall c k, (c, k) = p -> c = b /\ k = i \/ In c Fi) by (intros c k E; rewrite <- E in Or1; destruct Or1 as [O|O]; [injection O as -> ->; auto|auto]).
    assert (Kq : forall c k, (c, k) = q -> c = b /\ k = j \/ In c Fj) by (intros c k E; rewrite <- E in Or2; destruct Or2 as [O|O]; [injection O as -> ->; auto|auto]).
    assert (Iin : forall c, In c Fi -> In c (b :: concat Fs)) by (intros c Hc; right; eauto). assert (Jin : forall c, In c Fj -> In c (b :: concat Fs)) by (intros c Hc; right; eauto).
    assert (IQ : forall c, In c Fi -> ~ In c Fq) by (intros c H1 H2; exact (Dij c H1 (I2 _ H2))). assert (JR : forall c, In c Fj -> ~ In c Fr) by (intros c H1 H2; exact (Dij c (I1 _ H2) H1)).
    (* the set F2 may contain blocks of the other place: then they do not belong to it any more *)
    assert (Sb : forall k, k <> i -> k <> j -> sl h2 (b, k) = sl h (b, k)).
    { intros k Hi Hj. apply K; [left; reflexivity|exact NbR|exact NbQ| |].
      - intros E. destruct (Kp _ _ E) as [[_ H1]|H1]; [auto|exact (NbF _ _ EFi H1)].
      - intros E. destruct (Kq _ _ E) as [[_ H1]|H1]; [auto|exact (NbF _ _ EFj H1)]. }
    destruct (Plug1 h2 o2 v2 F2 S2 R2 N2 P2 Nb2) as (o2' & FR & SR & RR & NR & InR).
    { intros c H1 H2. destruct (Dn c (or_introl H1) (Iin c H2)) as [H3|H3]; [exact H3|destruct (IQ c H2 H3)]. }
    { intros c H1 H2. apply Lb2; auto. }
    { intros c k H1 H2 H3. apply K; auto. intros E. destruct (Kq _ _ E) as [[-> _]|H4]; [exact (NbF _ _ EFi H1)|exact (Dij c H1 H4)]. }
    { intros H1. apply K; [left; reflexivity|exact NbR|exact NbQ|exact H1|]. intros E. destruct (Kq _ _ E) as [[_ H2]|H2]; [auto|exact (NbF _ _ EFj H2)]. }
    destruct (Plug2 h2 o3 v3 F3 S3 R3 N3 Q3 Nb3) as (o3' & FS & SS & RS & NS & InS).
    { intros c H1 H2. destruct (Dn c (or_intror H1) (Jin c H2)) as [H3|H3]; [destruct (JR c H2 H3)|exact H3]. }
    { intros c H1 H2. apply Lb2; auto. }
    { intros c k H1 H2 H3. apply K; auto. intros E. destruct (Kp _ _ E) as [[-> _]|H4]; [exact (NbF _ _ EFj H1)|exact (Dij c H4 H1)]. }
    { intros H1. apply K; [left; reflexivity|exact NbR|exact NbQ| |exact H1]. intros E. destruct (Kp _ _ E) as [[_ H2]|H2]; [auto|exact (NbF _ _ EFi H2)]. }
    assert (Kc : forall k G c, k <> i -> k <> j -> nth_error Fs k = Some G -> In c G -> blk h2 c = blk h c).
    { intros k G c Nk Nk' Hk Hc. assert (Nc : ~ In c Fi) by exact (Dj k i G Fi c Nk Hk EFi Hc). assert (Nc' : ~ In c Fj) by exact (Dj k j G Fj c Nk' Hk EFj Hc).
      assert (Ic : In c (b :: concat Fs)) by (right; eauto). assert (Cb : c <> b) by (intros ->; exact (NbF _ _ Hk Hc)). apply blk_ext; [apply Lb2; auto|]. intros m. apply K; auto; intros E.
      - destruct (Kp _ _ E) as [[H1 _]|H1]; auto.
      - destruct (Kq _ _ E) as [[H1 _]|H1]; auto. }
    set (U3 := fun (A : Type) (x y : A) (z : list A) => upd j y (upd i x z)).
    assert (nth_u3 : forall (A : Type) (x y : A) z k u, nth_error (U3 A x y z) k = Some u -> (k = j /\ u = y) \/ (k = i /\ u = x) \/ (k <> i /\ k <> j /\ nth_error z k = Some u)).
    { intros A x y z k u H1. destruct (nth_upd _ _ _ _ _ H1) as [H2|[N1 H2]]; [auto|]. destruct (nth_upd _ _ _ _ _ H2) as [H3|[N3' H3]]; auto. }
    destruct (revec h h2 t b os sp (U3 _ o2' o3' os) (U3 _ (aset vi pr v2) (aset vj ps v3) l) (U3 _ FR FS Fs) Eb) as [B2 E2]; unfold U3; rewrite ?upd_len; try lia; fold (U3 obj); fold (U3 val); fold (U3 (list nat)).
    { apply Lb2; [left; reflexivity|exact NbR|exact NbQ]. }
    { intros k Hk. apply Sb; lia. }
    { intros k ok Hk. destruct (nth_u3 _ _ _ _ _ _ Hk) as [[-> ->]|[[-> ->]|(N1 & N2' & Hok)]]; [exact SS|exact SR|]. rewrite Sb by auto. auto. }
    { intros k ok vk Fk Hok Hvk HFk. destruct (nth_u3 _ _ _ _ _ _ Hok) as [[-> ->]|[[-> ->]|(M1 & M2 & Hok')]]; destruct (nth_u3 _ _ _ _ _ _ Hvk) as [[Q1 ->]|[[Q1 ->]|(Q1 & Q1' & Hvk')]];
        destruct (nth_u3 _ _ _ _ _ _ HFk) as [[Z1 ->]|[[Z1 ->]|(Z1 & Z1' & HFk')]]; try congruence; try exact RS; try exact RR.
      destruct (e3_get _ _ _ _ Es k vk Hvk') as (o' & F' & Ho' & HF' & Rk). assert (ok = o') as -> by congruence. assert (Fk = F') as -> by congruence.
      eapply rep_agree; [exact Rk|]. intros c Hc. exact (Kc k F' c M1 M2 HF' Hc). }
    assert (InU : forall c, In c (concat (U3 _ FR FS Fs)) <-> In c FR \/ In c FS \/ exists k G, k <> i /\ k <> j /\ nth_error Fs k = Some G /\ In c G).
    { intros c. rewrite in_concat_nth. split.
      - intros (k & G & Hk & Hc). destruct (nth_u3 _ _ _ _ _ _ Hk) as [[-> ->]|[[-> ->]|(N1 & N2' & HG)]]; [auto|auto|]. right. right. exists k, G. auto.
      - unfold U3. intros [Hc|[Hc|(k & G & N1 & N2' & Hk & Hc)]].
        + exists i, FR. split; [rewrite nth_error_upd_neq by auto; apply nth_error_upd_eq; lia|exact Hc].
        + exists j, FS. split; [apply nth_error_upd_eq; rewrite upd_len; lia|exact Hc].
        + exists k, G. split; [rewrite !nth_error_upd_neq by auto; exact Hk|exact Hc]. }
    assert (FRS : forall c, In c FR -> ~ In c FS).
    { intros c H1 H2. apply InR in H1 as [H1|[H1 H1']]; apply InS in H2 as [H2|[H2 H2']].
      - exact (D23 c H1 H2).
      - destruct (Dn c (or_introl H1) (Jin c H2)) as [H3|H3]; [exact (JR c H2 H3)|auto].
      - destruct (Dn c (or_intror H2) (Iin c H1)) as [H3|H3]; [auto|exact (IQ c H1 H3)].
      - exact (Dij c H1 H2). }
    assert (Frest : forall k G c, k <> i -> k <> j -> nth_error Fs k = Some G -> In c G -> ~ In c FR /\ ~ In c FS).
    { intros k G c Nk Nk' Hk Hc. assert (Nc : ~ In c Fi) by exact (Dj k i G Fi c Nk Hk EFi Hc). assert (Nc' : ~ In c Fj) by exact (Dj k j G Fj c Nk' Hk EFj Hc). assert (Ic : In c (b :: concat Fs)) by (right; eauto).
      split; intros H1; [apply InR in H1 as [H1|[H1 _]]; [destruct (Dn c (or_introl H1) Ic); auto|auto]|apply InS in H1 as [H1|[H1 _]]; [destruct (Dn c (or_intror H1) Ic); auto|auto]]. }
    exists (b :: concat (U3 _ FR FS Fs)). split; [|split].
    + cbn [aset]. rewrite Ei. cbn [aset]. rewrite nth_error_upd_neq by auto. rewrite Ej. cbn [DmemSpec.rep]. split; [rewrite !upd_len; exact U|]. split; [exact Su|]. split; [reflexivity|].
      exists (U3 _ o2' o3' os), sp, (U3 _ FR FS Fs). split; [exact B2|]. split; [unfold U3; rewrite !upd_len; exact Ec|]. split; [exact Pl|]. split; [reflexivity|exact E2].
    + constructor.
      * rewrite InU. intros [H1|[H1|(k & G & _ & _ & Hk & Hc)]]; [| |exact (NbF _ _ Hk Hc)].
        -- apply InR in H1 as [H1|[H1 _]]; [auto|exact (NbF _ _ EFi H1)].
        -- apply InS in H1 as [H1|[H1 _]]; [auto|exact (NbF _ _ EFj H1)].
      * apply nodup_nth. split.
        -- intros k G Hk. destruct (nth_u3 _ _ _ _ _ _ Hk) as [[-> ->]|[[-> ->]|(_ & _ & HG)]]; [exact NS|exact NR|exact (Nd _ _ HG)].
        -- intros k m G H' c Nkm Hk Hm Hc. destruct (nth_u3 _ _ _ _ _ _ Hk) as [[-> ->]|[[-> ->]|(Z1 & Z2 & HG)]]; destruct (nth_u3 _ _ _ _ _ _ Hm) as [[-> ->]|[[-> ->]|(Z3 & Z4 & HH)]]; try (now contradiction Nkm).
           ++ intros H2. exact (FRS c H2 Hc).
           ++ intros H2. exact (proj2 (Frest m H' c Z3 Z4 HH H2) Hc).
           ++ exact (FRS c Hc).
           ++ intros H2. exact (proj1 (Frest m H' c Z3 Z4 HH H2) Hc).
           ++ exact (proj2 (Frest k G c Z1 Z2 HG Hc)).
           ++ exact (proj1 (Frest k G c Z1 Z2 HG Hc)).
           ++ exact (Dj k m G H' c Nkm HG HH Hc).
    + intros c. cbn [In]. rewrite InU. split.
      * intros [<-|[H1|[H1|(k & G & Nk & Nk' & Hk & Hc)]]]; [right; right; auto| | |].
        -- apply InR in H1 as [H1|[H1 H2]]; [auto|]. right. right. split; [apply Iin; exact H1|auto].
        -- apply InS in H1 as [H1|[H1 H2]]; [auto|]. right. right. split; [apply Jin; exact H1|auto].
        -- right. right. split; [right; eauto|]. split; intros H1; [exact (Dj k i G Fi c Nk Hk EFi Hc (I1 _ H1))|exact (Dj k j G Fj c Nk' Hk EFj Hc (I2 _ H1))].
      * intros [H1|[H1|[[<-|H1] [H2 H3]]]]; [right; left; apply InR; auto|right; right; left; apply InS; auto|auto|]. apply in_concat_nth in H1 as (k & G & Hk & Hc).
        destruct (Nat.eq_dec k i) as [->|Nk]; [right; left; apply InR; assert (G = Fi) as -> by congruence; auto|].
        destruct (Nat.eq_dec k j) as [->|Nk']; [right; right; left; apply InS; assert (G = Fj) as -> by congruence; auto|].
        right. right. right. exists k, G. auto.
Qed.

Variable vars : list dty.
Notation inv := (inv w vars).
Notation found := (found w vars).

(* two places of which neither lies in the other *)
Lemma two h vs FF r sub s x : inv h vs FF -> separate r s = true -> aref vs r = Some sub -> aref vs s = Some x ->
  exists t v ty p o F ts vsrc tys q oq Fq, found h vs FF r sub t v ty p o F /\ found h vs FF s x ts vsrc tys q oq Fq /\ q <> p /\ ~ In (fst p) Fq /\ ~ In (fst q) F /\ (forall c, In c F -> ~ In c Fq) /\
    (forall mo res v2, becomes2 w ty tys h p F q oq Fq mo res v2 -> exists h2 FF2, res = Ok h2 /\ inv h2 (take (aput vs r v2) s x mo) FF2).
Proof.
  intros I Sep Ar As. destruct (at_ref w vars _ _ _ _ _ I Ar) as (t & v & ty & p & o & F & Fr). destruct (at_ref w vars _ _ _ _ _ I As) as (ts & vsrc & tys & q & oq & Fq & Fs).
  exists t, v, ty, p, o, F, ts, vsrc, tys, q, oq, Fq. split; [exact Fr|]. split; [exact Fs|]. destruct (Nat.eq_dec (fst r) (fst s)) as [E|N].
  2:{ destruct (apart w vars _ _ _ _ _ _ _ _ _ _ _ _ _ _ _ _ _ _ _ I N Fr Fs) as (X1 & X2 & X3 & X4). do 4 (split; [assumption|]).
      exact (upd2 w vars _ _ _ _ _ _ _ _ _ _ _ _ _ _ _ _ _ _ _ I N Fr Fs). }
  unfold separate in Sep. rewrite E, Nat.eqb_refl in Sep. cbn [negb orb] in Sep.
  pose proof Fr as (Et & Ev & Fi & Ty & Sp & Rp & Np & Pp & Inc & _). pose proof Fs as (Ets & Evs & Fis & Tys & Sq & Rq & Nq & Pq & Incq & _). rewrite <- E in Ets, Evs, Incq.
  assert (ts = t) as -> by congruence. assert (vsrc = v) as -> by congruence. unfold aref in Ar, As. rewrite <- E in As. rewrite Ev in Ar, As.
  destruct (i_var _ _ _ _ _ I _ _ _ Et Ev) as (oR & SR & RR). destruct (i_nd _ _ _ _ _ I (fst r)) as [Nk Zk].
  destruct (plug2 _ _ _ _ _ _ _ _ _ _ SR RR Nk Zk Ar As Sep) as (ty' & p' & o' & F' & tys' & q' & oq' & Fq' & L1 & L2 & Sp' & Sq' & Rp' & Rq' & Ip & Iq & Nqp & X1 & X2 & X3 & I1 & I2 & Plug).
  unfold find in Fi, Fis. rewrite Et in Fi. rewrite <- E, Et in Fis. rewrite L1 in Fi. rewrite L2 in Fis. injection Fi as -> ->. injection Fis as -> ->.
  assert (o' = o) as -> by congruence. assert (oq' = oq) as -> by congruence. destruct (rep_fun _ _ _ _ _ _ _ Rp Rp') as [_ <-]. destruct (rep_fun _ _ _ _ _ _ _ Rq Rq') as [_ <-]. clear Rp' Rq' Sp' Sq'.
  do 4 (split; [assumption|]). intros [|] res v2 B; cbn [take].
  2:{ apply (upd1 w vars h vs FF r sub t v ty p o F I Fr). destruct B as (h2 & o2 & F2 & E2 & S2 & R2 & N2 & P2 & _ & _ & C). exists h2, o2, F2. rewrite app_nil_r in C. do 5 (split; [assumption|]).
      eapply chg_mono; [|exact C]. intros c [H|[H _]]; [exact H|discriminate]. }
  destruct (inv_lt _ _ _ _ _ I) as [L0 LF]. destruct B as (h2 & o2 & F2 & -> & S2 & R2 & N2 & P2 & Q2 & Sq2 & C). specialize (Sq2 eq_refl). set (k := fst r) in *.
  assert (ZG : ~ In 0 (F ++ Fq)) by (rewrite in_app_iff; intros [H|H]; auto).
  assert (In2 : forall c, In c F2 -> In c F \/ In c Fq \/ length h <= c) by (intros c H; apply (c_in _ _ _ _ _ C) in H; rewrite in_app_iff in H; tauto).
  assert (Z2 : ~ In 0 F2) by (intros H; destruct (In2 _ H) as [H1|[H1|H1]]; [auto|auto|lia]).
  assert (Bp : forall c i, (c, i) = p -> In c (FF k)) by (intros c i H; rewrite <- H in Ip; exact Ip). assert (Bq : forall c i, (c, i) = q -> In c (FF k)) by (intros c i H; rewrite <- H in Iq; exact Iq).
  destruct (Plug h2 o2 v2 F2 (mv tys oq) (moved x) [] S2 R2 N2 Sq2 ltac:(eapply rep_mv; exact Rq)) as (FR & RR2 & NR & InR); auto; try (now apply in_nil).
  { constructor. }
  { intros c [H1|[]] H2. destruct (In2 c H1) as [H3|[H3|H3]]; auto. apply LF in H2. lia. }
  { intros c H1 H2 H3. apply (c_frame _ _ _ _ _ C c (LF _ _ H1)). rewrite in_app_iff. tauto. }
  { intros c i H1 H2 H3 H4 H5. apply (c_frame _ _ _ _ _ C c (LF _ _ H1)); [rewrite in_app_iff; tauto|tauto]. }
  { apply (c_frame _ _ _ _ _ C 0 L0 ZG). intros [H|[_ H]]; [exact (Zk (Bp _ _ H))|exact (Zk (Bq _ _ H))]. }
  cbn [In] in InR. set (FF2 := fun j => if j =? k then FR else FF j). exists h2, FF2. split; [reflexivity|].
  assert (ZR : ~ In 0 FR) by (rewrite InR; tauto).
  assert (E2 : forall j, j <> k -> FF2 j = FF j) by (intros j Hj; unfold FF2; destruct (Nat.eqb_spec j k); [contradiction|reflexivity]).
  assert (E2k : FF2 k = FR) by (unfold FF2; rewrite Nat.eqb_refl; reflexivity).
  assert (Kj : forall j c, j <> k -> In c (FF j) -> blk h2 c = blk h c).
  { intros j c Hj Hc. assert (Nc : ~ In c (FF k)) by exact (i_dj _ _ _ _ _ I j k c Hj Hc). eapply chg_keep; [exact C|eapply LF; exact Hc| |].
    - rewrite in_app_iff. intros [H|H]; auto.
    - intros i [H|[_ H]]; [exact (Nc (Bp _ _ H))|exact (Nc (Bq _ _ H))]. }
  assert (Evs2 : nth_error (aput vs r v2) (fst s) = Some (aset v (snd r) v2)) by (rewrite (nth_aput _ _ _ _ _ Ev), <- E, Nat.eqb_refl; reflexivity).
  split.
  - rewrite <- (i_len _ _ _ _ _ I). apply (c_frame _ _ _ _ _ C 0 L0 ZG).
  - rewrite !len_aput. apply (i_vs _ _ _ _ _ I).
  - intros j tj vj Ht Hv. rewrite (nth_aput _ _ _ _ _ Evs2), <- E in Hv. fold k in Hv. destruct (Nat.eqb_spec j k) as [->|Nj].
    + rewrite E2k. assert (tj = t) as -> by congruence. injection Hv as <-. exists oR. split; [|exact RR2]. rewrite <- SR. apply (c_frame _ _ _ _ _ C 0 L0 ZG). intros [H|[_ H]]; [exact (Zk (Bp _ _ H))|exact (Zk (Bq _ _ H))].
    + rewrite (nth_aput _ _ _ _ _ Ev) in Hv. fold k in Hv. destruct (Nat.eqb_spec j k) as [|_]; [contradiction|]. rewrite E2 by exact Nj. destruct (i_var _ _ _ _ _ I _ _ _ Ht Hv) as (oj & Sj & Rj). exists oj. split.
      * rewrite <- Sj. eapply sl_keep; [exact C|exact L0|exact ZG|]. intros [H|[_ H]]; [exact (Zk (Bp _ _ H))|exact (Zk (Bq _ _ H))].
      * eapply rep_agree; [exact Rj|]. intros c Hc. eapply Kj; eauto.
  - intros j. destruct (Nat.eq_dec j k) as [->|Nj]; [rewrite E2k; auto|rewrite E2 by exact Nj; apply (i_nd _ _ _ _ _ I)].
  - intros j Hj. rewrite E2; [apply (i_out _ _ _ _ _ I); exact Hj|]. intros ->. assert (k < length vars) by (apply nth_error_Some; congruence). lia.
  - assert (X : forall j c, j <> k -> In c (FF j) -> ~ In c FR).
    { intros j c Hj Hc H. assert (Nc : ~ In c (FF k)) by exact (i_dj _ _ _ _ _ I j k c Hj Hc). apply InR in H as [H|[[]|[H _]]]; [|auto]. destruct (In2 c H) as [H1|[H1|H1]]; [auto|auto|]. apply LF in Hc. lia. }
    intros a b c Hab. destruct (Nat.eq_dec a k) as [->|Na].
    + rewrite E2k, E2 by auto. intros H1 H2. exact (X b c ltac:(auto) H2 H1).
    + rewrite (E2 a) by exact Na. destruct (Nat.eq_dec b k) as [->|Nb]; [rewrite E2k; intros H1; exact (X a c Na H1)|rewrite E2 by exact Nb; apply (i_dj _ _ _ _ _ I); exact Hab].
  - intros b. split.
    + intros Hb. destruct (Nat.eq_dec b 0) as [|Nz]; [auto|]. right. destruct (le_lt_dec (length h) b) as [Ge|Lt].
      * exists k. rewrite E2k. apply InR. left. exact (c_new _ _ _ _ _ C b Ge Hb).
      * destruct (in_dec Nat.eq_dec b F2) as [J2|N2']; [exists k; rewrite E2k; apply InR; auto|].
        destruct (in_dec Nat.eq_dec b (F ++ Fq)) as [J1|N1]; [exfalso; apply Hb; exact (c_dead _ _ _ _ _ C b J1 N2')|].
        assert (Hb1 : blk h b <> None). { destruct (c_frame _ _ _ _ _ C b Lt N1) as [G _]. unfold blen in G. destruct (blk h2 b), (blk h b); congruence. }
        rewrite in_app_iff in N1. apply (i_use _ _ _ _ _ I) in Hb1 as [->|[j Hj]]; [contradiction|].
        destruct (Nat.eq_dec j k) as [->|Nj]; [exists k; rewrite E2k; apply InR; right; right; tauto|]. exists j. rewrite E2 by exact Nj. exact Hj.
    + intros [->|[j Hj]].
      * destruct (c_frame _ _ _ _ _ C 0 L0 ZG) as [G _]. rewrite (i_len _ _ _ _ _ I) in G. unfold blen in G. intros H. rewrite H in G. discriminate.
      * destruct (Nat.eq_dec j k) as [->|Nj]; [rewrite E2k in Hj; eapply rep_live; [exact RR2|exact Hj]|]. rewrite E2 in Hj by exact Nj. rewrite (Kj j b Nj Hj). apply (i_use _ _ _ _ _ I). eauto.
Qed.
End Split.
