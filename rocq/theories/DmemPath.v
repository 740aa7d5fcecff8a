(* Places inside of nested vectors, and the memory of all variables. *)
From Verif Require Import Base ArithModel ArithProofs DmemModel DmemSpec DmemProofs DmemOps.

Section Path.
Variable w : N.
Hypothesis Hw : npo2_width w.
Notation rep := (rep w).
Notation only p := (fun q : place => q = p).

Lemma blk_slot h h2 b i l x : blk h b = Some l -> blen h2 b = blen h b -> sl h2 (b, i) = Some x -> (forall j, j <> i -> sl h2 (b, j) = sl h (b, j)) -> blk h2 b = Some (upd i x l).
Proof.
  intros E L S K. unfold blen in L. rewrite E in L. destruct (blk h2 b) as [l2|] eqn:E2; [|discriminate]. injection L as L. f_equal. unfold sl in S, K. cbn [fst snd] in S, K. rewrite E2 in S, K. rewrite E in K.
  apply list_ext. intros j. destruct (Nat.eq_dec j i) as [->|Nj].
  - rewrite S. symmetry. apply nth_error_upd_eq. rewrite <- L. apply nth_error_Some. congruence.
  - rewrite nth_error_upd_neq by auto. apply K. exact Nj.
Qed.

(* A path leads to a place; when only what lies there changes, the whole value changes there. *)
Lemma plug : forall path t h root o v F sub, sl h root = Some (Some o) -> rep h t o v F -> NoDup F -> ~ In (fst root) F -> aget v path = Some sub ->
  exists ty p o' F', locate h t root path = Ok (ty, p) /\ tyat t path = Some ty /\ sl h p = Some (Some o') /\ rep h ty o' sub F' /\ NoDup F' /\ ~ In (fst p) F' /\ incl F' F /\
    (p = root \/ In (fst p) F) /\
    (forall h2 o2 v2 F2, sl h2 p = Some (Some o2) -> rep h2 ty o2 v2 F2 -> NoDup F2 -> ~ In (fst p) F2 -> ~ In (fst root) F2 ->
       (forall c, In c F2 -> In c F -> In c F') -> (forall c, In c F -> ~ In c F' -> blen h2 c = blen h c) ->
       (forall c i, In c F -> ~ In c F' -> (c, i) <> p -> sl h2 (c, i) = sl h (c, i)) -> (root <> p -> sl h2 root = sl h root) ->
       exists oR FR, sl h2 root = Some (Some oR) /\ rep h2 t oR (aset v path v2) FR /\ NoDup FR /\ (forall c, In c FR <-> In c F2 \/ (In c F /\ ~ In c F'))).
Proof.
  induction path as [|i path IH]; intros t h root o v F sub S R Nd Nr A; cbn [aget locate tyat aset] in *.
  - injection A as ->. exists t, root, o, F. split; [destruct t; reflexivity|]. split; [destruct t; reflexivity|]. split; [exact S|]. split; [exact R|]. split; [exact Nd|]. split; [exact Nr|]. split; [apply incl_refl|]. split; [auto|].
    intros h2 o2 v2 F2 S2 R2 N2 _ _ _ _ _ _. exists o2, F2. split; [exact S2|]. split; [destruct sub; exact R2|]. split; [exact N2|]. intros c. tauto.
  - destruct v as [y|l]; [discriminate|]. destruct (nth_error l i) as [vi|] eqn:Ei; [|discriminate]. destruct t as [|t]; [destruct o; destruct R|]. destruct o as [y|el used cap self]; [destruct R|].
    cbn [locate tyat]. cbn [DmemSpec.rep] in R. destruct R as (U & Su & R). assert (Li : i < length l) by (apply nth_error_Some; congruence). rewrite (rdv_ok _ _ _ _ _ _ S). cbn [bind]. destruct (Nat.ltb_spec i used); [|lia].
    destruct el as [b|]; [|destruct R as (R & _); lia]. destruct R as (-> & os & sp & Fs & Eb & Ec & Pl & -> & Es). cbn [elem bind].
    destruct (e3_split _ _ _ _ _ _ Es Ei) as (o1 & oi & o2 & l1 & l2 & F1 & Fi & F2' & -> & -> & -> & K1 & K2 & K3 & Es1 & Ri & Es2).
    rewrite concat_app in *. cbn [concat] in *. apply NoDup_cons_iff in Nd as [Nb Nd]. rewrite !nodup_app in Nd. destruct Nd as (Nd1 & (Nd2 & Nd3 & Nd4) & Nd5). rewrite !in_app_iff in Nb.
    rewrite map_app in Eb. cbn [map] in Eb. rewrite <- app_assoc in Eb. cbn [app] in Eb. pose proof (sl_at _ _ _ _ _ Eb) as Si. rewrite map_length, K1 in Si.
    assert (D1 : forall c, In c (concat F1) -> ~ In c Fi) by (intros c H1 H2; apply (Nd5 c H1); apply in_app_iff; auto).
    assert (D2 : forall c, In c (concat F2') -> ~ In c Fi) by (intros c H1 H2; exact (Nd4 c H2 H1)).
    destruct (IH t h (b, i) oi vi Fi sub Si Ri Nd2 ltac:(cbn; tauto) A) as (ty & p & o' & F' & L & T & Sp & Rp & Np & Pp & Inc & Or & Plug). cbn [fst] in *.
    exists ty, p, o', F'. split; [exact L|]. split; [exact T|]. split; [exact Sp|]. split; [exact Rp|]. split; [exact Np|]. split; [exact Pp|].
    assert (Bp : fst p = b \/ In (fst p) Fi) by (destruct Or as [->|Or]; auto).
    assert (NbF' : ~ In b F') by (intros H1; apply Inc in H1; tauto).
    split; [intros c Hc; right; rewrite !in_app_iff; right; left; apply Inc; exact Hc|]. split; [right; cbn; rewrite !in_app_iff; destruct Bp as [->|Bp]; auto|].
    intros h2 on v2 Fn S2 R2 N2 Pn Rn Dn Lb2 K Kr. cbn [In] in *.
    assert (Nrp : root <> p) by (intros ->; apply Nr; rewrite !in_app_iff; destruct Bp as [H1|H1]; auto).
    destruct (Plug h2 on v2 Fn S2 R2 N2 Pn) as (oR & FR & SR & RR & NR & InR).
    { intros H1. apply NbF'. apply (Dn b H1). auto. }
    { intros c H1 H2. apply (Dn c H1). right. rewrite !in_app_iff. auto. }
    { intros c H1 H2. apply Lb2; [right; rewrite !in_app_iff; auto|exact H2]. }
    { intros c j H1 H2 H3. apply K; [right; rewrite !in_app_iff; auto|exact H2|exact H3]. }
    { intros H1. apply K; auto. }
    assert (B2 : blk h2 b = Some (map Some (o1 ++ oR :: o2) ++ sp)).
    { rewrite (blk_slot h h2 b i _ _ Eb (Lb2 b (or_introl eq_refl) NbF') SR).
      - rewrite <- K1, <- (map_length Some o1), upd_app, map_app, <- app_assoc. reflexivity.
      - intros j Nj. apply K; auto. intros H1. destruct Or as [Or|Or]; [rewrite Or in H1; injection H1 as ->; auto|]. rewrite <- H1 in Or. cbn [fst] in Or. tauto. }
    assert (Kc : forall c, In c (concat F1) \/ In c (concat F2') -> blk h2 c = blk h c).
    { intros c Hc. assert (Nc : ~ In c Fi) by (destruct Hc; auto). assert (NcF : ~ In c F') by (intros H1; apply Nc; auto). assert (Ic : b = c \/ In c (concat F1 ++ Fi ++ concat F2')) by (right; rewrite !in_app_iff; tauto).
      apply blk_ext; [apply Lb2; auto|]. intros j. apply K; auto. intros H1. destruct Bp as [H2|H2]; [|apply Nc; rewrite <- H1 in H2; exact H2]. rewrite <- H1 in H2. cbn [fst] in H2. subst c. tauto. }
    exists (Ve (Some b) used cap true), (b :: concat (F1 ++ FR :: F2')). split; [rewrite (Kr Nrp); exact S|]. split; [|split].
    + replace (upd i (aset vi path v2) (l1 ++ vi :: l2)) with (l1 ++ aset vi path v2 :: l2) by (rewrite <- K2; symmetry; apply upd_app).
      cbn [DmemSpec.rep]. split; [rewrite app_length in *; cbn [length] in *; exact U|]. split; [exact Su|]. split; [reflexivity|]. exists (o1 ++ oR :: o2), sp, (F1 ++ FR :: F2').
      split; [exact B2|]. split; [rewrite app_length in *; cbn [length] in *; exact Ec|]. split; [exact Pl|]. split; [reflexivity|]. apply e3_app; [|constructor; [exact RR|]].
      * eapply rep_agree_list; [exact Es1|]. auto.
      * eapply rep_agree_list; [exact Es2|]. auto.
    + rewrite concat_app. cbn [concat]. constructor.
      * rewrite !in_app_iff. intros [H1|[H1|H1]]; [tauto| |tauto]. apply InR in H1 as [H1|H1]; [|tauto]. apply NbF'. apply (Dn b H1). auto.
      * rewrite !nodup_app. split; [exact Nd1|]. split; [split; [exact NR|split; [exact Nd3|]]|].
        -- intros c H1 H2. apply InR in H1 as [H1|[H1 _]]; [|exact (Nd4 c H1 H2)]. apply (D2 c H2). apply Inc. apply (Dn c H1). right. rewrite !in_app_iff. auto.
        -- intros c H1. rewrite in_app_iff. intros [H2|H2]; [|apply (Nd5 c H1); apply in_app_iff; auto]. apply InR in H2 as [H2|[H2 _]]; [|exact (D1 c H1 H2)].
           apply (D1 c H1). apply Inc. apply (Dn c H2). right. rewrite !in_app_iff. auto.
    + intros c. rewrite concat_app. cbn [concat In]. rewrite !in_app_iff. split.
      * intros [<-|[H1|[H1|H1]]]; [right; auto| | |].
        -- right. split; [auto|]. intros H2. apply (D1 c H1). auto.
        -- apply InR in H1 as [H1|[H1 H2]]; [auto|]. right. split; [auto|exact H2].
        -- right. split; [auto|]. intros H2. apply (D2 c H1). auto.
      * intros [H1|[[H1|[H1|[H1|H1]]] H2]]; auto.
        -- right. right. left. apply InR. auto.
        -- right. right. left. apply InR. auto.
Qed.

(* ---- all variables ---- *)
Variable vars : list dty.
Record inv (h : heap) (vs : list val) (FF : nat -> list nat) : Prop := Inv {
  i_len : blen h 0 = Some (length vars);
  i_vs : length vs = length vars;
  i_var : forall k t v, nth_error vars k = Some t -> nth_error vs k = Some v -> exists o, sl h (0, k) = Some (Some o) /\ rep h t o v (FF k);
  i_nd : forall k, NoDup (FF k) /\ ~ In 0 (FF k);
  i_out : forall k, length vars <= k -> FF k = [];
  i_dj : forall k l c, k <> l -> In c (FF k) -> ~ In c (FF l);
  i_use : forall b, blk h b <> None <-> b = 0 \/ exists k, In b (FF k) }.

Lemma inv_lt h vs FF : inv h vs FF -> 0 < length h /\ (forall k c, In c (FF k) -> c < length h).
Proof. intros I. split; [|intros k c Hc]; apply blk_lt; apply (i_use _ _ _ I); eauto. Qed.
(* what is found at a reference *)
Definition found (h : heap) (vs : list val) (FF : nat -> list nat) (r : ref) (sub : val) (t : dty) (v : val) (ty : dty) (p : place) (o' : obj) (F' : list nat) : Prop :=
    nth_error vars (fst r) = Some t /\ nth_error vs (fst r) = Some v /\ find vars h r = Ok (ty, p) /\ tyref vars r = Some ty /\
    sl h p = Some (Some o') /\ rep h ty o' sub F' /\ NoDup F' /\ ~ In (fst p) F' /\ incl F' (FF (fst r)) /\ (p = (0, fst r) \/ In (fst p) (FF (fst r))) /\
    (forall h2 o2 v2 F2, sl h2 p = Some (Some o2) -> rep h2 ty o2 v2 F2 -> NoDup F2 -> ~ In (fst p) F2 -> ~ In 0 F2 ->
       (forall c, In c F2 -> In c (FF (fst r)) -> In c F') -> (forall c, In c (FF (fst r)) -> ~ In c F' -> blen h2 c = blen h c) ->
       (forall c i, In c (FF (fst r)) -> ~ In c F' -> (c, i) <> p -> sl h2 (c, i) = sl h (c, i)) -> ((0, fst r) <> p -> sl h2 (0, fst r) = sl h (0, fst r)) ->
       exists oR FR, sl h2 (0, fst r) = Some (Some oR) /\ rep h2 t oR (aset v (snd r) v2) FR /\ NoDup FR /\ (forall c, In c FR <-> In c F2 \/ (In c (FF (fst r)) /\ ~ In c F'))).
Lemma at_ref h vs FF r sub : inv h vs FF -> aref vs r = Some sub -> exists t v ty p o' F', found h vs FF r sub t v ty p o' F'.
Proof.
  intros I A. unfold aref in A. destruct (nth_error vs (fst r)) as [v|] eqn:Ev; [|discriminate]. assert (Lk : fst r < length vars) by (rewrite <- (i_vs _ _ _ I); apply nth_error_Some; congruence).
  destruct (nth_error vars (fst r)) as [t|] eqn:Et; [|apply nth_error_None in Et; lia]. destruct (i_var _ _ _ I _ _ _ Et Ev) as (o & S & R). destruct (i_nd _ _ _ I (fst r)) as [N1 N2].
  destruct (plug (snd r) t h (0, fst r) o v _ sub S R N1 N2 A) as (ty & p & o' & F' & L & T & Sp & Rp & Np & Pp & Inc & Or & Plug). exists t, v, ty, p, o', F'.
  unfold found. rewrite Ev. split; [exact Et|]. split; [reflexivity|]. unfold find, tyref. rewrite Et. auto 12.
Qed.
Lemma nth_aput vs r x v k : nth_error vs (fst r) = Some v -> nth_error (aput vs r x) k = if k =? fst r then Some (aset v (snd r) x) else nth_error vs k.
Proof.
  intros E. unfold aput. rewrite E. destruct (Nat.eqb_spec k (fst r)) as [->|N]; [apply nth_error_upd_eq; apply nth_error_Some; congruence|apply nth_error_upd_neq; auto].
Qed.
Lemma len_aput vs r x : length (aput vs r x) = length vs.
Proof. unfold aput. destruct (nth_error vs (fst r)); [apply upd_len|reflexivity]. Qed.

Lemma upd1 h vs FF r sub t v ty p o' F' : inv h vs FF -> found h vs FF r sub t v ty p o' F' ->
  forall res v2, becomes w ty h p F' res v2 -> exists h2 FF2, res = Ok h2 /\ inv h2 (aput vs r v2) FF2.
Proof.
  intros I (Et & Ev & Fi & Ty & Sp & Rp & Np & Pp & Inc & Or & Plug). destruct (inv_lt _ _ _ I) as [L0 LF]. intros res v2 (h2 & o2 & F2 & -> & S2 & R2 & N2 & P2 & C). set (k := fst r) in *.
  destruct (i_nd _ _ _ I k) as [Nk Zk]. assert (Z' : ~ In 0 F') by (intros H; apply Zk; auto).
  assert (In2 : forall c, In c F2 -> In c F' \/ length h <= c) by apply (c_in _ _ _ _ _ C).
  assert (Z2 : ~ In 0 F2) by (intros H; destruct (In2 _ H) as [H1|H1]; [auto|lia]).
  destruct (Plug h2 o2 v2 F2 S2 R2 N2 P2 Z2) as (oR & FR & SR & RR & NR & InR).
  { intros c H1 H2. destruct (In2 c H1) as [H3|H3]; [exact H3|]. apply LF in H2. lia. }
  { intros c H1 H2. apply (c_frame _ _ _ _ _ C c (LF _ _ H1) H2). }
  { intros c i H1 H2 H3. apply (c_frame _ _ _ _ _ C c (LF _ _ H1) H2). exact H3. }
  { intros H. apply (c_frame _ _ _ _ _ C 0 L0 Z'). exact H. }
  set (FF2 := fun j => if j =? k then FR else FF j). exists h2, FF2. split; [reflexivity|].
  assert (ZR : ~ In 0 FR) by (rewrite InR; tauto).
  assert (E2 : forall j, j <> k -> FF2 j = FF j) by (intros j Hj; unfold FF2; destruct (Nat.eqb_spec j k); [contradiction|reflexivity]).
  assert (E2k : FF2 k = FR) by (unfold FF2; rewrite Nat.eqb_refl; reflexivity).
  assert (Kj : forall j c, j <> k -> In c (FF j) -> blk h2 c = blk h c).
  { intros j c Hj Hc. eapply chg_keep; [exact C|eapply LF; exact Hc|intros H; apply (i_dj _ _ _ I j k c Hj Hc); apply Inc; exact H|]. intros i H.
    destruct Or as [Or|Or]; [rewrite <- H in Or; injection Or as -> _; apply (i_nd _ _ _ I j); exact Hc|]. rewrite <- H in Or. exact (i_dj _ _ _ I j k c Hj Hc Or). }
  assert (V2 : forall j t v, nth_error vars j = Some t -> nth_error (aput vs r v2) j = Some v -> exists o, sl h2 (0, j) = Some (Some o) /\ rep h2 t o v (FF2 j)).
  { intros j tj vj Ht Hv. rewrite (nth_aput _ _ _ _ _ Ev) in Hv. fold k in Hv. destruct (Nat.eqb_spec j k) as [->|Nj].
    - rewrite E2k. assert (tj = t) as -> by congruence. injection Hv as <-. exists oR. auto.
    - rewrite E2 by exact Nj. destruct (i_var _ _ _ I _ _ _ Ht Hv) as (oj & Sj & Rj). exists oj. split.
      + rewrite <- Sj. eapply sl_keep; [exact C|exact L0|exact Z'|]. intros H. destruct Or as [Or|Or]; [rewrite <- H in Or; injection Or as ->; auto|]. rewrite <- H in Or. auto.
      + eapply rep_agree; [exact Rj|]. intros c Hc. eapply Kj; eauto. }
  split.
  - rewrite <- (i_len _ _ _ I). apply (c_frame _ _ _ _ _ C 0 L0 Z').
  - rewrite len_aput. apply (i_vs _ _ _ I).
  - exact V2.
  - intros j. destruct (Nat.eq_dec j k) as [->|Nj]; [rewrite E2k; auto|rewrite E2 by exact Nj; apply (i_nd _ _ _ I)].
  - intros j Hj. rewrite E2; [apply (i_out _ _ _ I); exact Hj|]. intros ->. assert (k < length vars) by (apply nth_error_Some; congruence). lia.
  - assert (X : forall j c, j <> k -> In c (FF j) -> ~ In c FR).
    { intros j c Hj Hc H. apply InR in H as [H|[H _]]; [|exact (i_dj _ _ _ I j k c Hj Hc H)]. destruct (In2 c H) as [H1|H1]; [exact (i_dj _ _ _ I j k c Hj Hc (Inc _ H1))|]. apply LF in Hc. lia. }
    intros a b c Hab. destruct (Nat.eq_dec a k) as [->|Na].
    + rewrite E2k, E2 by auto. intros H1 H2. exact (X b c ltac:(auto) H2 H1).
    + rewrite (E2 a) by exact Na. destruct (Nat.eq_dec b k) as [->|Nb]; [rewrite E2k; intros H1; exact (X a c Na H1)|rewrite E2 by exact Nb; apply (i_dj _ _ _ I); exact Hab].
  - intros b. split.
    + intros Hb. destruct (Nat.eq_dec b 0) as [|Nz]; [auto|]. right. destruct (le_lt_dec (length h) b) as [Ge|Lt].
      * exists k. rewrite E2k. apply InR. left. exact (c_new _ _ _ _ _ C b Ge Hb).
      * destruct (in_dec Nat.eq_dec b F') as [I1|N1].
        -- destruct (in_dec Nat.eq_dec b F2) as [I2|N2']; [exists k; rewrite E2k; apply InR; auto|]. exfalso. apply Hb. exact (c_dead _ _ _ _ _ C b I1 N2').
        -- assert (Hb1 : blk h b <> None). { destruct (c_frame _ _ _ _ _ C b Lt N1) as [G _]. unfold blen in G. destruct (blk h2 b), (blk h b); congruence. }
           apply (i_use _ _ _ I) in Hb1 as [->|[j Hj]]; [contradiction|]. destruct (Nat.eq_dec j k) as [->|Nj]; [exists k; rewrite E2k; apply InR; auto|exists j; rewrite E2 by exact Nj; exact Hj].
    + intros [->|[j Hj]].
      * destruct (c_frame _ _ _ _ _ C 0 L0 Z') as [G _]. rewrite (i_len _ _ _ I) in G. unfold blen in G. intros H. rewrite H in G. discriminate.
      * destruct (Nat.eq_dec j k) as [->|Nj]; [rewrite E2k in Hj; eapply rep_live; [exact RR|exact Hj]|]. rewrite E2 in Hj by exact Nj. rewrite (Kj j b Nj Hj). apply (i_use _ _ _ I). eauto.
Qed.

Lemma apart h vs FF r sub t v ty p o F s x ts vs' tys q oq Fq : inv h vs FF -> fst r <> fst s -> found h vs FF r sub t v ty p o F -> found h vs FF s x ts vs' tys q oq Fq ->
  q <> p /\ ~ In (fst p) Fq /\ ~ In (fst q) F /\ (forall c, In c F -> ~ In c Fq).
Proof.
  intros I N (_ & _ & _ & _ & _ & _ & _ & P & Inc & Or & _) (_ & _ & _ & _ & _ & _ & _ & Pq & Incq & Orq & _).
  assert (X : forall k l c, k <> l -> (c = 0 \/ In c (FF k)) -> ~ In c (FF l)).
  { intros k l c Nk [->|Hc]; [apply (i_nd _ _ _ I)|exact (i_dj _ _ _ I k l c Nk Hc)]. }
  assert (Bp : fst p = 0 \/ In (fst p) (FF (fst r))) by (destruct Or as [->|Or]; auto). assert (Bq : fst q = 0 \/ In (fst q) (FF (fst s))) by (destruct Orq as [->|Orq]; auto).
  split; [|split; [|split]].
  - intros ->. destruct Or as [->|Or], Orq as [Orq|Orq].
    + injection Orq as Orq. auto.
    + exact (proj2 (i_nd _ _ _ I (fst s)) Orq).
    + rewrite Orq in Or. exact (proj2 (i_nd _ _ _ I (fst r)) Or).
    + exact (i_dj _ _ _ I _ _ _ N Or Orq).
  - intros H. exact (X _ _ _ N Bp (Incq _ H)).
  - intros H. exact (X (fst s) (fst r) _ ltac:(auto) Bq (Inc _ H)).
  - intros c H1 H2. exact (i_dj _ _ _ I _ _ _ N (Inc _ H1) (Incq _ H2)).
Qed.

Lemma upd2 h vs FF r sub t v ty p o F s x ts vsrc tys q oq Fq : inv h vs FF -> fst r <> fst s -> found h vs FF r sub t v ty p o F -> found h vs FF s x ts vsrc tys q oq Fq ->
  forall mo res v2, becomes2 w ty tys h p F q oq Fq mo res v2 -> exists h2 FF2, res = Ok h2 /\ inv h2 (take (aput vs r v2) s x mo) FF2.
Proof.
  intros I N Fp Fnd mo res v2 B. destruct mo; cbn [take].
  2:{ apply (upd1 h vs FF r sub t v ty p o F I Fp). destruct B as (h2 & o2 & F2 & E & S2 & R2 & N2 & P2 & _ & _ & C). exists h2, o2, F2. rewrite app_nil_r in C. do 5 (split; [assumption|]).
      eapply chg_mono; [|exact C]. intros c [H|[H _]]; [exact H|discriminate]. }
  destruct (apart _ _ _ _ _ _ _ _ _ _ _ _ _ _ _ _ _ _ _ I N Fp Fnd) as (Nqp & PFq & QF & Dj).
  destruct Fp as (Et & Ev & Fi & Ty & Sp & Rp & Np & Pp & Inc & Or & Plug). destruct Fnd as (Ets & Evs & Fis & Tys & Sq & Rq & Nq & Pq & Incq & Orq & Plugq).
  destruct (inv_lt _ _ _ I) as [L0 LF]. destruct B as (h2 & o2 & F2 & -> & S2 & R2 & N2 & P2 & Q2 & Sq2 & C). specialize (Sq2 eq_refl). set (k := fst r) in *. set (l := fst s) in *.
  destruct (i_nd _ _ _ I k) as [Nk Zk]. destruct (i_nd _ _ _ I l) as [Nl Zl].
  assert (ZG : ~ In 0 (F ++ Fq)) by (rewrite in_app_iff; intros [H|H]; auto).
  assert (In2 : forall c, In c F2 -> In c F \/ In c Fq \/ length h <= c) by (intros c H; apply (c_in _ _ _ _ _ C) in H; rewrite in_app_iff in H; tauto).
  assert (Z2 : ~ In 0 F2) by (intros H; destruct (In2 _ H) as [H1|[H1|H1]]; [auto|auto|lia]).
  assert (Gk : forall c, In c (FF k) -> ~ In c F -> ~ In c (F ++ Fq)) by (intros c H1 H2; rewrite in_app_iff; intros [H3|H3]; [auto|exact (i_dj _ _ _ I k l c N H1 (Incq _ H3))]).
  assert (Gl : forall c, In c (FF l) -> ~ In c Fq -> ~ In c (F ++ Fq)) by (intros c H1 H2; rewrite in_app_iff; intros [H3|H3]; [exact (i_dj _ _ _ I k l c N (Inc _ H3) H1)|auto]).
  assert (Bq : forall c i, (c, i) = q -> c = 0 \/ In c (FF l)) by (intros c i <-; destruct Orq as [H|H]; [injection H; auto|auto]).
  assert (Bp : forall c i, (c, i) = p -> c = 0 \/ In c (FF k)) by (intros c i <-; destruct Or as [H|H]; [injection H; auto|auto]).
  assert (Z0 : forall j, j <> k -> (0, j) <> p) by (intros j Hj H; destruct Or as [Or|Or]; [rewrite <- H in Or; injection Or as ->; auto|rewrite <- H in Or; auto]).
  assert (Z0q : forall j, j <> l -> (0, j) <> q) by (intros j Hj H; destruct Orq as [Or'|Or']; [rewrite <- H in Or'; injection Or' as ->; auto|rewrite <- H in Or'; auto]).
  destruct (Plug h2 o2 v2 F2 S2 R2 N2 P2 Z2) as (oR & FR & SR & RR & NR & InR).
  { intros c H1 H2. destruct (In2 c H1) as [H3|[H3|H3]]; [exact H3|destruct (i_dj _ _ _ I k l c N H2 (Incq _ H3))|]. apply LF in H2. lia. }
  { intros c H1 H2. apply (c_frame _ _ _ _ _ C c (LF _ _ H1) (Gk c H1 H2)). }
  { intros c i H1 H2 H3. apply (c_frame _ _ _ _ _ C c (LF _ _ H1) (Gk c H1 H2)). intros [H4|[_ H4]]; [auto|]. destruct (Bq _ _ H4) as [->|H5]; [auto|]. exact (i_dj _ _ _ I k l c N H1 H5). }
  { intros H. apply (c_frame _ _ _ _ _ C 0 L0 ZG). intros [H4|[_ H4]]; [auto|]. exact (Z0q k N H4). }
  destruct (Plugq h2 (mv tys oq) (moved x) [] Sq2) as (oS & FS & SS & RS & NS & InS).
  { eapply rep_mv. exact Rq. }
  { constructor. }
  { intros []. }
  { intros []. }
  { intros c []. }
  { intros c H1 H2. apply (c_frame _ _ _ _ _ C c (LF _ _ H1) (Gl c H1 H2)). }
  { intros c i H1 H2 H3. apply (c_frame _ _ _ _ _ C c (LF _ _ H1) (Gl c H1 H2)). intros [H4|[_ H4]]; [|auto]. destruct (Bp _ _ H4) as [->|H5]; [auto|]. exact (i_dj _ _ _ I k l c N H5 H1). }
  { intros H. apply (c_frame _ _ _ _ _ C 0 L0 ZG). intros [H4|[_ H4]]; [|auto]. exact (Z0 l ltac:(auto) H4). }
  cbn [In] in InS.
  set (FF2 := fun j => if j =? k then FR else if j =? l then FS else FF j). exists h2, FF2. split; [reflexivity|].
  assert (ZR : ~ In 0 FR) by (rewrite InR; tauto). assert (ZS : ~ In 0 FS) by (rewrite InS; tauto).
  assert (E2 : forall j, j <> k -> j <> l -> FF2 j = FF j) by (intros j Hj Hl; unfold FF2; destruct (Nat.eqb_spec j k); [contradiction|]; destruct (Nat.eqb_spec j l); [contradiction|reflexivity]).
  assert (E2k : FF2 k = FR) by (unfold FF2; rewrite Nat.eqb_refl; reflexivity).
  assert (E2l : FF2 l = FS) by (unfold FF2; destruct (Nat.eqb_spec l k); [congruence|]; rewrite Nat.eqb_refl; reflexivity).
  assert (Kj : forall j c, j <> k -> j <> l -> In c (FF j) -> blk h2 c = blk h c).
  { intros j c Hj Hl Hc. eapply chg_keep; [exact C|eapply LF; exact Hc| |].
    - rewrite in_app_iff. intros [H|H]; [exact (i_dj _ _ _ I j k c Hj Hc (Inc _ H))|exact (i_dj _ _ _ I j l c Hl Hc (Incq _ H))].
    - intros i [H|[_ H]]; [destruct (Bp _ _ H) as [->|H5]|destruct (Bq _ _ H) as [->|H5]]; try (apply (i_nd _ _ _ I j); exact Hc); [exact (i_dj _ _ _ I j k c Hj Hc H5)|exact (i_dj _ _ _ I j l c Hl Hc H5)]. }
  assert (Evs2 : nth_error (aput vs r v2) (fst s) = Some vsrc). { rewrite (nth_aput _ _ _ _ _ Ev). fold k l. destruct (Nat.eqb_spec l k); [congruence|exact Evs]. }
  split.
  - rewrite <- (i_len _ _ _ I). apply (c_frame _ _ _ _ _ C 0 L0 ZG).
  - rewrite !len_aput. apply (i_vs _ _ _ I).
  - intros j tj vj Ht Hv. rewrite (nth_aput _ _ _ _ _ Evs2) in Hv. fold l in Hv. destruct (Nat.eqb_spec j l) as [->|Njl].
    + rewrite E2l. assert (tj = ts) as -> by congruence. injection Hv as <-. exists oS. auto.
    + rewrite (nth_aput _ _ _ _ _ Ev) in Hv. fold k in Hv. destruct (Nat.eqb_spec j k) as [->|Njk].
      * rewrite E2k. assert (tj = t) as -> by congruence. injection Hv as <-. exists oR. auto.
      * rewrite E2 by assumption. destruct (i_var _ _ _ I _ _ _ Ht Hv) as (oj & Sj & Rj). exists oj. split.
        -- rewrite <- Sj. eapply sl_keep; [exact C|exact L0|exact ZG|]. intros [H|[_ H]]; [exact (Z0 j Njk H)|exact (Z0q j Njl H)].
        -- eapply rep_agree; [exact Rj|]. intros c Hc. eapply Kj; eauto.
  - intros j. destruct (Nat.eq_dec j k) as [->|Nj]; [rewrite E2k; auto|]. destruct (Nat.eq_dec j l) as [->|Nj']; [rewrite E2l; auto|]. rewrite E2 by assumption. apply (i_nd _ _ _ I).
  - assert (k < length vars) by (apply nth_error_Some; congruence). assert (l < length vars) by (apply nth_error_Some; congruence). intros j Hj. rewrite E2; [apply (i_out _ _ _ I); exact Hj|lia|lia].
  - assert (X : forall j c, j <> k -> j <> l -> In c (FF j) -> ~ In c FR /\ ~ In c FS).
    { intros j c Hj Hl Hc. split; intros H.
      - apply InR in H as [H|[H _]]; [|exact (i_dj _ _ _ I j k c Hj Hc H)]. destruct (In2 c H) as [H1|[H1|H1]]; [exact (i_dj _ _ _ I j k c Hj Hc (Inc _ H1))|exact (i_dj _ _ _ I j l c Hl Hc (Incq _ H1))|]. apply LF in Hc. lia.
      - apply InS in H as [[]|[H _]]. exact (i_dj _ _ _ I j l c Hl Hc H). }
    assert (Y : forall c, In c FR -> ~ In c FS).
    { intros c H1 H2. apply InS in H2 as [[]|[H2 H3]]. apply InR in H1 as [H1|[H1 _]]; [|exact (i_dj _ _ _ I k l c N H1 H2)].
      destruct (In2 c H1) as [H4|[H4|H4]]; [exact (i_dj _ _ _ I k l c N (Inc _ H4) H2)|auto|]. apply LF in H2. lia. }
    intros a b c Hab. destruct (Nat.eq_dec a k) as [->|Nak]; [rewrite E2k|destruct (Nat.eq_dec a l) as [->|Nal]; [rewrite E2l|rewrite (E2 a) by assumption]];
      (destruct (Nat.eq_dec b k) as [->|Nbk]; [rewrite E2k|destruct (Nat.eq_dec b l) as [->|Nbl]; [rewrite E2l|rewrite (E2 b) by assumption]]); try (now contradiction Hab).
    + apply Y.
    + intros H1 H2. exact (proj1 (X b c Nbk Nbl H2) H1).
    + intros H1 H2. exact (Y c H2 H1).
    + intros H1 H2. exact (proj2 (X b c Nbk Nbl H2) H1).
    + intros H1. exact (proj1 (X a c Nak Nal H1)).
    + intros H1. exact (proj2 (X a c Nak Nal H1)).
    + exact (i_dj _ _ _ I a b c Hab).
  - intros b. split.
    + intros Hb. destruct (Nat.eq_dec b 0) as [|Nz]; [auto|]. right. destruct (le_lt_dec (length h) b) as [Ge|Lt].
      * exists k. rewrite E2k. apply InR. left. exact (c_new _ _ _ _ _ C b Ge Hb).
      * destruct (in_dec Nat.eq_dec b F2) as [I2|N2']; [exists k; rewrite E2k; apply InR; auto|].
        destruct (in_dec Nat.eq_dec b (F ++ Fq)) as [I1|N1]; [exfalso; apply Hb; exact (c_dead _ _ _ _ _ C b I1 N2')|].
        assert (Hb1 : blk h b <> None). { destruct (c_frame _ _ _ _ _ C b Lt N1) as [G _]. unfold blen in G. destruct (blk h2 b), (blk h b); congruence. }
        rewrite in_app_iff in N1. apply (i_use _ _ _ I) in Hb1 as [->|[j Hj]]; [contradiction|].
        destruct (Nat.eq_dec j k) as [->|Nj]; [exists k; rewrite E2k; apply InR; right; tauto|]. destruct (Nat.eq_dec j l) as [->|Nj']; [exists l; rewrite E2l; apply InS; right; tauto|].
        exists j. rewrite E2 by assumption. exact Hj.
    + intros [->|[j Hj]].
      * destruct (c_frame _ _ _ _ _ C 0 L0 ZG) as [G _]. rewrite (i_len _ _ _ I) in G. unfold blen in G. intros H. rewrite H in G. discriminate.
      * destruct (Nat.eq_dec j k) as [->|Nj]; [rewrite E2k in Hj; eapply rep_live; [exact RR|exact Hj]|]. destruct (Nat.eq_dec j l) as [->|Nj']; [rewrite E2l in Hj; eapply rep_live; [exact RS|exact Hj]|].
        rewrite E2 in Hj by assumption. rewrite (Kj j b Nj Nj' Hj). apply (i_use _ _ _ I). eauto.
Qed.
End Path.
