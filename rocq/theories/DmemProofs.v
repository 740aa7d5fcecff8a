(* Nested vectors own their memory. *)
From Verif Require Import Base ArithModel ArithProofs DmemModel DmemSpec.

(* ---- lists ---- *)
Lemma nodup_app {X} (a b : list X) : NoDup (a ++ b) <-> NoDup a /\ NoDup b /\ (forall x, In x a -> ~ In x b).
Proof.
  induction a as [|x a IH]; cbn; [split; [intros H; repeat split; auto; constructor|tauto]|]. rewrite !NoDup_cons_iff, IH, in_app_iff. split.
  - intros (H1 & H2 & H3 & H4). repeat split; auto. intros y [->|Hy]; auto.
  - intros ((H1 & H2) & H3 & H4). repeat split; auto. intros [H|H]; auto. eapply H4; [left; reflexivity|exact H].
Qed.
Lemma e3_len {A B C} (R : A -> B -> C -> Prop) a b c : each3 R a b c -> length a = length b /\ length c = length b.
Proof. induction 1; cbn; lia. Qed.
Lemma e3_impl {A B C} (R R' : A -> B -> C -> Prop) a b c : (forall x y z, In z c -> R x y z -> R' x y z) -> each3 R a b c -> each3 R' a b c.
Proof. intros H E. induction E; constructor; auto. { apply H; [left; reflexivity|assumption]. } apply IHE. intros x y z Hz. apply H. now right. Qed.
Lemma e3_app {A B C} (R : A -> B -> C -> Prop) a b c a' b' c' : each3 R a b c -> each3 R a' b' c' -> each3 R (a ++ a') (b ++ b') (c ++ c').
Proof. induction 1; cbn; auto. intros. constructor; auto. Qed.
Lemma e3_split {A B C} (R : A -> B -> C -> Prop) k : forall a b c x, each3 R a b c -> nth_error b k = Some x ->
  exists a1 o a2 b1 b2 c1 F c2, a = a1 ++ o :: a2 /\ b = b1 ++ x :: b2 /\ c = c1 ++ F :: c2 /\ length a1 = k /\ length b1 = k /\ length c1 = k /\
    each3 R a1 b1 c1 /\ R o x F /\ each3 R a2 b2 c2.
Proof.
  induction k; intros a b c x E H; destruct E as [|a0 b0 c0 a b c r E]; try discriminate; cbn in H.
  - injection H as ->. exists [], a0, a, [], b, [], c0, c. repeat split; auto. constructor.
  - destruct (IHk _ _ _ _ E H) as (a1 & o & a2 & b1 & b2 & c1 & F & c2 & -> & -> & -> & L1 & L2 & L3 & E1 & E2 & E3).
    exists (a0 :: a1), o, a2, (b0 :: b1), b2, (c0 :: c1), F, c2. cbn. rewrite L1, L2, L3. repeat split; auto. constructor; auto.
Qed.
Lemma upd_app {X} (a : list X) x y b : upd (length a) y (a ++ x :: b) = a ++ y :: b.
Proof. induction a; cbn; [reflexivity|now rewrite IHa]. Qed.
Lemma nth_app {X} (a : list X) x b : nth_error (a ++ x :: b) (length a) = Some x.
Proof. induction a; cbn; auto. Qed.
Lemma upd_len {X} i (x : X) l : length (upd i x l) = length l.
Proof. revert i. induction l; intros [|i]; cbn; auto. Qed.

(* ---- the heap ---- *)
Lemma blk_lt h b : blk h b <> None -> b < length h.
Proof. unfold blk. intros H. destruct (Nat.lt_ge_cases b (length h)); auto. rewrite (proj2 (nth_error_None h b)) in H by lia. contradiction. Qed.
Lemma blk_upd h b x b' : b < length h -> blk (upd b x h) b' = if b' =? b then x else blk h b'.
Proof.
  intros L. unfold blk. destruct (Nat.eqb_spec b' b) as [->|E].
  - rewrite nth_error_upd_eq by exact L. reflexivity.
  - rewrite nth_error_upd_neq by auto. reflexivity.
Qed.
Lemma blk_new h x b : blk (h ++ [x]) b = if b =? length h then x else blk h b.
Proof.
  unfold blk. destruct (Nat.eqb_spec b (length h)) as [->|E].
  - rewrite nth_error_app2, Nat.sub_diag by lia. reflexivity.
  - destruct (Nat.lt_ge_cases b (length h)); [rewrite nth_error_app1 by lia; reflexivity|].
    rewrite (proj2 (nth_error_None (h ++ [x]) b)), (proj2 (nth_error_None h b)) by (rewrite ?app_length; cbn; lia). reflexivity.
Qed.
(* the slot of a place *)
Definition sl (h : heap) (p : place) : option (option obj) := match blk h (fst p) with Some l => nth_error l (snd p) | None => None end.
Definition blen (h : heap) (b : nat) : option nat := match blk h b with Some l => Some (length l) | None => None end.
Lemma blk_ext h h' b : blen h' b = blen h b -> (forall i, sl h' (b, i) = sl h (b, i)) -> blk h' b = blk h b.
Proof.
  unfold blen, sl. cbn [fst snd]. destruct (blk h' b), (blk h b); try discriminate; auto. intros L H. f_equal. apply list_ext. exact H.
Qed.
Lemma rd_sl h p o : rd h p = Ok o <-> sl h p = Some (Some o).
Proof. unfold rd, sl. destruct (blk h (fst p)); [|easy]. destruct (nth_error l (snd p)) as [[]|]; split; intros H; inversion H; auto. Qed.
(* P: the places that may change; F: blocks that may change or go; F': what is there afterwards of F, and new blocks *)
Record chg (h h' : heap) (P : place -> Prop) (F F' : list nat) : Prop := Chg {
  c_len : length h <= length h';
  c_frame : forall b, b < length h -> ~ In b F -> blen h' b = blen h b /\ (forall i, ~ P (b, i) -> sl h' (b, i) = sl h (b, i));
  c_dead : forall b, In b F -> ~ In b F' -> blk h' b = None;
  c_in : forall b, In b F' -> In b F \/ length h <= b;
  c_new : forall b, length h <= b -> blk h' b <> None -> In b F' }.
Lemma chg_refl h P F : chg h h P F F.
Proof. split; auto; try tauto. intros b L H. apply blk_lt in H. lia. Qed.
Lemma chg_trans h h1 h2 P F F1 F2 : chg h h1 P F F1 -> chg h1 h2 P F1 F2 -> chg h h2 P F F2.
Proof.
  intros [L1 A1 B1 C1 D1] [L2 A2 B2 C2 D2]. split.
  - lia.
  - intros b Hb Hn. assert (N1 : ~ In b F1) by (intros H; destruct (C1 b H); [tauto|lia]). destruct (A1 b Hb Hn) as [E1 G1]. destruct (A2 b) as [E2 G2]; [lia|exact N1|].
    split; [congruence|]. intros i Hi. rewrite G2, G1; auto.
  - intros b Hb Hn. destruct (in_dec Nat.eq_dec b F1) as [I|I]; [auto|]. pose proof (B1 b Hb I) as E.
    destruct (Nat.lt_ge_cases b (length h1)).
    + destruct (A2 b) as [E2 _]; [lia|exact I|]. unfold blen in E2. rewrite E in E2. destruct (blk h2 b); [discriminate|reflexivity].
    + destruct (blk h2 b) eqn:E2; [|reflexivity]. exfalso. apply Hn, D2; [lia|congruence].
  - intros b Hb. destruct (C2 b Hb) as [H|H]; [|right; lia]. destruct (C1 b H); auto.
  - intros b Hb He. destruct (Nat.lt_ge_cases b (length h1)); [|apply D2; [lia|exact He]].
    destruct (in_dec Nat.eq_dec b F2) as [I2|I2]; [exact I2|exfalso]. destruct (in_dec Nat.eq_dec b F1) as [I|I]; [apply He; auto|].
    destruct (A2 b) as [E2 _]; [lia|exact I|]. apply I, D1; [exact Hb|]. intros E. unfold blen in E2. rewrite E in E2. destruct (blk h2 b); [discriminate|contradiction].
Qed.
Lemma chg_mono h h' (P P' : place -> Prop) F F' : (forall p, P p -> P' p) -> chg h h' P F F' -> chg h h' P' F F'.
Proof. intros H [L A B C D]. split; auto. intros b Hb Hn. destruct (A b Hb Hn) as [E G]. split; auto. Qed.
Lemma chg_more h h' P F F' G : chg h h' P F F' -> chg h h' P (F ++ G) (F' ++ G).
Proof.
  intros [L A B C D]. split; auto.
  - intros b Hb Hn. apply A; auto. rewrite in_app_iff in Hn. tauto.
  - intros b Hb Hn. rewrite in_app_iff in Hb, Hn. destruct Hb; [apply B|]; tauto.
  - intros b Hb. rewrite in_app_iff in *. destruct Hb as [Hb|Hb]; [destruct (C b Hb)|]; auto.
  - intros b Hb He. rewrite in_app_iff. left. auto.
Qed.
(* blocks outside *)
Lemma chg_keep h h' P F F' b : chg h h' P F F' -> b < length h -> ~ In b F -> (forall i, ~ P (b, i)) -> blk h' b = blk h b.
Proof. intros [L A B C D] Hb Hn Hp. destruct (A b Hb Hn) as [E G]. apply blk_ext; auto. Qed.

Lemma wr_ok h p o x : sl h p = Some x -> exists h', wr h p o = Ok h' /\ sl h' p = Some o /\ length h' = length h /\ chg h h' (fun q => q = p) [] [] /\
  (forall l, blk h (fst p) = Some l -> blk h' (fst p) = Some (upd (snd p) o l)) /\ (forall b, b <> fst p -> blk h' b = blk h b).
Proof.
  destruct p as [b i]. unfold wr. intros S. unfold sl in S. cbn [fst snd] in *. destruct (blk h b) as [l|] eqn:E; [|discriminate].
  assert (Hi : i < length l) by (apply nth_error_Some; congruence). assert (Hb : b < length h) by (apply blk_lt; congruence).
  destruct (Nat.ltb_spec i (length l)); [|lia]. eexists. split; [reflexivity|].
  assert (K : forall b', blk (upd b (Some (upd i o l)) h) b' = if b' =? b then Some (upd i o l) else blk h b') by (intros; now apply blk_upd).
  split; [|split; [apply upd_len|split; [|split]]].
  - unfold sl. cbn [fst snd]. rewrite K, Nat.eqb_refl. now apply nth_error_upd_eq.
  - split; [rewrite upd_len; lia| |intros ? []|intros ? []|].
    + intros b' Hb' _. split.
      * unfold blen. rewrite K. destruct (Nat.eqb_spec b' b) as [->|]; [rewrite E, upd_len|]; reflexivity.
      * intros j Hj. unfold sl. cbn [fst snd]. rewrite K. destruct (Nat.eqb_spec b' b) as [->|]; [|reflexivity]. rewrite E. apply nth_error_upd_neq. congruence.
    + intros b' L He. apply blk_lt in He. rewrite upd_len in He. lia.
  - intros l' [= <-]. rewrite K, Nat.eqb_refl. reflexivity.
  - intros b' N. rewrite K. destruct (Nat.eqb_spec b' b); [contradiction|reflexivity].
Qed.
Lemma free_ok h b : blk h b <> None -> exists h', free_ h b = Ok h' /\ blk h' b = None /\ length h' = length h /\ (forall b', b' <> b -> blk h' b' = blk h b').
Proof.
  intros H. unfold free_. destruct (blk h b) eqn:E; [|contradiction]. assert (L : b < length h) by (apply blk_lt; congruence). eexists. split; [reflexivity|].
  split; [rewrite blk_upd, Nat.eqb_refl by exact L; reflexivity|]. split; [apply upd_len|]. intros b' N. rewrite blk_upd by exact L. destruct (Nat.eqb_spec b' b); [contradiction|reflexivity].
Qed.

Section Rep.
Variable w : N.
Notation rep := (rep w).
Lemma rep_agree t : forall h h' o v F, rep h t o v F -> (forall b, In b F -> blk h' b = blk h b) -> rep h' t o v F.
Proof.
  induction t as [|t IH]; intros h h' o v F R A; destruct o, v; cbn [DmemSpec.rep] in *; auto. destruct R as (R1 & R2 & R3). split; [exact R1|]. split; [exact R2|].
  destruct el as [b|]; [|exact R3]. destruct R3 as (R3 & os & sp & Fs & R4 & R5 & R6 & -> & R7). split; [exact R3|]. exists os, sp, Fs.
  split; [rewrite A by (left; reflexivity); exact R4|]. split; [exact R5|]. split; [exact R6|]. split; [reflexivity|].
  eapply e3_impl; [|exact R7]. intros x y z Hz Rz. eapply IH; [exact Rz|]. intros b' Hb'. apply A. right. apply in_concat. eauto.
Qed.
Lemma rep_live t : forall h o v F, rep h t o v F -> forall b, In b F -> blk h b <> None.
Proof.
  induction t as [|t IH]; intros h o v F R b Hb; destruct o, v; cbn [DmemSpec.rep] in *; try contradiction; [destruct R as (_ & ->); destruct Hb|].
  destruct R as (_ & _ & R). destruct el as [c|]; [|destruct R as (_ & _ & _ & ->); destruct Hb].
  destruct R as (_ & os & sp & Fs & R4 & _ & _ & -> & R7). destruct Hb as [->|Hb]; [congruence|]. apply in_concat in Hb as (Fk & H1 & H2).
  clear R4. induction R7 as [|o v F os vs Fs r R7 IH7]; [destruct H1|]. destruct H1 as [->|H1]; [eapply IH; eassumption|auto].
Qed.
Lemma rep_agree_list t h h' os vs Fs : each3 (rep h t) os vs Fs -> (forall b, In b (concat Fs) -> blk h' b = blk h b) -> each3 (rep h' t) os vs Fs.
Proof. intros E A. eapply e3_impl; [|exact E]. intros x y z Hz R. eapply rep_agree; [exact R|]. intros b Hb. apply A. apply in_concat. eauto. Qed.
Lemma rep_live_list t h os vs Fs : each3 (rep h t) os vs Fs -> forall b, In b (concat Fs) -> blk h b <> None.
Proof. intros E. induction E; cbn; [easy|]. intros b' Hb. apply in_app_iff in Hb as [Hb|Hb]; [eapply rep_live; eassumption|auto]. Qed.

(* ---- changes of the heap ---- *)
Lemma chg_weak h h' (P P' : place -> Prop) F F' G G' : chg h h' P F F' ->
  (forall b i, P (b, i) -> P' (b, i) \/ In b G) -> (forall b, In b F -> In b G) -> (forall b, In b F' -> In b G') ->
  (forall b, In b G -> ~ In b G' -> In b F /\ ~ In b F') -> (forall b, In b G' -> In b G \/ length h <= b) -> chg h h' P' G G'.
Proof.
  intros [L A B C D] H1 H2 H3 H4 H5. split; auto.
  - intros b Hb Hn. destruct (A b Hb) as [E K]; [auto|]. split; [exact E|]. intros i Hi. apply K. intros Hp. destruct (H1 b i Hp); auto.
  - intros b Hb Hn. destruct (H4 b Hb Hn). auto.
Qed.
Lemma chg_blocks h h' (P : place -> Prop) G : length h' = length h -> (forall c, ~ In c G -> blk h' c = blk h c) -> chg h h' P G G.
Proof.
  intros L H. split; auto; try tauto; [lia| |].
  - intros b Hb Hn. unfold blen, sl. cbn [fst]. rewrite (H b Hn). auto.
  - intros b Hb He. apply blk_lt in He. lia.
Qed.
Lemma chg_alloc h l (P : place -> Prop) F : chg h (h ++ [Some l]) P F (length h :: F).
Proof.
  split.
  - rewrite app_length. lia.
  - intros b Hb Hn. unfold blen, sl. cbn [fst]. rewrite blk_new. destruct (Nat.eqb_spec b (length h)); [lia|]. auto.
  - intros b Hb Hn. exfalso. apply Hn. now right.
  - intros b [<-|H]; auto.
  - intros b Hb He. apply blk_lt in He. rewrite app_length in He. cbn in He. left. lia.
Qed.
Lemma chg_free h h' b (P : place -> Prop) F : length h' = length h -> blk h' b = None -> (forall c, c <> b -> blk h' c = blk h c) -> ~ In b F -> chg h h' P (b :: F) F.
Proof.
  intros L E H N. split.
  - lia.
  - intros c Hc Hn. unfold blen, sl. cbn [fst]. rewrite H by (intros ->; apply Hn; now left). auto.
  - intros c [<-|Hc] Hn; [exact E|contradiction].
  - intros c Hc. left. now right.
  - intros c Hc He. apply blk_lt in He. lia.
Qed.
Lemma chg_blk h h' p F F' l x : chg h h' (fun q => q = p) F F' -> ~ In (fst p) F -> blk h (fst p) = Some l -> sl h' p = Some x -> blk h' (fst p) = Some (upd (snd p) x l).
Proof.
  intros C N E S. assert (Lb : fst p < length h) by (apply blk_lt; congruence). destruct (c_frame _ _ _ _ _ C _ Lb N) as [E1 G].
  unfold blen in E1. rewrite E in E1. destruct (blk h' (fst p)) as [l'|] eqn:E2; [|discriminate]. injection E1 as E1. f_equal. apply list_ext. intros i.
  assert (Hi : snd p < length l). { unfold sl in S. rewrite E2 in S. rewrite <- E1. apply nth_error_Some. congruence. }
  destruct (Nat.eq_dec i (snd p)) as [->|Ni].
  - rewrite nth_error_upd_eq by exact Hi. unfold sl in S. rewrite E2 in S. exact S.
  - rewrite nth_error_upd_neq by auto. specialize (G i). unfold sl in G. cbn [fst snd] in G. rewrite E, E2 in G. apply G. intros Hp. apply Ni. rewrite <- Hp. reflexivity.
Qed.
Lemma sl_at h b l o r : blk h b = Some (l ++ o :: r) -> sl h (b, length l) = Some o.
Proof. intros E. unfold sl. cbn [fst snd]. rewrite E. apply nth_app. Qed.
Lemma sl_keep h h' P F F' p : chg h h' P F F' -> fst p < length h -> ~ In (fst p) F -> ~ P p -> sl h' p = sl h p.
Proof. destruct p as [b i]. intros C L N Hp. apply (c_frame _ _ _ _ _ C b L N). exact Hp. Qed.
Lemma sl_lt h p x : sl h p = Some x -> fst p < length h.
Proof. unfold sl. destruct (blk h (fst p)) eqn:E; [|discriminate]. intros _. apply blk_lt. congruence. Qed.
Lemma rdv_ok h p el u c sf : sl h p = Some (Some (Ve el u c sf)) -> rdv h p = Ok (el, u, c, sf).
Proof. intros S. unfold rdv. apply rd_sl in S. rewrite S. reflexivity. Qed.
Lemma mod_ok h p o x : sl h p = Some (Some o) -> exists h', mod_ h p x = Ok h' /\ sl h' p = Some (Some x) /\ length h' = length h /\ chg h h' (fun q => q = p) [] [] /\
  (forall l, blk h (fst p) = Some l -> blk h' (fst p) = Some (upd (snd p) (Some x) l)) /\ (forall b, b <> fst p -> blk h' b = blk h b).
Proof. intros S. unfold mod_. pose proof (proj2 (rd_sl _ _ _) S) as R. rewrite R. cbn [bind]. eapply wr_ok. exact S. Qed.

(* ---- destroying ---- *)
Definition destroys t := forall h p o v F, sl h p = Some (Some o) -> rep h t o v F -> NoDup F -> ~ In (fst p) F ->
  exists h', destroy t h p = Ok h' /\ sl h' p = Some None /\ length h' = length h /\ chg h h' (fun q => q = p) F [].
Lemma destroy_loop t (IH : destroys t) b : forall os vs Fs h pre post, each3 (rep h t) os vs Fs -> blk h b = Some (pre ++ map Some os ++ post) ->
  NoDup (concat Fs) -> ~ In b (concat Fs) -> exists h', loop (length os) (length pre) (fun i h => destroy t h (b, i)) h = Ok h' /\
    blk h' b = Some (pre ++ repeat None (length os) ++ post) /\ length h' = length h /\ chg h h' (fun q => fst q = b) (concat Fs) [].
Proof.
  induction os as [|o os IHos]; intros vs Fs h pre post E Eb Nd Nb; inversion E; subst.
  - exists h. cbn in *. split; [reflexivity|]. split; [exact Eb|]. split; [reflexivity|apply chg_refl].
  - rename b0 into v, c into F, lb into vs', lc into Fs', H1 into Ro, H4 into Es. cbn [concat] in Nd, Nb. apply nodup_app in Nd as (N1 & N2 & N3). rewrite in_app_iff in Nb.
    cbn [map app] in Eb. destruct (IH h (b, length pre) o v F) as (h1 & D1 & S1 & L1 & C1); [eapply sl_at; exact Eb|exact Ro|exact N1|cbn; tauto|].
    assert (Eb1 : blk h1 b = Some (pre ++ None :: map Some os ++ post)).
    { pose proof (chg_blk _ _ _ _ _ _ _ C1 ltac:(cbn; tauto) Eb S1) as K. cbn [fst snd] in K. now rewrite upd_app in K. }
    destruct (IHos vs' Fs' h1 (pre ++ [None]) post) as (h2 & D2 & Eb2 & L2 & C2).
    + eapply rep_agree_list; [exact Es|]. intros c Hc. eapply chg_keep; [exact C1| | |].
      * apply blk_lt. eapply rep_live_list; eassumption.
      * intros Hc'. exact (N3 _ Hc' Hc).
      * intros i [= ->]. tauto.
    + rewrite <- app_assoc. exact Eb1.
    + exact N2.
    + tauto.
    + exists h2. cbn [length loop]. rewrite D1. cbn [bind]. rewrite app_length in D2. cbn [length] in D2. rewrite Nat.add_1_r in D2. rewrite D2. split; [reflexivity|].
      split; [rewrite Eb2, <- app_assoc; reflexivity|]. split; [lia|]. cbn [concat]. eapply chg_trans; [|exact C2].
      eapply chg_weak; [exact C1| | | | |]; intros c; rewrite ?in_app_iff; try tauto.
      * intros i [= -> ->]. auto.
      * intros [].
Qed.
Theorem destroy_ok t : destroys t.
Proof.
  induction t as [|t IH]; intros h p o v F S R Nd Nb; destruct o as [x|el used cap self], v as [y|vs]; cbn [DmemSpec.rep] in R; try contradiction; cbn [destroy].
  - destruct R as (_ & ->). pose proof (proj2 (rd_sl _ _ _) S) as Rd. rewrite Rd. cbn [bind]. destruct (wr_ok h p None _ S) as (h' & W & S' & L' & C' & _). exists h'. auto.
  - rewrite (rdv_ok _ _ _ _ _ _ S). cbn [bind]. destruct R as (U & _ & R). destruct el as [b|].
    + destruct R as (-> & os & sp & Fs & Eb & Ec & Pl & -> & Es). apply NoDup_cons_iff in Nd as [Nb1 Nd1].
      destruct (e3_len _ _ _ _ Es) as [Lo _]. destruct (destroy_loop t IH b os vs Fs h [] sp Es Eb Nd1 Nb1) as (h1 & D1 & Eb1 & L1 & C1).
      rewrite U, <- Lo. cbn [length] in D1. rewrite D1. cbn [bind]. destruct (free_ok h1 b) as (h2 & -> & E2 & L2 & K2); [congruence|]. cbn [bind].
      assert (Nbp : fst p <> b) by (intros H; apply Nb; left; auto). assert (Lp : fst p < length h) by (eapply sl_lt; exact S).
      assert (S1 : sl h1 p = Some (Some (Ve (Some b) used cap true))). { rewrite <- S. apply (sl_keep _ _ _ _ _ _ C1); auto. intros H. apply Nb. now right. }
      assert (S2 : sl h2 p = sl h1 p). { unfold sl. rewrite K2 by exact Nbp. reflexivity. }
      rewrite S1 in S2. destruct (wr_ok h2 p None _ S2) as (h3 & -> & S3 & L3 & C3 & _). exists h3. split; [reflexivity|]. split; [exact S3|]. split; [lia|].
      eapply chg_trans; [eapply chg_weak with (G := b :: concat Fs) (G' := [b]); [exact C1| | | | |]; cbn; try tauto|eapply chg_trans; [eapply chg_free; eauto|exact C3]].
      * intros c i ->. auto.
    + destruct R as (-> & -> & -> & ->). destruct (wr_ok h p None _ S) as (h' & W & S' & L' & C' & _). exists h'. auto.
Qed.

(* ---- moving ---- *)
Definition mv (t : dty) (o : obj) : obj := match t with DS => o | DV _ => empty_vec end.
Lemma pow_pos' : (0 <= 2 ^ (w - 1))%N.
Proof. lia. Qed.
Lemma rep_mv t h h' o v F : rep h t o v F -> rep h' t (mv t o) (moved v) [].
Proof.
  destruct t, o, v; cbn [DmemSpec.rep mv moved empty_vec]; try tauto. intros _. cbn. repeat split; auto. lia.
Qed.
Lemma rep_mv_list t h h' os vs Fs : each3 (rep h t) os vs Fs -> each3 (rep h' t) (map (mv t) os) (map moved vs) (map (fun _ => []) Fs).
Proof. induction 1; cbn; constructor; auto. eapply rep_mv; eassumption. Qed.
Lemma concat_nils {X Y} (l : list X) : concat (map (fun _ => []) l) = @nil Y.
Proof. induction l; auto. Qed.
Lemma move_ok t h src dst o x : sl h src = Some (Some o) -> sl h dst = Some x -> src <> dst -> (match t, o with DV _, Sc _ => False | _, _ => True end) ->
  exists h', move_construct t h src dst = Ok h' /\ sl h' src = Some (Some (mv t o)) /\ sl h' dst = Some (Some o) /\ length h' = length h /\
    chg h h' (fun q => q = src \/ q = dst) [] [].
Proof.
  intros S D N Ty. unfold move_construct. rewrite (proj2 (rd_sl _ _ _) S). cbn [bind]. unfold init. destruct (wr_ok h dst (Some o) x D) as (h1 & -> & S1 & L1 & C1 & _). cbn [bind].
  assert (S1s : sl h1 src = Some (Some o)). { rewrite <- S. apply (sl_keep _ _ _ _ _ _ C1); auto. eapply sl_lt; exact S. }
  destruct t as [|t]; cbn [mv].
  - exists h1. split; [reflexivity|]. split; [exact S1s|]. split; [exact S1|]. split; [exact L1|]. eapply chg_mono; [|exact C1]; auto.
  - destruct (mod_ok h1 src o empty_vec S1s) as (h2 & -> & S2 & L2 & C2 & _). exists h2. split; [reflexivity|]. split; [exact S2|]. split; [|split; [lia|]].
    + rewrite <- S1. apply (sl_keep _ _ _ _ _ _ C2); auto. rewrite L1. eapply sl_lt; exact D.
    + eapply chg_trans; eapply chg_mono; [|exact C1| |exact C2]; auto.
Qed.
Lemma move_loop t b nb : b <> nb -> forall os h pre post pre' post', blk h b = Some (pre ++ map Some os ++ post) -> blk h nb = Some (pre' ++ repeat None (length os) ++ post') ->
  length pre = length pre' -> (forall o, In o os -> match t, o with DV _, Sc _ => False | _, _ => True end) ->
  exists h', loop (length os) (length pre) (fun i h => move_construct t h (b, i) (nb, i)) h = Ok h' /\ blk h' b = Some (pre ++ map Some (map (mv t) os) ++ post) /\
    blk h' nb = Some (pre' ++ map Some os ++ post') /\ length h' = length h /\ (forall c, c <> b -> c <> nb -> blk h' c = blk h c).
Proof.
  intros N. induction os as [|o os IH]; intros h pre post pre' post' Eb En L Ty.
  - exists h. cbn. auto.
  - cbn [length repeat map app] in *. pose proof (sl_at _ _ _ _ _ Eb) as S. pose proof (sl_at _ _ _ _ _ En) as D. rewrite <- L in D.
    assert (Lb : b < length h) by (apply blk_lt; congruence). assert (Ln : nb < length h) by (apply blk_lt; congruence).
    destruct (move_ok t h (b, length pre) (nb, length pre) o None S D) as (h1 & D1 & S1 & S2 & L1 & C1); [congruence|apply Ty; left; reflexivity|].
    assert (K : forall c, c <> b -> c <> nb -> blk h1 c = blk h c).
    { intros c N1 N2. destruct (Nat.lt_ge_cases c (length h)).
      - eapply chg_keep; [exact C1|lia|intros []|]. intros i [[= -> _]|[= -> _]]; auto.
      - unfold blk. rewrite !(proj2 (nth_error_None _ c)) by lia. reflexivity. }
    assert (E1 : blk h1 b = Some (pre ++ Some (mv t o) :: map Some os ++ post)).
    { destruct (c_frame _ _ _ _ _ C1 b Lb (fun x => x)) as [B1 G1]. unfold blen in B1. rewrite Eb in B1. destruct (blk h1 b) as [l|] eqn:E1; [|discriminate]. injection B1 as B1. f_equal.
      rewrite <- (upd_app pre (Some o) (Some (mv t o)) (map Some os ++ post)). apply list_ext. intros i. destruct (Nat.eq_dec i (length pre)) as [->|Ni].
      - rewrite nth_error_upd_eq by (rewrite app_length; cbn; lia). unfold sl in S1. cbn [fst snd] in S1. rewrite E1 in S1. exact S1.
      - rewrite nth_error_upd_neq by auto. specialize (G1 i). unfold sl in G1. cbn [fst snd] in G1. rewrite E1, Eb in G1. apply G1. intros [[= H]|[= H _]]; auto. }
    assert (E2 : blk h1 nb = Some (pre' ++ Some o :: repeat None (length os) ++ post')).
    { destruct (c_frame _ _ _ _ _ C1 nb Ln (fun x => x)) as [B1 G1]. unfold blen in B1. rewrite En in B1. destruct (blk h1 nb) as [l|] eqn:E2; [|discriminate]. injection B1 as B1. f_equal.
      rewrite <- (upd_app pre' None (Some o) (repeat None (length os) ++ post')). apply list_ext. intros i. destruct (Nat.eq_dec i (length pre')) as [->|Ni].
      - rewrite nth_error_upd_eq by (rewrite app_length; cbn; lia). unfold sl in S2. cbn [fst snd] in S2. rewrite E2, L in S2. exact S2.
      - rewrite nth_error_upd_neq by auto. specialize (G1 i). unfold sl in G1. cbn [fst snd] in G1. rewrite E2, En in G1. apply G1. intros [[= H _]|[= H]]; auto. apply Ni. congruence. }
    destruct (IH h1 (pre ++ [Some (mv t o)]) post (pre' ++ [Some o]) post') as (h2 & D2 & F1 & F2 & L2 & K2).
    + rewrite <- app_assoc. exact E1.
    + rewrite <- app_assoc. exact E2.
    + rewrite !app_length. cbn. lia.
    + intros o' Ho. apply Ty. now right.
    + exists h2. cbn [loop]. rewrite D1. cbn [bind]. rewrite app_length in D2. cbn [length] in D2. rewrite Nat.add_1_r in D2. rewrite D2. split; [reflexivity|].
      split; [rewrite F1, <- app_assoc; reflexivity|]. split; [rewrite F2, <- app_assoc; reflexivity|]. split; [lia|]. intros c N1 N2. rewrite K2, K by auto. reflexivity.
Qed.

(* ---- reserve ---- *)
Hypothesis Hw : npo2_width w.
Lemma e3_ty t h os vs Fs : each3 (rep h t) os vs Fs -> forall o, In o os -> match t, o with DV _, Sc _ => False | _, _ => True end.
Proof. induction 1; [intros o []|]. intros o [<-|Ho]; [|exact (IHeach3 o Ho)]. destruct t, a; try exact I. destruct b; exact H. Qed.
Lemma plain_raw n : Forall plain (repeat None n).
Proof. induction n; cbn; constructor; auto. exact I. Qed.
Theorem reserve_ok t h p o vs F n : sl h p = Some (Some o) -> rep h (DV t) o (VL vs) F -> NoDup F -> ~ In (fst p) F -> (N.of_nat n <= 2 ^ (w - 1))%N ->
  exists h' el cap self F', reserve w t h p n = Ok h' /\ sl h' p = Some (Some (Ve el (length vs) cap self)) /\ rep h' (DV t) (Ve el (length vs) cap self) (VL vs) F' /\
    NoDup F' /\ ~ In (fst p) F' /\ chg h h' (fun q => q = p) F F' /\ n <= cap.
Proof.
  intros S R Nd Np Sm. pose proof R as R0. destruct o as [x|el used cap self]; cbn [DmemSpec.rep] in R; [contradiction|]. destruct R as (U & Su & R).
  unfold reserve. rewrite (rdv_ok _ _ _ _ _ _ S). cbn [bind]. destruct (Nat.leb_spec n cap) as [Le|Gt].
  { exists h, el, cap, self, F. rewrite <- U. repeat (split; [first [reflexivity|assumption]|]). split; [apply chg_refl|exact Le]. }
  set (next := N.to_nat _). assert (Hn : n <= next).
  { pose proof (next_power_of_two_ge w (N.of_nat n) Hw) as G. unfold next. lia. }
  clearbody next. set (nb := length h). set (h0 := h ++ [Some (repeat None next)]). assert (Lp : fst p < length h) by (eapply sl_lt; exact S).
  assert (Enb : blk h0 nb = Some (repeat None next)) by (unfold h0; rewrite blk_new; unfold nb; rewrite Nat.eqb_refl; reflexivity).
  assert (K0 : forall c, c <> nb -> blk h0 c = blk h c). { intros c Nc. unfold h0. rewrite blk_new. destruct (Nat.eqb_spec c (length h)); [contradiction|reflexivity]. }
  assert (L0 : length h0 = length h + 1) by (unfold h0; rewrite app_length; cbn; lia).
  assert (Nnp : fst p <> nb) by (unfold nb; lia).
  destruct el as [b|].
  - destruct R as (-> & os & sp & Fs & Eb & Ec & Pl & -> & Es). apply NoDup_cons_iff in Nd as [Nb1 Nd1]. destruct (e3_len _ _ _ _ Es) as [Lo Lf].
    assert (Lb : b < length h) by (apply blk_lt; congruence). assert (Nbn : b <> nb) by (unfold nb; lia).
    assert (Lc : forall c, In c (concat Fs) -> c < length h) by (intros c Hc; apply blk_lt; eapply rep_live_list; eassumption).
    assert (Ub : length os + length sp = cap) by lia.
    replace (repeat None next) with (repeat (@None obj) (length os) ++ repeat None (next - length os)) in Enb by (rewrite <- repeat_app; f_equal; lia).
    destruct (move_loop t b nb Nbn os h0 [] sp [] (repeat None (next - length os))) as (h1 & D1 & E1 & E1n & L1 & K1);
      [rewrite K0 by exact Nbn; exact Eb|exact Enb|reflexivity|eapply e3_ty; exact Es|].
    rewrite U, <- Lo. cbn [length] in D1. cbn [elem bind]. rewrite D1. cbn [bind].
    destruct (destroy_loop t (destroy_ok t) b (map (mv t) os) (map moved vs) (map (fun _ => []) Fs) h1 [] sp) as (h2 & D2 & E2 & L2 & C2);
      [eapply rep_mv_list; exact Es|exact E1|rewrite concat_nils; constructor|rewrite concat_nils; intros []|].
    rewrite map_length in D2. cbn [length] in D2. rewrite D2. cbn [bind]. rewrite concat_nils in C2.
    assert (K2 : forall c, c <> b -> blk h2 c = blk h1 c).
    { intros c Nc. destruct (Nat.lt_ge_cases c (length h1)); [eapply chg_keep; [exact C2|lia|intros []|intros i H1; cbn in H1; auto]|].
      unfold blk. rewrite !(proj2 (nth_error_None _ c)) by lia. reflexivity. }
    destruct (free_ok h2 b) as (h3 & -> & E3 & L3 & K3); [congruence|]. cbn [bind].
    assert (Nbp : fst p <> b) by (intros H; apply Np; left; auto).
    assert (Sp3 : sl h3 p = Some (Some (Ve (Some b) used cap true))). { rewrite <- S. unfold sl. rewrite K3, K2, K1, K0 by auto. reflexivity. }
    destruct (mod_ok h3 p _ (Ve (Some nb) (length os) next true) Sp3) as (h4 & -> & S4 & L4 & C4 & _ & K4).
    exists h4, (Some nb), next, true, (nb :: concat Fs). split; [reflexivity|]. split; [exact S4|]. split; [|split; [|split; [|split]]].
    + cbn [DmemSpec.rep]. split; [exact Lo|]. split; [lia|]. split; [reflexivity|]. exists os, (repeat None (next - length os)), Fs.
      split; [rewrite K4, K3, K2 by auto; exact E1n|]. split; [rewrite repeat_length; lia|]. split; [apply plain_raw|]. split; [reflexivity|].
      eapply rep_agree_list; [exact Es|]. intros c Hc. assert (c <> b) by (intros ->; auto). assert (c <> nb) by (specialize (Lc c Hc); unfold nb; lia).
      assert (c <> fst p) by (intros ->; apply Np; right; exact Hc). rewrite K4, K3, K2, K1, K0 by auto. reflexivity.
    + constructor; [|exact Nd1]. intros H. specialize (Lc _ H). unfold nb in Lc. lia.
    + intros [H|H]; [auto|]. apply Np. now right.
    + eapply chg_trans; [apply chg_alloc|]. fold nb. fold h0. eapply chg_trans.
      { apply (chg_blocks h0 h2); [lia|]. intros c Hc. rewrite K2, K1; auto; intros ->; apply Hc; cbn; auto. }
      assert (Nbf : ~ In b (nb :: concat Fs)) by (intros [H|H]; auto).
      eapply chg_trans; [refine (chg_weak h2 h3 (fun q => q = p) (fun q => q = p) (b :: nb :: concat Fs) (nb :: concat Fs) (nb :: b :: concat Fs) (nb :: concat Fs) (chg_free h2 h3 b _ _ L3 E3 K3 Nbf) _ _ _ _ _); cbn; try tauto|].
      eapply chg_weak; [exact C4| | | | |]; cbn; try tauto; intros; auto.
    + exact Hn.
  - destruct R as (-> & -> & -> & ->). rewrite <- U. cbn [loop bind]. assert (Sp0 : sl h0 p = Some (Some (Ve None 0 0 false))). { rewrite <- S. unfold sl. rewrite K0 by auto. reflexivity. }
    destruct (mod_ok h0 p _ (Ve (Some nb) 0 next true) Sp0) as (h4 & -> & S4 & L4 & C4 & _ & K4). exists h4, (Some nb), next, true, [nb].
    assert (vs = []) as -> by (destruct vs; [reflexivity|discriminate]). split; [reflexivity|]. split; [exact S4|]. split; [|split; [|split; [|split]]].
    + cbn [DmemSpec.rep]. split; [reflexivity|]. split; [lia|]. split; [reflexivity|]. exists [], (repeat None next), [].
      split; [rewrite K4 by auto; exact Enb|]. split; [rewrite repeat_length; reflexivity|]. split; [apply plain_raw|]. split; [reflexivity|constructor].
    + constructor; [intros []|constructor].
    + intros [H|[]]. auto.
    + eapply chg_trans; [apply chg_alloc|]. fold nb. fold h0. eapply chg_weak; [exact C4| | | | |]; cbn; try tauto; intros; auto.
    + exact Hn.
Qed.

(* ---- copying ---- *)
Definition copies t := forall h src dst o v Fs x, sl h src = Some (Some o) -> rep h t o v Fs -> sl h dst = Some x -> src <> dst -> ~ In (fst dst) Fs ->
  exists h' o' F', copy_construct w t h src dst = Ok h' /\ sl h' dst = Some (Some o') /\ rep h' t o' v F' /\ NoDup F' /\ chg h h' (fun q => q = dst) [] F'.
Lemma copy_loop t (IH : copies t) b b' : b <> b' -> forall os vs Fs h pre post pre' sp, each3 (rep h t) os vs Fs -> blk h b = Some (pre ++ map Some os ++ post) ->
  blk h b' = Some (pre' ++ sp) -> length pre = length pre' -> length os <= length sp -> ~ In b' (concat Fs) ->
  exists h' os' Fs', loop (length os) (length pre) (fun i h => copy_construct w t h (b, i) (b', i)) h = Ok h' /\ blk h' b' = Some (pre' ++ map Some os' ++ skipn (length os) sp) /\
    each3 (rep h' t) os' vs Fs' /\ NoDup (concat Fs') /\ chg h h' (fun q => fst q = b') [] (concat Fs').
Proof.
  intros Nbb. induction os as [|o os IHos]; intros vs Fs h pre post pre' sp E Eb Eb' L Ls Nb; inversion E; subst.
  - exists h, [], []. cbn. split; [reflexivity|]. split; [exact Eb'|]. split; [constructor|]. split; [constructor|apply chg_refl].
  - rename b0 into v, c into F, lb into vs', lc into Fs', H1 into Ro, H4 into Es. cbn [concat] in Nb. rewrite in_app_iff in Nb. destruct sp as [|s0 sp]; [cbn in Ls; lia|]. cbn [map app length] in *.
    pose proof (sl_at _ _ _ _ _ Eb) as S. pose proof (sl_at _ _ _ _ _ Eb') as D. rewrite <- L in D.
    destruct (IH h (b, length pre) (b', length pre) o v F s0 S Ro D) as (h1 & o' & F1 & D1 & S1 & R1 & N1 & C1); [congruence|cbn; tauto|].
    assert (Lb : b < length h) by (apply blk_lt; congruence). assert (Lb' : b' < length h) by (apply blk_lt; congruence).
    assert (Eb1' : blk h1 b' = Some (pre' ++ Some o' :: sp)).
    { pose proof (chg_blk _ _ _ _ _ _ _ C1 (fun x => x) Eb' S1) as K. cbn [fst snd] in K. rewrite L, upd_app in K. exact K. }
    assert (Keep : forall c, c < length h -> c <> b' -> blk h1 c = blk h c). { intros c Hc Nc. eapply chg_keep; [exact C1|exact Hc|intros []|]. intros i [= -> _]. auto. }
    destruct (IHos vs' Fs' h1 (pre ++ [Some o]) post (pre' ++ [Some o']) sp) as (h2 & os' & Fs2 & D2 & Eb2 & R2 & N2 & C2).
    + eapply rep_agree_list; [exact Es|]. intros c Hc. apply Keep; [apply blk_lt; eapply rep_live_list; eassumption|intros ->; tauto].
    + rewrite Keep by auto. rewrite <- app_assoc. exact Eb.
    + rewrite <- app_assoc. exact Eb1'.
    + rewrite !app_length. cbn. lia.
    + lia.
    + tauto.
    + assert (F1h : forall c, In c F1 -> length h <= c /\ c < length h1). { intros c Hc. split; [destruct (c_in _ _ _ _ _ C1 c Hc) as [[]|]; assumption|]. apply blk_lt. eapply rep_live; eassumption. }
      exists h2, (o' :: os'), (F1 :: Fs2). cbn [loop]. rewrite D1. cbn [bind]. rewrite app_length in D2. cbn [length] in D2. rewrite Nat.add_1_r in D2. split; [exact D2|].
      split; [rewrite Eb2, <- app_assoc; reflexivity|]. cbn [concat]. split; [|split].
      * constructor; [|exact R2]. eapply rep_agree; [exact R1|]. intros c Hc. destruct (F1h c Hc). eapply chg_keep; [exact C2|assumption|intros []|]. intros i H1. cbn in H1. lia.
      * apply nodup_app. split; [exact N1|]. split; [exact N2|]. intros c H1 H2. destruct (F1h c H1). destruct (c_in _ _ _ _ _ C2 c H2) as [[]|]. lia.
      * eapply chg_trans with (F1 := F1); [eapply chg_mono; [|exact C1]; intros q ->; reflexivity|]. eapply chg_weak; [exact C2| | | | |]; intros c; rewrite ?in_app_iff; cbn; try tauto.
        intros [H|H]; [auto|]. right. destruct (c_in _ _ _ _ _ C2 c H) as [[]|]. assumption.
Qed.
(* the elements of the vector at src are copied into the reserved slots of the vector at dst *)
Lemma set_ok t (IH : copies t) h dst os sp vs Fs b b' l post self cap : blk h b = Some (map Some os ++ post) -> each3 (rep h t) os vs Fs -> blk h b' = Some sp -> length vs <= length sp ->
  b <> b' -> ~ In b' (concat Fs) -> cap = length sp -> (forall s, In s (skipn (length vs) sp) -> plain s) -> (N.of_nat (length vs) <= 2 ^ (w - 1))%N ->
  sl h dst = Some (Some (Ve (Some b') l cap self)) -> fst dst <> b' -> self = true ->
  exists h' F', (let* h := loop (length vs) 0 (fun i h => let* s := elem (Some b) i in let* d := elem (Some b') i in copy_construct w t h s d) h in set_used h dst (length vs)) = Ok h' /\
    sl h' dst = Some (Some (Ve (Some b') (length vs) cap self)) /\ rep h' (DV t) (Ve (Some b') (length vs) cap self) (VL vs) (b' :: F') /\ NoDup (b' :: F') /\
    (forall c, In c F' -> length h <= c) /\ chg h h' (fun q => q = dst) [b'] (b' :: F').
Proof.
  intros Eb Es Eb' Ls Nbb Nb' Ec Pl Sm S Nd Sf. destruct (e3_len _ _ _ _ Es) as [Lo Lf].
  destruct (copy_loop t IH b b' Nbb os vs Fs h [] post [] sp Es Eb Eb' eq_refl ltac:(lia) Nb') as (h1 & os' & Fs' & D1 & E1 & R1 & N1 & C1).
  cbn [elem bind]. rewrite <- Lo. cbn [length] in D1. rewrite D1. cbn [bind]. assert (Ld : fst dst < length h) by (eapply sl_lt; exact S). assert (Lb' : b' < length h) by (apply blk_lt; congruence).
  assert (Ln : forall c, In c (concat Fs') -> length h <= c) by (intros c Hc; destruct (c_in _ _ _ _ _ C1 c Hc) as [[]|]; assumption).
  assert (S1 : sl h1 dst = Some (Some (Ve (Some b') l cap self))). { rewrite <- S. eapply sl_keep; [exact C1|exact Ld|intros []|]. auto. }
  unfold set_used. rewrite (rdv_ok _ _ _ _ _ _ S1). cbn [bind]. destruct (mod_ok h1 dst _ (Ve (Some b') (length os) cap self) S1) as (h2 & -> & S2 & L2 & C2 & _ & K2).
  destruct (e3_len _ _ _ _ R1) as [Lo' _]. exists h2, (concat Fs'). split; [reflexivity|]. split; [exact S2|]. split; [|split; [|split]].
  - cbn [DmemSpec.rep]. split; [exact Lo|]. split; [lia|]. split; [exact Sf|]. exists os', (skipn (length os) sp), Fs'. split; [rewrite K2 by auto; exact E1|].
    split; [rewrite skipn_length; lia|]. split; [apply Forall_forall; rewrite Lo; exact Pl|]. split; [reflexivity|]. eapply rep_agree_list; [exact R1|]. intros c Hc. apply K2. specialize (Ln c Hc). lia.
  - constructor; [|exact N1]. intros H. specialize (Ln _ H). lia.
  - exact Ln.
  - eapply chg_trans with (F1 := b' :: concat Fs'); [eapply chg_weak; [exact C1| | | | |]|eapply chg_weak; [exact C2| | | | |]]; cbn; try tauto; auto.
    intros c [H|H]; auto.
Qed.
Theorem copy_ok t : copies t.
Proof.
  induction t as [|t IH]; intros h src dst o v Fs x S R D Nsd Nd; destruct o as [y|el used cap self], v as [z|vs]; cbn [DmemSpec.rep] in R; try contradiction; cbn [copy_construct].
  - destruct R as [-> ->]. rewrite (proj2 (rd_sl _ _ _) S). cbn [bind]. unfold init. destruct (wr_ok h dst (Some (Sc z)) _ D) as (h' & -> & S' & L' & C' & _).
    exists h', (Sc z), []. split; [reflexivity|]. split; [exact S'|]. split; [cbn; auto|]. split; [constructor|exact C'].
  - unfold init. destruct (wr_ok h dst (Some empty_vec) _ D) as (h1 & -> & S1 & L1 & C1 & _ & K1). cbn [bind].
    assert (Ls : fst src < length h) by (eapply sl_lt; exact S). assert (Ld : fst dst < length h) by (eapply sl_lt; exact D).
    assert (Ss1 : sl h1 src = Some (Some (Ve el used cap self))). { rewrite <- S. eapply sl_keep; [exact C1|exact Ls|intros []|exact Nsd]. }
    rewrite (rdv_ok _ _ _ _ _ _ Ss1). cbn [bind]. destruct R as (U & Su & R).
    destruct (reserve_ok t h1 dst empty_vec [] [] used S1) as (h2 & el2 & cap2 & self2 & F2 & -> & S2 & R2 & N2 & Np2 & C2 & Le2);
      [cbn; repeat split; auto; lia|constructor|intros []|exact Su|]. cbn [bind]. cbn [length] in S2, R2. rewrite (rdv_ok _ _ _ _ _ _ S2). cbn [bind].
    pose proof R2 as R2'. cbn [DmemSpec.rep] in R2'. destruct R2' as (_ & _ & R2').
    assert (C12 : chg h h2 (fun q => q = dst) [] F2) by (eapply chg_trans; eassumption).
    destruct used as [|n].
    + cbn [loop bind]. unfold set_used. rewrite (rdv_ok _ _ _ _ _ _ S2). cbn [bind]. destruct (mod_ok h2 dst _ (Ve el2 0 cap2 self2) S2) as (h3 & -> & S3 & L3 & C3 & _ & K3).
      assert (vs = []) as -> by (destruct vs; [reflexivity|discriminate]). exists h3, (Ve el2 0 cap2 self2), F2. split; [reflexivity|]. split; [exact S3|]. split; [|split; [exact N2|]].
      * eapply rep_agree; [exact R2|]. intros c Hc. apply K3. intros ->. auto.
      * eapply chg_trans; [exact C12|]. eapply chg_weak; [exact C3| | | | |]; cbn; try tauto; intros; auto.
    + destruct el as [b|]; [|destruct R as (R & _); discriminate]. destruct R as (_ & os & sp & Fs0 & Eb & Ec & Pl & -> & Es). destruct (e3_len _ _ _ _ Es) as [Lo Lf].
      destruct el2 as [b'|]; [|destruct R2' as (_ & -> & _); lia]. destruct R2' as (-> & os2 & sp2 & Fs2 & Eb2 & Ec2 & Pl2 & -> & Es2).
      inversion Es2; subst os2 Fs2. cbn [map app concat length] in *.
      assert (Lb : b < length h) by (apply blk_lt; congruence). assert (Nb : b <> fst dst) by (intros H; apply Nd; left; auto).
      assert (Lb' : length h <= b'). { destruct (c_in _ _ _ _ _ C12 b') as [[]|]; [left; reflexivity|assumption]. }
      assert (Keep : forall c, c < length h -> c <> fst dst -> blk h2 c = blk h c). { intros c Hc Nc. eapply chg_keep; [exact C12|exact Hc|intros []|]. intros i H1. apply Nc. rewrite <- H1. reflexivity. }
      rewrite U. destruct (set_ok t IH h2 dst os sp2 vs Fs0 b b' 0 sp true cap2) as (h3 & F3 & E3 & S3 & R3 & N3 & Ln3 & C3).
      * rewrite Keep by auto. exact Eb.
      * eapply rep_agree_list; [exact Es|]. intros c Hc. apply Keep; [apply blk_lt; eapply rep_live_list; eassumption|]. intros ->. apply Nd. now right.
      * exact Eb2.
      * lia.
      * lia.
      * intros H. assert (b' < length h) by (apply blk_lt; eapply rep_live_list; eassumption). lia.
      * lia.
      * intros s Hs. eapply Forall_forall in Pl2; [exact Pl2|]. rewrite <- (firstn_skipn (length vs) sp2). apply in_app_iff. now right.
      * lia.
      * exact S2.
      * lia.
      * reflexivity.
      * eexists. eexists. eexists. split; [exact E3|]. split; [exact S3|]. split; [exact R3|]. split; [exact N3|]. eapply chg_trans; [exact C12|exact C3].
Qed.
End Rep.
