(* Exceptions in hash maps: an operation either runs to its end or has no effect. *)
From Verif Require Import Base Bytes ArithModel HashModel HashSpec HashInv HashProofs HashRefine HexModel HexSpec.

Section Sim.
Variable K V : Type.
Variable hash : K -> N.
Variable keq : K -> K -> bool.
Variable dv : V.
Variable max_cap : nat.
Variable fault : nat -> event K -> bool.
Notation tbl := (tbl K V).
Notation empty := (empty_tbl K V).
Notation "'try_x'" := (try_matches_x K V keq fault).
Notation "'loop_x'" := (find_loop_x K V keq fault).
Notation "'fnd_x'" := (find_x K V hash keq fault).
Notation "'rsl_x'" := (resize_loop_x K V hash fault).
Notation "'rsz_x'" := (resize_x K V hash max_cap fault).

Variable badkey : K -> bool.
Hypothesis Hplace : forall n, fault n EPlace = false.
Hypothesis Hmove : forall n, fault n EMove = false.
Hypothesis Hhash : forall n k, fault n (EHash k) = badkey k.

(* runs like r, or throws and leaves t *)
Definition faulty : Prop := exists m e, fault m e = true.
Definition same {A} (t : tbl) (r : A) (x : xres K V A) : Prop := (exists n, x = XOk n r) \/ faulty /\ (exists n, x = XThrow n t).
Ltac thr := right; split; [first [assumption | eexists _, _; eassumption]|eexists; reflexivity].
Definition exact {A} (r : A) (x : xres K V A) : Prop := exists n, x = XOk n r.
Definition good (t : tbl) : Prop := forall e, In (Some e) (t_ent K V t) -> badkey (fst e) = false.

Lemma try_same t k o l : forall n r, try_matches K V keq t k o l = Ok r -> same t r (try_x n t k o l).
Proof.
  induction l as [|i l IH]; intros n r H; cbn [try_matches try_matches_x] in *.
  - injection H as <-. left. eauto.
  - cbv zeta in *. destruct (nth_error (t_ent K V t) _) as [[e|]|]; try discriminate.
    unfold call. destruct (fault n EEq) eqn:Fe; cbn [xbind]; [thr|]. destruct (keq (fst e) k); [|now apply IH].
    injection H as <-. left. eauto.
Qed.
Lemma loop_same t k h f : forall n s r, find_loop K V keq f t k h s = Ok r -> same t r (loop_x f n t k h s).
Proof.
  induction f as [|f IH]; intros n s r H; cbn [find_loop find_loop_x] in *; [discriminate|].
  specialize (fun n => IH n (probe_next (t_cap K V t) s) r). revert H IH.
  destruct (group (t_ctrl K V t) (fst s)) as [g| | |]; try discriminate. cbn [bind lift xbind].
  generalize (match_empty g =? 0)%N as b. generalize (bm_positions (match_ g (h2 h))) as l. intros l b H IH.
  destruct (try_matches K V keq t k (fst s) l) as [r1| | |] eqn:E; try discriminate. cbn [bind] in H.
  destruct (try_same t k (fst s) l n r1 E) as [[n1 Q]|[Fy [n1 Q]]]; rewrite Q; cbn [xbind]; [|thr].
  destruct r1; [injection H as <-; left; eauto|]. destruct b; [now apply IH|]. injection H as <-. left. eauto.
Qed.
Lemma find_same t k n r : find_ K V hash keq t k = Ok r -> (badkey k = false -> same t r (fnd_x n t k)) /\ (badkey k = true -> faulty /\ fnd_x n t k = XThrow (S n) t).
Proof.
  intros H. unfold find_x, call. rewrite Hhash. split; intros Bk; rewrite Bk; cbn [xbind]; [now apply loop_same|]. split; [|reflexivity]. exists 0, (EHash k). now rewrite Hhash.
Qed.
Lemma rsl_exact size cap growth old : forall n ctrl ent r, (forall c e, In (c, Some e) old -> badkey (fst e) = false) ->
  resize_loop K V hash cap old ctrl ent = Ok r -> exact r (rsl_x n size cap growth old ctrl ent).
Proof.
  induction old as [|[c x] old IH]; intros n ctrl ent r Hg H; cbn [resize_loop resize_loop_x] in *.
  - injection H as <-. eexists. reflexivity.
  - destruct (is_full c); [|apply IH; [intros; eapply Hg; right; eassumption|exact H]].
    destruct x as [e|]; [|discriminate]. unfold call at 1. rewrite Hhash, (Hg c e) by (now left). cbn [xbind].
    destruct (find_first_non_full ctrl cap (hash (fst e))) as [i| | |]; try discriminate. cbn [bind lift xbind] in *.
    destruct (set_ctrl ctrl cap i (h2 (hash (fst e)))) as [ctrl'| | |]; try discriminate. cbn [bind lift xbind] in *.
    unfold call. rewrite Hmove. cbn [xbind].
    destruct (put_ent K V ent i (Some e)) as [ent'| | |]; try discriminate. cbn [bind lift xbind] in *.
    apply IH; [intros; eapply Hg; right; eassumption|exact H].
Qed.
Lemma rsz_exact t n c r : good t -> resize K V hash max_cap t c = Ok r -> exact r (rsz_x n t c).
Proof.
  intros Hg H. unfold resize, resize_x in *. destruct (max_cap <? c); [discriminate|].
  destruct (resize_loop K V hash c (combine (firstn (t_cap K V t) (t_ctrl K V t)) (t_ent K V t)) (reset_ctrl c) (repeat None c)) as [[ctrl ent]| | |] eqn:E; try discriminate.
  cbn [bind] in H. injection H as <-.
  destruct (rsl_exact (t_size K V t) c (sub64 (N.of_nat (capacity_to_growth c)) (t_size K V t)) _ n _ _ _
    ltac:(intros c0 e Hin; apply Hg; eapply in_combine_r; exact Hin) E) as [n1 ->].
  cbn [xbind fst snd]. eexists. reflexivity.
Qed.
Ltac step H := match type of H with bind ?x _ = Ok _ => let E := fresh "E" in destruct x eqn:E; cbn [bind lift xbind] in *; try discriminate H end.
Lemma prep_exact t n h r : good t -> prepare_insert K V hash max_cap t h = Ok r -> exact r (prepare_insert_x K V hash max_cap fault n t h).
Proof.
  intros Hg H. unfold prepare_insert, prepare_insert_x in *. step H. step H.
  destruct ((t_growth K V t =? 0)%N && negb (is_deleted a0))%bool; cbn [bind xbind] in *.
  - unfold rehash_and_grow_if_necessary in H.
    destruct (resize K V hash max_cap t (if t_cap K V t =? 0 then 1 else t_cap K V t * 2 + 1)) as [t1| | |] eqn:E1; try discriminate. cbn [bind] in H.
    destruct (rsz_exact t n _ t1 Hg E1) as [n1 ->]. cbn [xbind]. destruct (find_first_non_full (t_ctrl K V t1) (t_cap K V t1) h); try discriminate. cbn [bind lift xbind] in *.
    step H. step H. injection H as <-. eexists. reflexivity.
  - step H. step H. injection H as <-. eexists. reflexivity.
Qed.
Lemma fopi_same t n k r : good t -> find_or_prepare_insert K V hash keq max_cap t k = Ok r ->
  same t r (find_or_prepare_insert_x K V hash keq max_cap fault n t k).
Proof.
  intros Hg H. unfold find_or_prepare_insert, find_or_prepare_insert_x in *.
  destruct (find_ K V hash keq t k) as [r1| | |] eqn:E; try discriminate. cbn [bind] in H.
  destruct (find_same t k n r1 E) as [F1 F2]. destruct (badkey k) eqn:Bk; [destruct (F2 eq_refl) as [Fy F3]; rewrite F3; thr|].
  destruct (F1 eq_refl) as [[n1 ->]|[Fy [n1 ->]]]; cbn [xbind]; [|thr]. destruct r1 as [i|].
  - injection H as <-. left. eauto.
  - destruct (prepare_insert K V hash max_cap t (hash k)) as [[t1 i]| | |] eqn:E1; try discriminate. cbn [bind] in H. injection H as <-.
    destruct (prep_exact t n1 (hash k) (t1, i) Hg E1) as [n2 ->]. left. cbn. eauto.
Qed.
Lemma emplace_same t n e r : good t -> emplace K V hash keq max_cap t e = Ok r -> same t r (emplace_x K V hash keq max_cap fault n t e).
Proof.
  intros Hg H. unfold emplace, emplace_x in *. unfold call at 1. destruct (fault n EMake) eqn:Fe; cbn [xbind]; [thr|].
  destruct (find_or_prepare_insert K V hash keq max_cap t (fst e)) as [[[t1 i] ins]| | |] eqn:E; try discriminate. cbn [bind] in H.
  destruct (fopi_same t (S n) (fst e) _ Hg E) as [[n1 ->]|[Fy [n1 ->]]]; cbn [xbind]; [|thr].
  unfold place_x. destruct ins; [|injection H as <-; left; eauto]. unfold call. rewrite Hplace. cbn [xbind].
  destruct (set_ent K V t1 i (Some e)); try discriminate. cbn [bind lift xbind] in *. injection H as <-. left. eauto.
Qed.
Lemma bracket_same t n k r : good t -> bracket K V hash keq dv max_cap t k = Ok r -> same t r (bracket_x K V hash keq dv max_cap fault n t k).
Proof.
  intros Hg H. unfold bracket, bracket_x in *.
  destruct (find_or_prepare_insert K V hash keq max_cap t k) as [[[t1 i] ins]| | |] eqn:E; try discriminate. cbn [bind] in H.
  destruct (fopi_same t n k _ Hg E) as [[n1 ->]|[Fy [n1 ->]]]; cbn [xbind]; [|thr].
  unfold place_x. destruct ins; [|injection H as <-; left; cbn; eauto]. unfold call. rewrite Hplace. cbn [xbind].
  destruct (set_ent K V t1 i (Some (k, dv))); try discriminate. cbn [bind lift xbind] in *. injection H as <-. left. cbn. eauto.
Qed.

(* the keys in the table are good *)
Lemma In_upd {X} (l : list X) i x y : In y (upd i x l) -> y = x \/ In y l.
Proof. revert i; induction l as [|z l IH]; intros [|i] H; cbn in *; try tauto. - destruct H; auto. - destruct H as [->|H]; [auto|]. apply IH in H. tauto. Qed.
Lemma put_ent_in ent i x ent' y : put_ent K V ent i x = Ok ent' -> In y ent' -> y = x \/ In y ent.
Proof. unfold put_ent. destruct (_ <? _); [|discriminate]. intros [= <-]. apply In_upd. Qed.
Lemma set_ent_good t i x t' : set_ent K V t i x = Ok t' -> good t -> (forall e, x = Some e -> badkey (fst e) = false) -> good t'.
Proof.
  unfold set_ent. intros H Hg Hx. step H. injection H as <-. intros e He. cbn [t_ent] in He. eapply put_ent_in in E; [|exact He].
  destruct E as [E|E]; [now apply Hx|now apply Hg].
Qed.
Lemma resize_loop_in cap old : forall ctrl ent ctrl' ent' e, resize_loop K V hash cap old ctrl ent = Ok (ctrl', ent') -> In (Some e) ent' ->
  In (Some e) ent \/ exists c, In (c, Some e) old.
Proof.
  induction old as [|[c x] old IH]; intros ctrl ent ctrl' ent' e H Hin; cbn [resize_loop] in H.
  - injection H as <- <-. auto.
  - destruct (is_full c).
    + destruct x as [e0|]; [|discriminate]. step H. step H. step H. destruct (IH _ _ _ _ _ H Hin) as [K1|[c1 K1]]; [|right; exists c1; now right].
      eapply put_ent_in in K1; [|exact E1]. destruct K1 as [[= ->]|K1]; [right; exists c; now left|auto].
    + destruct (IH _ _ _ _ _ H Hin) as [K1|[c1 K1]]; [auto|right; exists c1; now right].
Qed.
Lemma resize_good t c t' : good t -> resize K V hash max_cap t c = Ok t' -> good t'.
Proof.
  intros Hg H. unfold resize in H. destruct (_ <? _); [discriminate|]. step H. destruct a as [ctrl ent]. injection H as <-.
  intros e He. cbn [t_ent] in He. destruct (resize_loop_in _ _ _ _ _ _ _ E He) as [K1|[c1 K1]].
  - apply repeat_spec in K1. discriminate.
  - apply Hg. eapply in_combine_r. exact K1.
Qed.
Lemma prep_good t h r : good t -> prepare_insert K V hash max_cap t h = Ok r -> good (fst r).
Proof.
  intros Hg H. unfold prepare_insert in H. step H. step H. step H. destruct a1 as [t1 i1].
  assert (G1 : good t1).
  { destruct ((t_growth K V t =? 0)%N && negb (is_deleted a0))%bool; [|injection E1 as <- <-; exact Hg].
    unfold rehash_and_grow_if_necessary in E1. destruct (resize _ _ _ _ _ _) eqn:E2 in E1; try discriminate. cbn [bind] in E1.
    destruct (find_first_non_full _ _ _) in E1; try discriminate. cbn [bind] in E1. injection E1 as <- <-. eapply resize_good; eassumption. }
  step H. step H. injection H as <-. exact G1.
Qed.
Lemma fopi_good t k r : good t -> find_or_prepare_insert K V hash keq max_cap t k = Ok r -> good (fst (fst r)).
Proof.
  intros Hg H. unfold find_or_prepare_insert in H. step H. destruct a; [injection H as <-; exact Hg|]. step H. destruct a as [t1 i]. injection H as <-.
  exact (prep_good _ _ _ Hg E0).
Qed.
Lemma emplace_good t e r : good t -> badkey (fst e) = false -> emplace K V hash keq max_cap t e = Ok r -> good (fst (fst r)).
Proof.
  intros Hg Hk H. unfold emplace in H. step H. destruct a as [[t1 i] ins]. apply fopi_good in E; [|exact Hg]. cbn [fst] in E.
  destruct ins; [|injection H as <-; exact E]. step H. injection H as <-. eapply set_ent_good; [exact E0|exact E|]. now intros ? [= <-].
Qed.
Lemma bracket_good t k r : good t -> badkey k = false -> bracket K V hash keq dv max_cap t k = Ok r -> good (fst r).
Proof.
  intros Hg Hk H. unfold bracket in H. step H. destruct a as [[t1 i] ins]. apply fopi_good in E; [|exact Hg]. cbn [fst] in E.
  destruct ins; [|injection H as <-; exact E]. step H. injection H as <-. eapply set_ent_good; [exact E0|exact E|]. now intros ? [= <-].
Qed.
(* the key of an operation that did not throw is good *)
Lemma fopi_key t n k n' r : find_or_prepare_insert_x K V hash keq max_cap fault n t k = XOk n' r -> badkey k = false.
Proof.
  unfold find_or_prepare_insert_x, find_x, call. rewrite Hhash. destruct (badkey k); [discriminate|reflexivity].
Qed.
Lemma emplace_key t n e n' r : emplace_x K V hash keq max_cap fault n t e = XOk n' r -> badkey (fst e) = false.
Proof.
  unfold emplace_x, call at 1. destruct (fault n EMake); [discriminate|]. cbn [xbind].
  destruct (find_or_prepare_insert_x _ _ _ _ _ _ _ _ _) eqn:E; try discriminate. intros _. eapply fopi_key; exact E.
Qed.
Lemma bracket_key t n k n' r : bracket_x K V hash keq dv max_cap fault n t k = XOk n' r -> badkey k = false.
Proof.
  unfold bracket_x. destruct (find_or_prepare_insert_x _ _ _ _ _ _ _ _ _) eqn:E; try discriminate. intros _. eapply fopi_key; exact E.
Qed.

Lemma iterate_in t l : iterate K V t = Ok l -> forall e, In e l -> In (Some e) (t_ent K V t).
Proof.
  unfold iterate. intros H. step H. clear E. revert a l H. generalize (S (t_cap K V t)) as fuel.
  intros fuel. induction fuel as [|fuel IH]; intros a l H e He; [discriminate H|]. cbn [iterate_from] in H.
  destruct (a =? t_cap K V t); [injection H as <-; destruct He|]. step H. step H. step H. injection H as <-.
  destruct He as [<-|He]; [|eapply IH; eassumption]. unfold rd_ent in E. destruct (nth_error (t_ent K V t) a) as [[x|]|] eqn:N; try discriminate.
  injection E as <-. eapply nth_error_In; exact N.
Qed.
Lemma emplace_all_same l : forall t n t', good t -> (forall e, In e l -> badkey (fst e) = false) -> emplace_all K V hash keq max_cap t l = Ok t' ->
  good t' /\ ((exists n', emplace_all_x K V hash keq max_cap fault n t l = XOk n' t') \/ faulty /\ exists n' t1, emplace_all_x K V hash keq max_cap fault n t l = XThrow n' t1).
Proof.
  induction l as [|e l IH]; intros t n t' Hg Hl H; cbn [emplace_all emplace_all_x] in *.
  - injection H as <-. split; [exact Hg|]. left. eauto.
  - step H. destruct a as [[t1 i] b]. cbn [fst snd] in H. pose proof (emplace_good t e _ Hg (Hl e (or_introl eq_refl)) E) as G1. cbn [fst] in G1.
    destruct (emplace_same t n e _ Hg E) as [[n1 ->]|[Fy [n1 ->]]]; cbn [xbind fst].
    + apply IH; auto. intros; apply Hl; now right.
    + split; [|right; split; [exact Fy|eauto]]. destruct (IH t1 0 t' G1 ltac:(intros; apply Hl; now right) H) as [G2 _]. exact G2.
Qed.
Lemma good_empty : good empty.
Proof. intros e []. Qed.

Lemma step_same t n o r : good t -> step K V hash keq dv max_cap t o = Ok r ->
  (exists n', step_x K V hash keq dv max_cap fault n t o = XOk n' r /\ good (fst r)) \/
  faulty /\ (exists n', step_x K V hash keq dv max_cap fault n t o = XThrow n' t).
Proof.
  intros Hg H. destruct o; cbn [step step_x] in *.
  - step H. destruct a as [[t1 i] b]. step H. injection H as <-. destruct (emplace_same t n (k, v) _ Hg E) as [[n1 F]|[Fy [n1 F]]]; rewrite F; cbn [xbind]; [|thr].
    left. cbn [fst snd]. rewrite E0. cbn. eexists. split; [reflexivity|].
    exact (emplace_good _ _ _ Hg (emplace_key _ _ _ _ _ F) E).
  - step H. destruct a as [t1 i]. step H. step H. injection H as <-. destruct (bracket_same t n k _ Hg E) as [[n1 F]|[Fy [n1 F]]]; rewrite F; cbn [xbind]; [|thr].
    left. cbn [fst snd]. rewrite E0. cbn [lift xbind]. rewrite E1. cbn. eexists. split; [reflexivity|].
    pose proof (bracket_good _ _ _ Hg (bracket_key _ _ _ _ _ F) E) as G1. cbn [fst] in G1. eapply set_ent_good; [exact E1|exact G1|].
    intros ? [= <-]. cbn [fst]. apply G1. unfold rd_ent in E0. destruct (nth_error (t_ent K V t1) i) as [[x|]|] eqn:N; try discriminate.
    injection E0 as <-. eapply nth_error_In; exact N.
  - step H. destruct a as [t1 i]. step H. injection H as <-. destruct (bracket_same t n k _ Hg E) as [[n1 F]|[Fy [n1 F]]]; rewrite F; cbn [xbind]; [|thr].
    left. cbn [fst snd]. rewrite E0. cbn. eexists. split; [reflexivity|]. exact (bracket_good _ _ _ Hg (bracket_key _ _ _ _ _ F) E).
  - step H. destruct (find_same t k n a E) as [F1 F2]. destruct (badkey k); [destruct (F2 eq_refl) as [Fy F3]; rewrite F3; cbn [xbind]; thr|].
    destruct (F1 eq_refl) as [[n1 F]|[Fy [n1 F]]]; rewrite F; cbn [xbind]; [|thr]. left. destruct a; [step H; try rewrite E0|]; injection H as <-; cbn; eauto.
  - step H. destruct (find_same t k n a E) as [F1 F2]. destruct (badkey k); [destruct (F2 eq_refl) as [Fy F3]; rewrite F3; cbn [xbind]; thr|].
    destruct (F1 eq_refl) as [[n1 F]|[Fy [n1 F]]]; rewrite F; cbn [xbind]; [|thr]. left. destruct a; [step H; try rewrite E0|]; injection H as <-; cbn; eauto.
  - step H. destruct (find_same t k n a E) as [F1 F2]. destruct (badkey k); [destruct (F2 eq_refl) as [Fy F3]; rewrite F3; cbn [xbind]; thr|].
    destruct (F1 eq_refl) as [[n1 F]|[Fy [n1 F]]]; rewrite F; cbn [xbind]; [|thr]. left. destruct a; [step H; try rewrite E0|]; injection H as <-; cbn; eauto.
  - unfold erase, erase_x in *. step H. destruct a as [t1 i]. injection H as <-.
    step E. destruct (find_same t k n a E0) as [F1 F2]. destruct (badkey k); [destruct (F2 eq_refl) as [Fy F3]; rewrite F3; cbn [xbind]; thr|].
    destruct (F1 eq_refl) as [[n1 F]|[Fy [n1 F]]]; rewrite F; cbn [xbind]; [|thr]. left.
    destruct a as [j|]; [|injection E as <- <-; cbn; eauto]. step E. injection E as <- <-. cbn. eexists. split; [reflexivity|].
    unfold erase_at in E1. step E1. step E1. assert (G1 : good a1) by (eapply set_ent_good; [eassumption|exact Hg|discriminate]).
    unfold erase_meta_only in E1. step E1. step E1. injection E1 as <-. exact G1.
  - step H. injection H as <-. cbn. left. eexists. split; [reflexivity|]. unfold clear in E. destruct (_ =? 0); [injection E as <-; exact Hg|].
    step E. injection E as <-. exact good_empty.
  - step H. injection H as <-. unfold rehash in E. destruct (rsz_exact t n _ _ Hg E) as [n1 F]. rewrite F. cbn. left. eexists. split; [reflexivity|].
    eapply resize_good; eassumption.
  - injection H as <-. left. cbn. eauto.
  - step H. injection H as <-. cbn. left. eauto.
  - step H. injection H as <-. unfold copy_construct, copy_x in *. destruct (t_size K V t =? 0)%N.
    + injection E as <-. left. cbn. eexists. split; [reflexivity|exact good_empty].
    + step E. destruct (emplace_all_same a0 empty n a good_empty ltac:(intros e He; apply Hg; eapply iterate_in; eassumption) E) as [G1 [[n1 F]|(Fy & n1 & t1 & F)]];
        rewrite F; cbn [xbind]; [left; cbn; eauto|thr].
Qed.

(* ---- histories ---- *)
Hypothesis laws : key_laws K keq hash.
Hypothesis bounded : cap_bounded max_cap.
Lemma run_same ops : forall t m I n, Inv K V hash keq max_cap t m I -> good t -> 3 * (I + inserts K V ops) + 2 <= max_cap ->
  exists t' xs, run_x K V hash keq dv max_cap fault n t ops = Some (t', xs) /\ length xs = length ops /\
    (In None xs -> faulty) /\ run K V hash keq dv max_cap t (executed K V ops xs) = Ok (t', answers K V xs).
Proof.
  induction ops as [|o ops IH]; intros t m I n Hi Hg L; cbn [run_x].
  - exists t, []. repeat split; auto. intros [].
  - change (inserts K V (o :: ops)) with (ins_of K V o + inserts K V ops) in L.
    destruct (step_spec K V hash keq dv max_cap laws bounded t m I o Hi) as [(_ & L2)|(t1 & x & E & R & _)]; [lia|].
    destruct (step_same t n o (t1, x) Hg E) as [(n1 & F & G)|(Fy & n1 & F)]; rewrite F.
    + destruct (IH t1 _ _ n1 R G ltac:(lia)) as (t2 & xs & E2 & L2 & N2 & R2). rewrite E2. exists t2, (Some x :: xs).
      split; [reflexivity|]. split; [cbn [length]; lia|]. split; [intros [K1|K1]; [discriminate|auto]|].
      cbn [executed run answers flat_map app]. rewrite E. cbn [bind]. rewrite R2. reflexivity.
    + destruct (IH t m I n1 Hi Hg ltac:(lia)) as (t2 & xs & E2 & L2 & N2 & R2). rewrite E2. exists t2, (None :: xs).
      split; [reflexivity|]. split; [cbn [length]; lia|]. split; [auto|exact R2].
Qed.
End Sim.

Section Final.
Variable K V : Type.
Variable hash : K -> N.
Variable keq : K -> K -> bool.
Variable dv : V.
Variable max_cap : nat.
Hypothesis laws : key_laws K keq hash.
Hypothesis bounded : cap_bounded max_cap.

Lemma histories fault ops : harmless K fault -> 3 * inserts K V ops + 2 <= max_cap ->
  exists t xs l, run_x K V hash keq dv max_cap fault 0 (empty_tbl K V) ops = Some (t, xs) /\ length xs = length ops /\
    Forall2 (same_out K V) (answers K V xs) (snd (spec_run K V keq dv [] (executed K V ops xs))) /\
    iterate K V t = Ok l /\ Permutation l (fst (spec_run K V keq dv [] (executed K V ops xs))) /\ t_size K V t = N.of_nat (length l).
Proof.
  intros (H1 & H2 & bk & H3) L.
  destruct (run_same K V hash keq dv max_cap fault bk H1 H2 H3 laws bounded ops _ [] 0 0 (Inv_empty K V hash keq max_cap 0) (good_empty K V bk) L)
    as (t & xs & E & Ln & _ & R).
  destruct (iterate_final K V hash keq dv max_cap laws bounded _ _ _ R) as (l & I1 & I2 & _ & I4).
  destruct (reach K V hash keq dv max_cap laws bounded _ _ _ R) as [_ S].
  exists t, xs, l. auto 10.
Qed.
Lemma without_faults ops : 3 * inserts K V ops + 2 <= max_cap ->
  exists t xs, run K V hash keq dv max_cap (empty_tbl K V) ops = Ok (t, xs) /\
    run_x K V hash keq dv max_cap (no_fault K) 0 (empty_tbl K V) ops = Some (t, map Some xs).
Proof.
  intros L.
  destruct (run_same K V hash keq dv max_cap (no_fault K) (fun _ => false) ltac:(reflexivity) ltac:(reflexivity) ltac:(reflexivity) laws bounded ops _ [] 0 0
    (Inv_empty K V hash keq max_cap 0) (good_empty K V _) L) as (t & xs & E & Ln & N & R).
  assert (Q : executed K V ops xs = ops /\ xs = map Some (answers K V xs)).
  { assert (N1 : ~ In None xs) by (intros K1; destruct (N K1) as (? & ? & ?); discriminate). clear -Ln N1. revert xs Ln N1.
    induction ops as [|o ops IH]; intros [|[x|] xs] Ln N1; try discriminate Ln; [auto| |destruct N1; now left].
    cbn [executed answers flat_map app map]. destruct (IH xs) as [-> Q]; [now injection Ln|intros K1; apply N1; now right|]. split; [reflexivity|]. f_equal. exact Q. }
  destruct Q as [Q1 Q2]. rewrite Q1 in R. exists t, (answers K V xs). split; [exact R|]. now rewrite <- Q2.
Qed.
End Final.
