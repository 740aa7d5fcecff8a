From Verif Require Import Base HashModel HashSpec HashInv HashProofs HashRefine HiterModel HiterSpec HmemProofs.

Section P.
Variable K V : Type.
Variable hash : K -> N.
Variable keq : K -> K -> bool.
Variable dv : V.
Variable max_cap : nat.
Hypothesis laws : key_laws K keq hash.
Hypothesis max_cap_ok : cap_bounded max_cap.
Notation Inv := (Inv K V hash keq max_cap).
Notation ents := (ents K V).
Notation ent := (t_ent K V).

(* ---- erase while iterating ---- *)
Variable p : K * V -> bool.
Definition kill (x : option (K * V)) : option (K * V) := match x with Some e => if p e then None else x | None => None end.

Lemma ents_app a b : ents (a ++ b) = ents a ++ ents b.
Proof. unfold HashProofs.ents. apply flat_map_app. Qed.
Lemma ents_kill l : ents (map kill l) = filter (fun e => negb (p e)) (ents l).
Proof. induction l as [|[e|] l IH]; cbn in *; auto. destruct (p e); cbn; [|f_equal]; auto. Qed.
Lemma upd_split {A} (l : list A) : forall i x, i < length l -> upd i x l = firstn i l ++ x :: skipn (i + 1) l.
Proof. induction l; intros [|i] x L; cbn in *; try lia; auto. rewrite IHl by lia. reflexivity. Qed.
Lemma skipn_cons {A} (l : list A) : forall i x, nth_error l i = Some x -> skipn i l = x :: skipn (i + 1) l.
Proof. induction l; intros [|i] x E; cbn in *; try discriminate; [congruence|]. auto. Qed.

Lemma kill_none l : forall i j, i <= j -> j <= length l -> (forall s, i <= s < j -> nth_error l s = Some None) ->
  firstn i l ++ map kill (skipn i l) = firstn j l ++ map kill (skipn j l).
Proof.
  intros i j. remember (j - i) as d eqn:D. revert i D. induction d as [|d IH]; intros i D Hij Hj H.
  - replace j with i by lia. reflexivity.
  - rewrite <- (IH (i + 1)) by (try lia; intros s Hs; apply H; lia).
    pose proof (H i ltac:(lia)) as E. rewrite (skipn_cons _ _ _ E). cbn [map kill].
    assert (F : firstn (i + 1) l = firstn i l ++ [None]).
    { clear - E. revert i E. induction l as [|x l IH]; intros [|i] E; cbn in *; try discriminate; [congruence|]. now rewrite IH. }
    rewrite F, <- app_assoc. reflexivity.
Qed.

Lemma inv_ents t m I : Inv t m I -> Inv t (ents (ent t)) I.
Proof. intros H. eapply Inv_perm; [exact laws|exact H|]. symmetry. apply (I_perm _ _ _ _ _ _ _ _ H). Qed.

Lemma erase_from_ok : forall fuel t m I i, Inv t m I -> t_cap K V t - i < fuel -> i <= t_cap K V t ->
  (i = t_cap K V t \/ exists e, nth_error (ent t) i = Some (Some e)) ->
  exists t' m', erase_from K V p fuel t i = Ok t' /\ Inv t' m' I /\ ent t' = firstn i (ent t) ++ map kill (skipn i (ent t)).
Proof.
  induction fuel as [|f IH]; intros t m I i H HF Hi R; [lia|]. cbn [erase_from].
  pose proof (J_ent _ _ _ _ _ _ (I_J _ _ _ _ _ _ _ _ H)) as HE.
  destruct (Nat.eqb_spec i (t_cap K V t)) as [->|Ne].
  { exists t, m. split; auto. split; auto. rewrite <- HE, skipn_all, firstn_all. cbn. now rewrite app_nil_r. }
  destruct R as [|(e & E)]; [lia|]. rewrite (rd_ent_ok K V t i e E). cbn [bind].
  assert (exists t1 m1, (if p e then erase_at K V t i else Ok t) = Ok t1 /\ Inv t1 m1 I /\ t_cap K V t1 = t_cap K V t /\
     ent t1 = upd i (kill (Some e)) (ent t)) as (t1 & m1 & -> & H1 & C1 & E1).
  { cbn [kill]. destruct (p e).
    - destruct (erase_at_spec K V hash keq max_cap laws t m I i e (fst e) H E) as (t1 & -> & H1 & E1 & C1); [apply (proj1 laws)|]. exists t1, (remove K V keq m (fst e)). auto.
    - exists t, m. split; auto. split; auto. split; auto. now rewrite upd_self. }
  cbn [bind]. pose proof (I_J _ _ _ _ _ _ _ _ H1) as J1. unfold next_.
  destruct (skip_spec K V hash t1 J1 (S (t_cap K V t1)) (i + 1)) as (j & -> & Hj & P & R); [lia|lia|]. cbn [bind].
  destruct (IH t1 m1 I j H1) as (t2 & m2 & -> & H2 & E2); [lia|lia|auto|]. exists t2, m2. split; auto. split; auto. rewrite E2.
  pose proof (J_ent _ _ _ _ _ _ J1) as HE1.
  rewrite <- (kill_none (ent t1) (i + 1) j) by (auto; lia). rewrite E1.
  assert (Li : i < length (ent t)) by lia. rewrite (upd_split _ _ _ Li). rewrite (skipn_cons _ _ _ E). cbn [map].
  rewrite firstn_app, skipn_app, firstn_length. replace (Nat.min i (length (ent t))) with i by lia.
  replace (i + 1 - i) with 1 by lia. cbn [firstn skipn]. rewrite firstn_all2, skipn_all2 by (rewrite firstn_length; lia).
  rewrite <- app_assoc. reflexivity.
Qed.

Lemma erase_if_ok t m I : Inv t m I ->
  exists t', erase_if K V p t = Ok t' /\ Inv t' (filter (fun e => negb (p e)) m) I /\ t_cap K V t' = t_cap K V t.
Proof.
  intros H. pose proof (I_J _ _ _ _ _ _ _ _ H) as HJ. pose proof (J_ent _ _ _ _ _ _ HJ) as HE.
  unfold erase_if, begin_. destruct (skip_spec K V hash t HJ (S (t_cap K V t)) 0) as (j & -> & Hj & P & R); [lia|lia|]. cbn [bind].
  destruct (erase_from_ok (S (t_cap K V t)) t m I j H) as (t' & m' & -> & H' & E'); [lia|lia|auto|]. exists t'. split; auto.
  rewrite <- (kill_none (ent t) 0 j) in E' by (auto; lia). cbn [firstn skipn app] in E'. split.
  - eapply Inv_perm; [exact laws|exact H'|]. rewrite <- (I_perm _ _ _ _ _ _ _ _ H'), E', ents_kill.
    apply filter_perm. apply (I_perm _ _ _ _ _ _ _ _ H).
  - pose proof (J_ent _ _ _ _ _ _ (I_J _ _ _ _ _ _ _ _ H')) as HE'. rewrite E', map_length in HE'. lia.
Qed.

End P.

(* ---- entries stay where they are ---- *)
Section Q.
Variable K V : Type.
Variable hash : K -> N.
Variable keq : K -> K -> bool.
Variable dv : V.
Variable max_cap : nat.
Hypothesis laws : key_laws K keq hash.
Hypothesis max_cap_ok : cap_bounded max_cap.
Notation Inv := (Inv K V hash keq max_cap).
Notation ents := (ents K V).
Notation ent := (t_ent K V).

Lemma fopi_new t k t' s : find_or_prepare_insert K V hash keq max_cap t k = Ok (t', s, true) ->
  t_cap K V t' = t_cap K V t -> ent t' = ent t.
Proof.
  unfold find_or_prepare_insert, prepare_insert, rehash_and_grow_if_necessary, resize.
  destruct (find_ K V hash keq t k) as [[j|]| | |]; cbn [bind]; try discriminate.
  destruct (find_first_non_full _ _ _) as [tg| | |]; cbn [bind]; try discriminate.
  destruct (rd_ctrl K V t tg) as [c| | |]; cbn [bind]; try discriminate.
  destruct ((t_growth K V t =? 0)%N && negb (is_deleted c)).
  - destruct (_ <? _); cbn [bind]; try discriminate.
    destruct (resize_loop _ _ _ _ _ _ _) as [[cs es]| | |]; cbn [bind t_cap t_ctrl t_ent]; try discriminate.
    destruct (find_first_non_full _ _ _) as [tg'| | |]; cbn [bind]; try discriminate.
    destruct (rd_ctrl K V _ tg') as [c'| | |]; cbn [bind]; try discriminate.
    destruct (set_ctrl _ _ _ _) as [cs'| | |]; cbn [bind t_cap]; try discriminate.
    intros E. injection E as <- _. cbn. destruct (Nat.eqb_spec (t_cap K V t) 0); lia.
  - cbn [bind]. destruct (rd_ctrl K V t tg) as [c'| | |]; cbn [bind]; try discriminate.
    destruct (set_ctrl _ _ _ _) as [cs'| | |]; cbn [bind t_cap]; try discriminate.
    intros E. injection E as <- _. cbn. auto.
Qed.

(* inserting into a slot: it was free *)
Lemma slot_free t m I t' k v s : Inv t m I -> Inv (set_slot K V t' s (k, v)) ((k, v) :: m) (I + 1) -> ent t' = ent t ->
  forall i e, nth_error (ent t) i = Some (Some e) -> nth_error (upd s (Some (k, v)) (ent t')) i = Some (Some e).
Proof.
  intros H H' E i e Hi. rewrite E. destruct (Nat.eq_dec i s) as [->|Q]; [|rewrite nth_error_upd_neq; auto]. exfalso.
  pose proof (I_perm _ _ _ _ _ _ _ _ H') as P'. cbn [set_slot t_ent] in P'. rewrite E in P'.
  pose proof (I_perm _ _ _ _ _ _ _ _ H) as P.
  pose proof (ents_del K V _ _ _ Hi) as D.
  pose proof (ents_put K V (upd s None (ent t)) s (k, v)) as U. rewrite nth_error_upd_eq in U by (eapply nth_lt; eauto).
  specialize (U eq_refl). rewrite upd_upd_eq in U.
  apply Permutation_length in P, P', D, U. cbn in P', D, U. lia.
Qed.

Lemma emplace_stays t m I k v t' s b : Inv t m I -> emplace K V hash keq max_cap t (k, v) = Ok (t', s, b) ->
  t_cap K V t' = t_cap K V t -> forall i e, nth_error (ent t) i = Some (Some e) -> nth_error (ent t') i = Some (Some e).
Proof.
  intros H E C. unfold emplace in E. cbn [fst] in E.
  destruct (fopi_spec K V hash keq dv max_cap laws max_cap_ok t m I k H) as [(X & _)|[(s' & e' & X & _ & _)|(t1 & s1 & X & L & A)]]; rewrite X in E; cbn [bind] in E; try discriminate.
  - injection E as <- _ _. auto.
  - destruct (A v) as (S1 & H1 & _). rewrite S1 in E. cbn [bind] in E. injection E as <- _ _.
    apply (slot_free t m I t1 k v s1 H H1). eapply fopi_new; eauto.
Qed.
Lemma bracket_stays t m I k t' s : Inv t m I -> bracket K V hash keq dv max_cap t k = Ok (t', s) ->
  t_cap K V t' = t_cap K V t -> forall i e, nth_error (ent t) i = Some (Some e) -> nth_error (ent t') i = Some (Some e).
Proof.
  intros H E C. unfold bracket in E.
  destruct (fopi_spec K V hash keq dv max_cap laws max_cap_ok t m I k H) as [(X & _)|[(s' & e' & X & _ & _)|(t1 & s1 & X & L & A)]]; rewrite X in E; cbn [bind] in E; try discriminate.
  - injection E as <- _. auto.
  - destruct (A dv) as (S1 & H1 & _). rewrite S1 in E. cbn [bind] in E. injection E as <- _.
    apply (slot_free t m I t1 k dv s1 H H1). eapply fopi_new; eauto.
Qed.

Lemma stays t m I o t' x : Inv t m I -> step K V hash keq dv max_cap t o = Ok (t', x) -> t_cap K V t' = t_cap K V t ->
  forall i e, nth_error (ent t) i = Some (Some e) -> touches K V keq o (fst e) = false -> nth_error (ent t') i = Some (Some e).
Proof.
  intros H E C i e Hi T. destruct o as [k v|k v|k|k|k|k|k| | | | | ]; cbn [touches step] in *; try discriminate.
  - destruct (emplace _ _ _ _ _ _ _) as [[[t1 s] b]| | |] eqn:Em; cbn [bind] in E; try discriminate.
    destruct (rd_ent _ _ _ _); cbn [bind] in E; try discriminate. injection E as <- _. eapply emplace_stays; eauto.
  - destruct (bracket_spec K V hash keq dv max_cap laws max_cap_ok t m I k H) as [(X & _)|(t1 & s & e1 & X & E1 & L)]; rewrite X in E; cbn [bind] in E; try discriminate.
    rewrite (rd_ent_ok K V t1 s e1 E1) in E. cbn [bind] in E.
    destruct (set_ent _ _ _ _ _) as [t2| | |] eqn:S; cbn [bind] in E; try discriminate. injection E as <- _.
    assert (C1 : t_cap K V t1 = t_cap K V t) by (rewrite <- C; symmetry; eapply set_ent_cap; eauto).
    pose proof (bracket_stays t m I k t1 s H X C1 i e Hi) as Hi1.
    assert (Q : keq (fst e1) k = true).
    { destruct (lookup K V keq m k) as [e'|] eqn:Lk; [|destruct L as (-> & _); apply (proj1 laws)].
      destruct L as (-> & _). apply (lookup_iff K V hash keq laws _ _ _ (I_dist _ _ _ _ _ _ _ _ H)) in Lk. apply Lk. }
    unfold set_ent in S. destruct (put_ent _ _ _ _ _) as [es| | |] eqn:Pu; cbn [bind] in S; try discriminate. injection S as <-. cbn.
    unfold put_ent in Pu. destruct (_ <? _); try discriminate. injection Pu as <-.
    rewrite nth_error_upd_neq; auto. intros ->. rewrite Hi1 in E1. injection E1 as <-. congruence.
  - destruct (bracket _ _ _ _ _ _ _ _) as [[t1 s]| | |] eqn:Em; cbn [bind] in E; try discriminate.
    destruct (rd_ent _ _ _ _); cbn [bind] in E; try discriminate. injection E as <- _. eapply bracket_stays; eauto.
  - destruct (find_ _ _ _ _ _ _) as [[j|]| | |]; cbn [bind] in E; try discriminate; [destruct (rd_ent _ _ _ _); cbn [bind] in E; try discriminate|];
      injection E as <- _; auto.
  - destruct (find_ _ _ _ _ _ _) as [[j|]| | |]; cbn [bind] in E; try discriminate; [destruct (rd_ent _ _ _ _); cbn [bind] in E; try discriminate|];
      injection E as <- _; auto.
  - destruct (find_ _ _ _ _ _ _) as [[j|]| | |]; cbn [bind] in E; try discriminate; [destruct (rd_ent _ _ _ _); cbn [bind] in E; try discriminate|];
      injection E as <- _; auto.
  - unfold erase in E. destruct (find_Inv K V hash keq max_cap laws t m I k H) as ([s|] & X & R); rewrite X in E; cbn [bind] in E.
    + destruct R as (e1 & E1 & L). apply (lookup_iff K V hash keq laws _ _ _ (I_dist _ _ _ _ _ _ _ _ H)) in L as (_ & Q).
      destruct (erase_at_spec K V hash keq max_cap laws t m I s e1 k H E1 Q) as (t1 & Y & _ & Z & _). rewrite Y in E. cbn [bind] in E.
      injection E as <- _. rewrite Z, nth_error_upd_neq; auto. intros ->. rewrite Hi in E1. injection E1 as <-. congruence.
    + injection E as <- _. auto.
  - injection E as <- _. auto.
  - destruct (iterate _ _ _); cbn [bind] in E; try discriminate. injection E as <- _. auto.
Qed.

Lemma emplace_same t m I k v t' s b : Inv t m I -> emplace K V hash keq max_cap t (k, v) = Ok (t', s, b) ->
  lookup K V keq m k <> None -> t' = t.
Proof.
  intros H E C. unfold emplace in E. cbn [fst] in E.
  destruct (fopi_spec K V hash keq dv max_cap laws max_cap_ok t m I k H) as [(X & _)|[(s' & e' & X & _ & _)|(t1 & s1 & X & L & A)]]; rewrite X in E; cbn [bind] in E; try discriminate.
  - injection E as <- _ _. auto.
  - contradiction.
Qed.
Lemma bracket_same t m I k t' s : Inv t m I -> bracket K V hash keq dv max_cap t k = Ok (t', s) ->
  lookup K V keq m k <> None -> t' = t.
Proof.
  intros H E C. unfold bracket in E.
  destruct (fopi_spec K V hash keq dv max_cap laws max_cap_ok t m I k H) as [(X & _)|[(s' & e' & X & _ & _)|(t1 & s1 & X & L & A)]]; rewrite X in E; cbn [bind] in E; try discriminate.
  - injection E as <- _. auto.
  - contradiction.
Qed.
Lemma grows_only t m I o t' x : Inv t m I -> step K V hash keq dv max_cap t o = Ok (t', x) -> plain K V o = true ->
  t_cap K V t' <> t_cap K V t -> adds K V keq o m.
Proof.
  intros H E Pl C. assert (X : inserting K V o = true).
  { destruct (inserting K V o) eqn:Q; auto. destruct C. eapply (step_cap K V hash keq dv max_cap); eauto. }
  destruct o as [k v|k v|k|k|k|k|k| | | | | ]; cbn [adds step inserting] in *; try discriminate;
    destruct (lookup K V keq m k) eqn:L; auto; exfalso; apply C.
  - destruct (emplace _ _ _ _ _ _ _) as [[[t1 s] b]| | |] eqn:Em; cbn [bind] in E; try discriminate.
    destruct (rd_ent _ _ _ _); cbn [bind] in E; try discriminate. injection E as <- _.
    rewrite (emplace_same t m I k v t1 s b H Em); [auto|congruence].
  - destruct (bracket _ _ _ _ _ _ _ _) as [[t1 s]| | |] eqn:Em; cbn [bind] in E; try discriminate.
    destruct (rd_ent _ _ _ _); cbn [bind] in E; try discriminate.
    destruct (set_ent _ _ _ _ _) as [t2| | |] eqn:S; cbn [bind] in E; try discriminate. injection E as <- _.
    apply set_ent_cap in S. rewrite S. rewrite (bracket_same t m I k t1 s H Em); [auto|congruence].
  - destruct (bracket _ _ _ _ _ _ _ _) as [[t1 s]| | |] eqn:Em; cbn [bind] in E; try discriminate.
    destruct (rd_ent _ _ _ _); cbn [bind] in E; try discriminate. injection E as <- _.
    rewrite (bracket_same t m I k t1 s H Em); [auto|congruence].
Qed.
End Q.
