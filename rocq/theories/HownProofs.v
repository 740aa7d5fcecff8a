From Verif Require Import Base HashModel HashSpec HashProofs HashRefine HmemModel HiterSpec HmemProofs HiterProofs HownModel HownSpec.

Section P.
Variable K V : Type.
Variable hash : K -> N.
Variable keq : K -> K -> bool.
Variable dv : V.
Variable max_cap : nat.
Variable key_of : V -> K.
Hypothesis laws : key_laws K keq hash.
Hypothesis max_cap_ok : cap_bounded max_cap.
Notation Inv := (Inv K V hash keq max_cap).
Notation cap := (t_cap K V).
Notation step := (step K V hash keq dv max_cap).
Notation own_step := (own_step K V hash keq dv max_cap key_of).
Notation bracket := (bracket K V hash keq dv max_cap).
Notation lookup := (lookup K V keq).

Lemma bracket_own_eq t m I i e : Inv t m I -> rd_ent K V t i = Ok e ->
  bracket_own K V hash keq dv max_cap key_of t i =
  match bracket t (key_of (snd e)) with Ok (u, s) => if cap u =? cap t then Ok (u, s) else UB | r => r end.
Proof.
  intros H E. unfold bracket_own, HashModel.bracket. rewrite E. cbn [bind].
  destruct (fopi_spec K V hash keq dv max_cap laws max_cap_ok t m I (key_of (snd e)) H) as [(-> & _)|[(s & d & -> & _)|(u & s & X & _ & A)]]; cbn [bind]; auto.
  - rewrite Nat.eqb_refl. auto.
  - rewrite X. cbn [bind]. destruct (A dv) as (S & _). rewrite S. cbn [bind]. rewrite (set_ent_cap K V _ _ _ _ S).
    destruct (Nat.eqb_spec (cap u) (cap t)) as [Q|Q]; auto.
    rewrite (rd_ent_ok K V u i e); [cbn [bind]; rewrite S; auto|]. rewrite (fopi_new K V hash keq max_cap t _ u s X Q).
    unfold rd_ent in E. destruct (nth_error _ i) as [[d|]|]; try discriminate. injection E as ->. auto.
Qed.

Lemma own_eq t m I o p : Inv t m I -> with_copy K V keq key_of m o = Some p ->
  own_step t o = match step t p with
                 | Ok (u, x) => if reads_late K o && negb (cap u =? cap t) then UB else Ok (u, x)
                 | r => r
                 end.
Proof.
  intros H W. unfold with_copy in W. unfold HownModel.own_step.
  destruct (find_Inv K V hash keq max_cap laws t m I (source K o) H) as (r & -> & R). cbn [bind].
  destruct (lookup m (source K o)) as [e|] eqn:L; try discriminate. injection W as <-.
  destruct r as [i|]; [|exfalso; rewrite R in L; discriminate].
  destruct R as (e' & Ei & L'). assert (e' = e) by congruence. subst e'. pose proof (rd_ent_ok K V t i e Ei) as RE.
  destruct o as [k|k k'|k k'|k]; cbn [reads_late andb HashModel.step].
  - rewrite (bracket_own_eq t m I i e H RE).
    destruct (bracket_spec K V hash keq dv max_cap laws max_cap_ok t m I (key_of (snd e)) H) as [(-> & _)|(u & s & d & -> & Ed & _)]; cbn [bind]; auto.
    rewrite (rd_ent_ok K V u s d Ed). cbn [bind]. destruct (cap u =? cap t); cbn [bind negb]; auto. rewrite (rd_ent_ok K V u s d Ed). auto.
  - pose proof (bracket_spec K V hash keq dv max_cap laws max_cap_ok t m I k H) as [(-> & _)|(u & s & d & B & Ed & Q)]; cbn [bind]; auto.
    rewrite B. cbn [bind]. rewrite (rd_ent_ok K V u s d Ed). cbn [bind].
    assert (S : exists w, set_ent K V u s (Some (fst d, snd e)) = Ok w).
    { unfold set_ent, put_ent. assert (s < length (t_ent K V u)) by (apply nth_error_Some; congruence).
      destruct (Nat.ltb_spec s (length (t_ent K V u))); [|lia]. cbn [bind]. eauto. }
    destruct S as (w & S). rewrite S. cbn [bind]. rewrite (set_ent_cap K V _ _ _ _ S).
    destruct (Nat.eqb_spec (cap u) (cap t)) as [C|C]; cbn [negb]; auto.
    assert (Ei' : nth_error (t_ent K V u) i = Some (Some e)).
    { apply (stays K V hash keq dv max_cap laws max_cap_ok t m I (Bracket K V k) u (OVal K V (snd d)) H); auto.
      cbn [HashModel.step]. rewrite B. cbn [bind]. rewrite (rd_ent_ok K V u s d Ed). auto. }
    rewrite (rd_ent_ok K V u i e Ei'). cbn [bind]. rewrite S. auto.
  - rewrite RE. cbn [bind]. destruct (emplace _ _ _ _ _ _ _) as [[[u s] b]| | |]; cbn [bind]; auto. destruct (rd_ent K V u s); auto.
  - rewrite RE. cbn [bind]. destruct (erase _ _ _ _ _ _) as [[u n]| | |]; auto.
Qed.

Lemma own_out_of_range t m I o : Inv t m I -> with_copy K V keq key_of m o = None -> own_step t o = Ok (t, OOutOfRange K V).
Proof.
  intros H W. unfold with_copy in W. unfold HownModel.own_step.
  destruct (find_Inv K V hash keq max_cap laws t m I (source K o) H) as (r & -> & R). cbn [bind].
  destruct r as [i|]; auto. destruct R as (e & _ & L). rewrite L in W. discriminate.
Qed.

(* a table with room left, or with a deleted slot in the right place, is not reallocated *)
Lemma fopi_room t k u s b : find_or_prepare_insert K V hash keq max_cap t k = Ok (u, s, b) -> t_growth K V t <> 0%N -> cap u = cap t.
Proof.
  unfold find_or_prepare_insert, prepare_insert. intros E G. destruct (find_ K V hash keq t k) as [[j|]| | |]; cbn [bind] in E; try discriminate.
  - injection E as <- _ _. auto.
  - destruct (find_first_non_full _ _ _) as [tg| | |]; cbn [bind] in E; try discriminate.
    destruct (rd_ctrl K V t tg) as [c| | |] eqn:R; cbn [bind] in E; try discriminate.
    destruct (N.eqb_spec (t_growth K V t) 0); [contradiction|]. cbn [andb bind] in E. rewrite R in E. cbn [bind] in E.
    destruct (set_ctrl _ _ _ _) as [cs| | |]; cbn [bind] in E; try discriminate. injection E as <- _ _. auto.
Qed.
Lemma bracket_room t k u s : bracket t k = Ok (u, s) -> t_growth K V t <> 0%N -> cap u = cap t.
Proof.
  unfold HashModel.bracket. destruct (find_or_prepare_insert _ _ _ _ _ _ _) as [[[v j] b]| | |] eqn:E; cbn [bind]; try discriminate.
  intros X G. rewrite <- (fopi_room t k v j b E G). destruct b; [|injection X as <- _; auto].
  destruct (set_ent _ _ _ _ _) as [w| | |] eqn:S; cbn [bind] in X; try discriminate. injection X as <- _. apply (set_ent_cap K V _ _ _ _ S).
Qed.
Lemma step_room t o p m u x : with_copy K V keq key_of m o = Some p -> reads_late K o = true -> step t p = Ok (u, x) ->
  t_growth K V t <> 0%N -> cap u = cap t.
Proof.
  unfold with_copy. destruct (lookup m (source K o)) as [e|]; try discriminate. intros [= <-] R E G.
  destruct o as [k|k k'|k k'|k]; cbn [reads_late HashModel.step] in *; try discriminate.
  - destruct (bracket t _) as [[v s]| | |] eqn:B; cbn [bind] in E; try discriminate. destruct (rd_ent K V v s); cbn [bind] in E; try discriminate.
    injection E as <- _. apply (bracket_room _ _ _ _ B G).
  - destruct (bracket t _) as [[v s]| | |] eqn:B; cbn [bind] in E; try discriminate. destruct (rd_ent K V v s); cbn [bind] in E; try discriminate.
    destruct (set_ent _ _ _ _ _) as [w| | |] eqn:S; cbn [bind] in E; try discriminate. injection E as <- _.
    rewrite (set_ent_cap K V _ _ _ _ S). apply (bracket_room _ _ _ _ B G).
Qed.

Notation call_step := (call_step K V hash keq dv max_cap key_of).
Notation call_run := (call_run K V hash keq dv max_cap key_of).
Notation call_spec := (call_spec K V keq key_of dv).
Notation call_hist := (call_hist K V keq key_of dv).
Notation adding := (adding K V).
Lemma Inv_more t m I J : Inv t m I -> I <= J -> Inv t m J.
Proof. intros H L. destruct H. constructor; auto; lia. Qed.
Lemma call_ok t m I c : Inv t m I ->
  call_step t c = Throw /\ max_cap < 3 * (I + adding c) + 2 \/
  late K V c = true /\ call_step t c = UB \/
  exists u x, call_step t c = Ok (u, x) /\ Inv u (fst (call_spec m c)) (I + adding c) /\ same_out K V x (snd (call_spec m c)).
Proof.
  intros H. destruct c as [o|o]; cbn [HownModel.call_step HownSpec.call_spec HownSpec.adding late].
  - destruct (step_spec K V hash keq dv max_cap laws max_cap_ok t m I o H) as [(A & B)|(u & x & A & B & C)]; [left|right; right]; eauto 6.
  - destruct (with_copy K V keq key_of m o) as [p|] eqn:W.
    + rewrite (own_eq t m I o p H W).
      assert (L : I + ins_of K V p <= I + adding (Own K V o)).
      { unfold with_copy in W. destruct (lookup m (source K o)); try discriminate. injection W as <-. destruct o; cbn; lia. }
      destruct (step_spec K V hash keq dv max_cap laws max_cap_ok t m I p H) as [(A & B)|(u & x & A & B & C)]; rewrite A.
      * left. split; auto. cbn [HownSpec.adding] in L. lia.
      * right. destruct (reads_late K o); cbn [andb]; [destruct (negb _); auto|]; right; exists u, x; split; auto; split; auto;
          (eapply Inv_more; [exact B|exact L]).
    + right; right. rewrite (own_out_of_range t m I o H W). exists t, (OOutOfRange K V). split; auto. split; [eapply Inv_more; eauto; lia|].
      reflexivity.
Qed.
Lemma calls_ok cs : forall t m I, Inv t m I ->
  call_run t cs = Throw /\ max_cap < 3 * (I + list_sum (map adding cs)) + 2 \/
  existsb (late K V) cs = true /\ call_run t cs = UB \/
  exists u xs, call_run t cs = Ok (u, xs) /\ Inv u (fst (call_hist m cs)) (I + list_sum (map adding cs)) /\ Forall2 (same_out K V) xs (snd (call_hist m cs)).
Proof.
  induction cs as [|c cs IH]; intros t m I H; cbn [HownModel.call_run HownSpec.call_hist map list_sum fold_right existsb].
  - right; right. exists t, []. rewrite Nat.add_0_r. cbn. auto.
  - change (fold_right Nat.add 0 (map adding cs)) with (list_sum (map adding cs)).
    destruct (call_ok t m I c H) as [(E & B)|[(L & E)|(u & x & E & B & C)]]; rewrite E; cbn [bind].
    + left. split; auto. lia.
    + right; left. rewrite L. auto.
    + destruct (call_spec m c) as [m1 y]. cbn [fst snd] in *.
      destruct (IH u m1 _ B) as [(E' & B')|[(L' & E')|(u' & xs & E' & B' & C')]]; rewrite E'; cbn [bind].
      * left. split; auto. lia.
      * right; left. rewrite L', orb_true_r. auto.
      * right; right. destruct (call_hist m1 cs) as [m2 ys]. cbn [fst snd] in *. exists u', (x :: xs). split; auto. split; auto.
        rewrite Nat.add_assoc. auto.
Qed.

Lemma emplace_present t m I i e : Inv t m I -> nth_error (t_ent K V t) i = Some (Some e) ->
  exists s, emplace K V hash keq max_cap t e = Ok (t, s, false).
Proof.
  intros H E. unfold emplace.
  destruct (fopi_spec K V hash keq dv max_cap laws max_cap_ok t m I (fst e) H) as [(_ & L & _)|[(s & d & -> & _)|(u & s & _ & L & _)]].
  - exfalso. pose proof (proj1 (lookup_none K V keq m (fst e)) L e) as Q. rewrite (proj1 laws) in Q.
    discriminate Q. eapply Permutation_in; [apply (I_perm _ _ _ _ _ _ _ _ H)|]. unfold ents. apply in_flat_map. exists (Some e).
    split; [eapply nth_error_In; eauto|]. cbn. auto.
  - exists s. auto.
  - exfalso. pose proof (proj1 (lookup_none K V keq m (fst e)) L e) as Q. rewrite (proj1 laws) in Q.
    discriminate Q. eapply Permutation_in; [apply (I_perm _ _ _ _ _ _ _ _ H)|]. unfold ents. apply in_flat_map. exists (Some e).
    split; [eapply nth_error_In; eauto|]. cbn. auto.
Qed.
Lemma insert_self_ok t m I : Inv t m I -> insert_self K V hash keq max_cap t = Ok t.
Proof.
  intros H. pose proof (I_J _ _ _ _ _ _ _ _ H) as HJ.
  assert (L : forall fuel i, cap t - i < fuel -> i <= cap t -> (i = cap t \/ exists e, nth_error (t_ent K V t) i = Some (Some e)) ->
     insert_from K V hash keq max_cap fuel (cap t) t i = Ok t).
  { induction fuel as [|fuel IH]; intros i HF Hi R; [lia|]. cbn [insert_from]. destruct (Nat.eqb_spec i (cap t)) as [|Ne]; auto.
    destruct R as [|(e & E)]; [lia|]. rewrite (rd_ent_ok K V t i e E). cbn [bind].
    destruct (emplace_present t m I i e H E) as (s & ->). cbn [bind]. rewrite Nat.eqb_refl. unfold next_.
    destruct (skip_spec K V hash t HJ (S (cap t)) (i + 1)) as (j & -> & Hj & P & R); [lia|lia|]. cbn [bind]. apply IH; auto; lia. }
  unfold insert_self, begin_. destruct (skip_spec K V hash t HJ (S (cap t)) 0) as (j & -> & Hj & P & R); [lia|lia|]. cbn [bind].
  apply L; auto; lia.
Qed.
End P.
