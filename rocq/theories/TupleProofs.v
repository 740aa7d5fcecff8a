From Verif Require Import Base FlatModel FlatProofs PagedProofs TupleModel.
Ltac Zify.zify_post_hook ::= Z.to_euclidean_division_equations.

Lemma align_up_mod off a : 0 < a -> align_up off a mod a = 0.
Proof.
  intros H. unfold align_up. destruct (Nat.eqb_spec (off mod a) 0) as [E|E]; auto.
  pose proof (Nat.mod_upper_bound off a). rewrite (Nat.mod_small (a - off mod a)) by lia.
  pose proof (Nat.div_mod off a). replace (off + (a - off mod a)) with ((off / a + 1) * a) by lia. apply Nat.mod_mul. lia.
Qed.
Lemma align_up_le off a : 0 < a -> off <= align_up off a.
Proof. intros H. unfold align_up. destruct (off mod a =? 0); lia. Qed.
Lemma align_up_lt off a : 0 < a -> align_up off a < off + a.
Proof.
  intros H. unfold align_up. destruct (off mod a =? 0); [lia|]. pose proof (Nat.mod_upper_bound (a - off mod a) a). lia.
Qed.
Definition good (ts : list ty) : Prop := forall t, In t ts -> 0 < talign t.
Lemma good_tl t ts : good (t :: ts) -> good ts. Proof. intros G u H. apply G. right. auto. Qed.
Lemma off_ge ts : forall i off, good ts -> i < length ts -> off <= get_offset ts i off.
Proof.
  induction ts as [|t ts IH]; intros i off G L; cbn [get_offset length] in *; [lia|]. assert (0 < talign t) by (apply G; left; auto).
  pose proof (align_up_le off (talign t) H). destruct i as [|i]; auto. destruct ts as [|u ts]; [cbn in L; lia|].
  etransitivity; [|apply IH; [eapply good_tl; eauto|lia]]. lia.
Qed.
Lemma off_aligned ts : forall i off t, good ts -> nth_error ts i = Some t -> get_offset ts i off mod talign t = 0.
Proof.
  induction ts as [|u ts IH]; intros i off t G E; cbn [get_offset] in *; [destruct i; discriminate|]. destruct i as [|i]; cbn in E.
  - injection E as ->. apply align_up_mod. apply G; left; auto.
  - destruct ts as [|v ts]; [destruct i; discriminate|]. apply IH; auto. eapply good_tl; eauto.
Qed.
Lemma off_disjoint ts : forall i j off t, good ts -> i < j < length ts -> nth_error ts i = Some t -> get_offset ts i off + tsize t <= get_offset ts j off.
Proof.
  induction ts as [|u ts IH]; intros i j off t G L E; [cbn in L; lia|]. cbn [length] in L. destruct j as [|j]; [lia|].
  destruct ts as [|v ts]; [cbn in L; lia|]. change (get_offset (u :: v :: ts) (S j) off) with (get_offset (v :: ts) j (align_up off (talign u) + tsize u)).
  destruct i as [|i].
  - injection E as <-. change (get_offset (u :: v :: ts) 0 off) with (align_up off (talign u)). apply off_ge; [eapply good_tl; eauto|]. lia.
  - change (get_offset (u :: v :: ts) (S i) off) with (get_offset (v :: ts) i (align_up off (talign u) + tsize u)).
    apply IH; auto. { eapply good_tl; eauto. } lia.
Qed.
Lemma off_total ts : forall i off t, good ts -> nth_error ts i = Some t -> get_offset ts i off + tsize t <= get_offset ts (length ts + 1) off.
Proof.
  induction ts as [|u ts IH]; intros i off t G E; [destruct i; discriminate|]. assert (0 < talign u) by (apply G; left; auto).
  destruct ts as [|v ts].
  - destruct i as [|[|i]]; try discriminate. injection E as ->. cbn. lia.
  - change (length (u :: v :: ts) + 1) with (S (length (v :: ts) + 1)).
    change (get_offset (u :: v :: ts) (S (length (v :: ts) + 1)) off) with (get_offset (v :: ts) (length (v :: ts) + 1) (align_up off (talign u) + tsize u)).
    destruct i as [|i].
    + injection E as ->. change (get_offset (t :: v :: ts) 0 off) with (align_up off (talign t)). pose proof (IH 0 (align_up off (talign t) + tsize t) v (good_tl _ _ G) eq_refl).
      pose proof (off_ge (v :: ts) 0 (align_up off (talign t) + tsize t) (good_tl _ _ G)) as Q. cbn [length] in Q. specialize (Q (Nat.lt_0_succ _)). lia.
    + change (get_offset (u :: v :: ts) (S i) off) with (get_offset (v :: ts) i (align_up off (talign u) + tsize u)).
      apply IH; auto. eapply good_tl; eauto.
Qed.
(* alignment: all alignments are powers of two, so each divides the largest *)
Lemma max_align_pow ts : (forall t, In t ts -> exists k, talign t = 2 ^ k) -> forall t, In t ts -> exists q, max_align_of ts = q * talign t.
Proof.
  intros P. assert (B : ts <> [] -> exists k, max_align_of ts = 2 ^ k).
  { induction ts as [|t ts IH]; [congruence|]. intros _. destruct (P t (or_introl eq_refl)) as (k & Ek). destruct ts as [|u ts]; [exists k; auto|].
    destruct IH as (l & El); [intros; apply P; right; auto|discriminate|]. change (max_align_of (t :: u :: ts)) with (Nat.max (talign t) (max_align_of (u :: ts))).
    rewrite Ek, El. exists (Nat.max k l). destruct (Nat.max_spec k l) as [(L & ->)|(L & ->)].
    - apply Nat.max_r. apply Nat.pow_le_mono_r; lia.
    - apply Nat.max_l. apply Nat.pow_le_mono_r; lia. }
  intros t H. destruct (P t H) as (k & Ek). destruct B as (l & El); [intros ->; contradiction|].
  assert (L : talign t <= max_align_of ts).
  { clear -H. induction ts as [|u ts IH]; [contradiction|]. destruct ts as [|v ts]; [destruct H as [->|[]]; cbn; auto|].
    change (max_align_of (u :: v :: ts)) with (Nat.max (talign u) (max_align_of (v :: ts))). destruct H as [->|H]; [lia|]. specialize (IH H). lia. }
  rewrite Ek, El in *. assert (k <= l). { destruct (le_lt_dec k l); auto. exfalso. pose proof (Nat.pow_lt_mono_r 2 l k). lia. }
  exists (2 ^ (l - k)). rewrite <- Nat.pow_add_r. f_equal. lia.
Qed.
Lemma layout ts base : (forall t, In t ts -> exists k, talign t = 2 ^ k) -> base mod max_align_of ts = 0 ->
  forall i t, nth_error ts i = Some t ->
    (base + get_offset ts i 0) mod talign t = 0 /\
    get_offset ts i 0 + tsize t <= get_total_size ts /\
    forall j u, nth_error ts j = Some u -> i <> j -> get_offset ts i 0 + tsize t <= get_offset ts j 0 \/ get_offset ts j 0 + tsize u <= get_offset ts i 0.
Proof.
  intros P B i t E. assert (G : good ts) by (intros u H; destruct (P u H) as (k & ->); apply Nat.neq_0_lt_0; apply Nat.pow_nonzero; lia).
  pose proof (nth_error_In _ _ E) as I. split; [|split].
  - destruct (max_align_pow ts P t I) as (q & Eq). pose proof (G t I) as A. rewrite Eq in B. pose proof (off_aligned ts i 0 t G E) as O.
    assert (q <> 0). { intros ->. destruct ts as [|u ts]; [destruct i; discriminate|]. destruct ts as [|v ts].
      - destruct (P u (or_introl eq_refl)) as (k & Ek). cbn in Eq. pose proof (G u (or_introl eq_refl)). lia.
      - change (max_align_of (u :: v :: ts)) with (Nat.max (talign u) (max_align_of (v :: ts))) in Eq. pose proof (G u (or_introl eq_refl)). lia. }
    apply Nat.mod_divide in B; [|lia]. apply Nat.mod_divide in O; [|lia]. apply Nat.mod_divide; [lia|]. apply Nat.divide_add_r; auto.
    destruct B as (b & ->). exists (b * q). lia.
  - apply off_total; auto.
  - intros j u Ej Hn. assert (Li : i < length ts) by (apply nth_error_Some; congruence). assert (Lj : j < length ts) by (apply nth_error_Some; congruence).
    destruct (lt_dec i j); [left|right]; apply off_disjoint; auto; lia.
Qed.

(* bytes *)
Lemma wr_len m off bs m' : wr m off bs = Ok m' -> length m' = length m.
Proof.
  unfold wr. destruct (Nat.leb_spec (off + length bs) (length m)); [|discriminate]. intros E. injection E as <-. rewrite !app_length, firstn_length, skipn_length. lia.
Qed.
Lemma rd_wr_same m off bs m' : wr m off bs = Ok m' -> rd m' off (length bs) = Ok bs.
Proof.
  intros E. pose proof (wr_len _ _ _ _ E) as L. unfold wr in E. destruct (Nat.leb_spec (off + length bs) (length m)) as [H|]; [|discriminate]. unfold rd.
  rewrite L. destruct (Nat.leb_spec (off + length bs) (length m)); [|lia]. injection E as <-. f_equal.
  rewrite skipn_app, skipn_all2 by (rewrite firstn_length; lia). rewrite firstn_length. replace (off - _) with 0 by lia. cbn [skipn app].
  rewrite firstn_app, Nat.sub_diag, firstn_all. cbn. apply app_nil_r.
Qed.
Lemma ext {A} (l m : list A) : (forall k, nth_error l k = nth_error m k) -> l = m.
Proof.
  revert m; induction l as [|x l IH]; intros [|y m] H; auto; try (specialize (H 0); discriminate).
  f_equal; [specialize (H 0); cbn in H; congruence|]. apply IH. intros k. exact (H (S k)).
Qed.
Lemma nth_skip {A} (l : list A) n k : nth_error (skipn n l) k = nth_error l (n + k).
Proof. revert l; induction n; intros [|x l]; cbn; auto. destruct k; auto. Qed.
Lemma nth_first {A} (l : list A) n k : nth_error (firstn n l) k = if k <? n then nth_error l k else None.
Proof.
  revert l k; induction n; intros [|x l] [|k]; cbn [firstn nth_error]; auto.
  - destruct (S k <? S n); auto.
  - rewrite IHn. auto.
Qed.
Lemma wr_nth m off bs m' k : wr m off bs = Ok m' -> k < off \/ off + length bs <= k -> nth_error m' k = nth_error m k.
Proof.
  intros E Hk. unfold wr in E. destruct (Nat.leb_spec (off + length bs) (length m)) as [H|]; [|discriminate]. injection E as <-.
  destruct Hk as [Hk|Hk].
  - rewrite nth_error_app1 by (rewrite firstn_length; lia). rewrite nth_first. destruct (Nat.ltb_spec k off); auto. lia.
  - rewrite nth_error_app2 by (rewrite firstn_length; lia). rewrite firstn_length, nth_error_app2 by lia. rewrite nth_skip. f_equal. lia.
Qed.
Lemma rd_wr_other m off bs m' o n : wr m off bs = Ok m' -> o + n <= off \/ off + length bs <= o -> rd m' o n = rd m o n.
Proof.
  intros E H. unfold rd. rewrite (wr_len _ _ _ _ E). destruct (o + n <=? length m); auto. f_equal. apply ext. intros k. rewrite !nth_first, !nth_skip.
  destruct (Nat.ltb_spec k n); auto. apply (wr_nth _ _ _ _ _ E). lia.
Qed.
Definition TR (ts : list ty) (m : storage) (vs : list (list N)) : Prop :=
  length m = get_total_size ts /\ forall i v, nth_error vs i = Some v -> tget ts m i = Ok v.
Lemma tset_ok ts m i v t : good ts -> length m = get_total_size ts -> nth_error ts i = Some t -> length v = tsize t ->
  exists m', tset ts m i v = Ok m' /\ length m' = get_total_size ts /\ tget ts m' i = Ok v /\ forall j, j <> i -> tget ts m' j = tget ts m j.
Proof.
  intros G L E Ev. unfold tset. rewrite (idx_some _ _ _ E). cbn [bind]. rewrite Ev, Nat.eqb_refl.
  pose proof (off_total ts i 0 t G E) as T. fold (get_total_size ts) in T.
  destruct (wr m (get_offset ts i 0) v) as [m'| | |] eqn:W; try (unfold wr in W; destruct (Nat.leb_spec (get_offset ts i 0 + length v) (length m)); [discriminate|lia]).
  exists m'. split; auto. split; [rewrite (wr_len _ _ _ _ W); auto|]. split.
  - unfold tget. rewrite (idx_some _ _ _ E). cbn [bind]. rewrite <- Ev. eapply rd_wr_same; eauto.
  - intros j Hj. unfold tget, idx. destruct (nth_error ts j) as [u|] eqn:Ej; auto. cbn [bind]. eapply rd_wr_other; eauto. rewrite Ev.
    assert (Li : i < length ts) by (apply nth_error_Some; congruence). assert (Lj : j < length ts) by (apply nth_error_Some; congruence).
    destruct (lt_dec i j); [right|left]; apply off_disjoint; auto; lia.
Qed.
Lemma tfill_ok ts : good ts -> forall vs m i, length m = get_total_size ts -> i + length vs = length ts ->
  (forall k v t, nth_error vs k = Some v -> nth_error ts (i + k) = Some t -> length v = tsize t) ->
  exists m', tfill ts m i vs = Ok m' /\ length m' = get_total_size ts /\ (forall k v, nth_error vs k = Some v -> tget ts m' (i + k) = Ok v) /\
    forall j, j < i -> tget ts m' j = tget ts m j.
Proof.
  intros G. induction vs as [|v vs IH]; intros m i L N F; cbn [tfill length] in *.
  - exists m. split; auto. split; auto. split; auto. intros [|k] v H; discriminate.
  - destruct (nth_error ts i) as [t|] eqn:Et; [|apply nth_error_None in Et; lia].
    destruct (tset_ok ts m i v t G L Et) as (m1 & -> & L1 & S1 & O1). { apply (F 0 v t); auto. rewrite Nat.add_0_r. auto. }
    cbn [bind]. destruct (IH m1 (S i) L1) as (m2 & -> & L2 & V2 & P2). { lia. } { intros k w u Hk Hu. apply (F (S k) w u); auto. rewrite <- plus_n_Sm. auto. }
    exists m2. split; auto. split; auto. split.
    + intros [|k] w Hk; cbn in Hk. { injection Hk as <-. rewrite Nat.add_0_r, P2 by lia. auto. } rewrite <- plus_n_Sm. apply V2. auto.
    + intros j Hj. rewrite P2 by lia. apply O1. lia.
Qed.
Lemma fill_then_set ts vs m : (forall t, In t ts -> 0 < talign t) -> length m = get_total_size ts -> Forall2 (fun t v => length v = tsize t) ts vs ->
  exists m', tfill ts m 0 vs = Ok m' /\ (forall i v, nth_error vs i = Some v -> tget ts m' i = Ok v) /\
    forall sets vs', fold_left (fun r s => match r with
        | Some l => match nth_error ts (fst s) with Some t => if length (snd s) =? tsize t then Some (upd (fst s) (snd s) l) else None | None => None end
        | None => None end) sets (Some vs) = Some vs' ->
      exists m'', fold_left (fun (r : res storage) s => let* m := r in tset ts m (fst s) (snd s)) sets (Ok m') = Ok m'' /\
        forall i v, nth_error vs' i = Some v -> tget ts m'' i = Ok v.
Proof.
  intros G L F. assert (LF : length vs = length ts) by (clear -F; induction F; cbn; auto).
  destruct (tfill_ok ts G vs m 0 L) as (m' & E & L' & V & _); auto.
  { cbn [plus]. intros k v t. clear -F. revert k. induction F; intros [|k] Hv Ht; cbn in *; try discriminate; eauto. congruence. }
  exists m'. split; auto. split; auto. clear E F.
  intros sets. revert vs LF m' L' V. induction sets as [|(i, v) sets IH]; intros vs LF m' L' V vs' E; cbn [fold_left fst snd] in *.
  - injection E as <-. exists m'. auto.
  - destruct (nth_error ts i) as [t|] eqn:Et.
    2: { exfalso. clear -E. induction sets; cbn in E; [discriminate|auto]. }
    destruct (Nat.eqb_spec (length v) (tsize t)) as [Ev|]. 2: { exfalso. clear -E. induction sets; cbn in E; [discriminate|auto]. }
    cbn [bind]. destruct (tset_ok ts m' i v t G L' Et Ev) as (m1 & -> & L1 & S1 & O1). apply (IH (upd i v vs)); auto. { rewrite upd_length. auto. }
    intros k w Hk. assert (i < length vs) by (rewrite LF; apply nth_error_Some; congruence). rewrite nth_error_upd' in Hk by auto. destruct (Nat.eqb_spec i k) as [->|Hn]; [injection Hk as <-; exact S1|].
    rewrite O1 by auto. apply V. auto.
Qed.

(* comparisons *)
Lemma tlt_spec V (ltv : nat -> V -> V -> bool) k : forall i a b, length a = i + k -> length b = i + k ->
  exists r, tlt V ltv k i a b = Ok r /\
   (r = true <-> exists j x y, i <= j /\ nth_error a j = Some x /\ nth_error b j = Some y /\ ltv j x y = true /\
      forall l x' y', i <= l < j -> nth_error a l = Some x' -> nth_error b l = Some y' -> ltv l x' y' = false /\ ltv l y' x' = false).
Proof.
  induction k as [|k IH]; intros i a b La Lb; cbn [tlt].
  - exists false. split; auto. split; [discriminate|]. intros (j & x & y & Hj & Hx & _). assert (j < length a) by (apply nth_error_Some; congruence). lia.
  - destruct (nth_error a i) as [x|] eqn:Ea; [|apply nth_error_None in Ea; lia]. destruct (nth_error b i) as [y|] eqn:Eb; [|apply nth_error_None in Eb; lia].
    rewrite (idx_some _ _ _ Ea), (idx_some _ _ _ Eb). cbn [bind]. destruct (ltv i x y) eqn:L1.
    + exists true. split; auto. split; auto. intros _. exists i, x, y. split; auto. split; auto. split; auto. split; auto. intros; lia.
    + destruct (ltv i y x) eqn:L2.
      * exists false. split; auto. split; [discriminate|]. intros (j & x' & y' & Hj & Hx & Hy & Hl & Hb). destruct (Nat.eq_dec i j) as [->|Hn]; [congruence|].
        destruct (Hb i x y) as (_ & Q); auto; try lia. congruence.
      * destruct (IH (S i) a b) as (r & -> & Hr); [lia|lia|]. exists r. split; auto. rewrite Hr. split.
        -- intros (j & x' & y' & Hj & Hx & Hy & Hl & Hb). exists j, x', y'. split; [lia|]. split; auto. split; auto. split; auto. intros l u v Hlj Hu Hv.
           destruct (Nat.eq_dec i l) as [<-|Hn]. { rewrite Ea in Hu. rewrite Eb in Hv. injection Hu as <-. injection Hv as <-. auto. } apply Hb; auto. lia.
        -- intros (j & x' & y' & Hj & Hx & Hy & Hl & Hb). exists j, x', y'. destruct (Nat.eq_dec i j) as [->|Hn]; [congruence|]. split; [lia|]. split; auto. split; auto. split; auto.
           intros l u v Hlj. apply Hb. lia.
Qed.
Lemma teq_spec V (eqv : nat -> V -> V -> bool) k : forall i a b, length a = i + k -> length b = i + k ->
  exists r, teq V eqv k i a b = Ok r /\ (r = true <-> forall j x y, i <= j -> nth_error a j = Some x -> nth_error b j = Some y -> eqv j x y = true).
Proof.
  induction k as [|k IH]; intros i a b La Lb; cbn [teq].
  - exists true. split; auto. split; auto. intros _ j x y Hj Hx. assert (j < length a) by (apply nth_error_Some; congruence). lia.
  - destruct (nth_error a i) as [x|] eqn:Ea; [|apply nth_error_None in Ea; lia]. destruct (nth_error b i) as [y|] eqn:Eb; [|apply nth_error_None in Eb; lia].
    rewrite (idx_some _ _ _ Ea), (idx_some _ _ _ Eb). cbn [bind]. destruct (eqv i x y) eqn:L1.
    + destruct (IH (S i) a b) as (r & -> & Hr); [lia|lia|]. exists r. split; auto. rewrite Hr. split.
      * intros H j u v Hj Hu Hv. destruct (Nat.eq_dec i j) as [<-|Hn]; [congruence|]. eapply H; eauto. lia.
      * intros H j u v Hj. apply H. lia.
    + exists false. split; auto. split; [discriminate|]. intros H. specialize (H i x y (le_n _) Ea Eb). congruence.
Qed.
Lemma t_eq_spec V (eqv : nat -> V -> V -> bool) a b : length a = length b ->
  exists r, t_eq V eqv a b = Ok r /\ t_ne V eqv a b = Ok (negb r) /\
    (r = true <-> forall j x y, nth_error a j = Some x -> nth_error b j = Some y -> eqv j x y = true).
Proof.
  intros L. unfold t_ne, t_eq. destruct (teq_spec V eqv (length a) 0 a b) as (r & -> & H); auto. exists r. split; auto. split; auto. rewrite H. split.
  - intros Q j x y. apply Q. lia.
  - intros Q j x y _. apply Q.
Qed.
Lemma t_lt_spec V (ltv : nat -> V -> V -> bool) a b : length a = length b ->
  exists r, t_lt V ltv a b = Ok r /\ t_gt V ltv b a = Ok r /\ t_ge V ltv a b = Ok (negb r) /\ t_le V ltv b a = Ok (negb r) /\
    (r = true <-> exists j x y, nth_error a j = Some x /\ nth_error b j = Some y /\ ltv j x y = true /\
      forall l x' y', l < j -> nth_error a l = Some x' -> nth_error b l = Some y' -> ltv l x' y' = false /\ ltv l y' x' = false).
Proof.
  intros L. unfold t_gt, t_ge, t_le, t_lt. destruct (tlt_spec V ltv (length a) 0 a b) as (r & -> & H); auto. exists r. do 4 (split; auto). rewrite H. split.
  - intros (j & x & y & _ & Hx & Hy & Hl & Q). exists j, x, y. do 3 (split; auto). intros; eapply Q; eauto. lia.
  - intros (j & x & y & Hx & Hy & Hl & Q). exists j, x, y. split; [lia|]. do 3 (split; auto). intros l x' y' (_ & Hj). apply Q. auto.
Qed.
