(* Changing one member of an object graph changes nothing else. *)
From Verif Require Import Base Bytes HashModel SerialModel SerialSpec SerialMem SerialPost SerialSer ConvModel ConvSpec ConvProofs MutModel MutSpec.
Local Open Scope Z_scope.

Lemma touched_in tr a n z : In (Rd a n) tr -> a <= z < a + n -> touched tr z.
Proof. intros H Hz. exists (a, n). split; [|exact Hz]. unfold spans. apply in_flat_map. eexists. split; [exact H|now left]. Qed.
Lemma touched_incl t t' z : incl t t' -> touched t z -> touched t' z.
Proof.
  intros H (x & Hx & Hz). exists x. split; [|exact Hz]. unfold spans in *. apply in_flat_map in Hx as (e & E1 & E2).
  apply in_flat_map. eauto.
Qed.
Lemma ptrs_app l l' : ptrs (l ++ l') = ptrs l ++ ptrs l'.
Proof. apply flat_map_app. Qed.

Section MapM.
Context {I X : Type}.
Lemma mapM_same (g g' : I -> option (X * list ev)) : forall l xs ts, mapM g l = Some (xs, ts) ->
  (forall y x t, g y = Some (x, t) -> (forall z, touched t z -> touched ts z) -> g' y = Some (x, t)) -> mapM g' l = Some (xs, ts).
Proof.
  induction l as [|y l IH]; cbn [mapM]; intros xs ts E H; [exact E|].
  destruct (g y) as [[x t]|] eqn:G; [|discriminate]. destruct (mapM g l) as [[xs' ts']|] eqn:M; [|discriminate].
  apply some_pair in E as [<- <-].
  rewrite (H y x t G) by (intros z Hz; apply touched_app; now left).
  rewrite (IH xs' ts' eq_refl); [reflexivity|].
  intros y' x' t' E' Ht. apply (H y' x' t' E'). intros z Hz. apply touched_app. right. auto.
Qed.
Lemma mapM_sub (g : I -> option (X * list ev)) (cnt : X -> nat) : (forall y x t, g y = Some (x, t) -> length (ptrs t) = cnt x) ->
  forall l xs tr i x, mapM g l = Some (xs, tr) -> nth_error xs i = Some x ->
  exists y l1 tx r1, nth_error l i = Some y /\ g y = Some (x, tx) /\ tr = l1 ++ tx ++ r1 /\
    length (ptrs l1) = list_sum (map cnt (firstn i xs)) /\
    forall g' x' tx', (forall y' x0 t0, g y' = Some (x0, t0) -> (forall z, touched t0 z -> touched l1 z \/ touched r1 z) -> g' y' = Some (x0, t0)) ->
      g' y = Some (x', tx') -> mapM g' l = Some (upd i x' xs, l1 ++ tx' ++ r1).
Proof.
  intros Hc. induction l as [|y l IH]; cbn [mapM]; intros xs tr i x E Hi.
  { apply some_pair in E as [<- <-]. destruct i; discriminate. }
  destruct (g y) as [[x1 t1]|] eqn:G; [|discriminate]. destruct (mapM g l) as [[xs' ts']|] eqn:M; [|discriminate].
  apply some_pair in E as [<- <-]. destruct i as [|i]; cbn [nth_error] in Hi.
  - injection Hi as ->. exists y, [], t1, ts'. split; [reflexivity|]. split; [exact G|]. split; [reflexivity|]. split; [reflexivity|].
    intros g' x' tx' Hs Hg. rewrite Hg. cbn [app upd].
    rewrite (mapM_same g g' l xs' ts' M); [reflexivity|]. intros y' x0 t0 E Ht. apply Hs; auto.
  - destruct (IH xs' ts' i x eq_refl Hi) as (y' & l1 & tx & r1 & E1 & E2 & E3 & E4 & E5). subst ts'.
    exists y', (t1 ++ l1), tx, r1. split; [exact E1|]. split; [exact E2|]. split; [now rewrite app_assoc|].
    split. { rewrite ptrs_app, app_length, (Hc y x1 t1 G), E4. reflexivity. }
    intros g' x' tx' Hs Hg. rewrite (Hs y x1 t1 G) by (intros z Hz; left; apply touched_app; now left).
    rewrite (E5 g' x' tx'); [now rewrite !app_assoc| |exact Hg].
    intros y0 x0 t0 E Ht. apply (Hs y0 x0 t0 E). intros z Hz. rewrite touched_app. specialize (Ht z Hz). tauto.
Qed.
Lemma mapM_ptrs (g : I -> option (X * list ev)) (cnt : X -> nat) : (forall y x t, g y = Some (x, t) -> length (ptrs t) = cnt x) ->
  forall l xs tr, mapM g l = Some (xs, tr) -> length (ptrs tr) = list_sum (map cnt xs).
Proof.
  intros Hc. induction l as [|y l IH]; cbn [mapM]; intros xs tr E.
  { apply some_pair in E as [<- <-]. reflexivity. }
  destruct (g y) as [[x1 t1]|] eqn:G; [|discriminate]. destruct (mapM g l) as [[xs' ts']|] eqn:M; [|discriminate].
  apply some_pair in E as [<- <-]. rewrite ptrs_app, app_length, (Hc y x1 t1 G), (IH xs' ts' eq_refl). reflexivity.
Qed.
End MapM.

Section Sub.
Variable env : list ty.
Variables (hb raw : bool) (ck : option (Z * Z)) (tab : N -> N -> N -> list N -> bool).
Notation R m := (plain hb m (negb raw) ck tab).

Lemma zero_ptrs m a z : zero_at (R m) a = Some z -> ptrs z = [].
Proof.
  unfold zero_at. cbn [plain r_ck]. destruct ck; intros H.
  - destruct (rint _ _ _); [|discriminate]. destruct (_ =? _)%N in H; [|discriminate]. injection H as <-. reflexivity.
  - injection H as <-. reflexivity.
Qed.
Lemma nptr_agg l : nptr (VAgg l) = list_sum (map nptr l).
Proof. cbn [nptr]. unfold list_sum. induction l as [|v l IH]; cbn [map fold_right]; [reflexivity|]. now rewrite IH. Qed.
Lemma nptr_vec l : nptr (VVec l) = list_sum (map nptr l).
Proof. cbn [nptr]. unfold list_sum. induction l as [|v l IH]; cbn [map fold_right]; [reflexivity|]. now rewrite IH. Qed.
Lemma nptr_tab s g c l : nptr (VTab s g c l) = list_sum (map onptr l).
Proof. cbn [nptr]. unfold list_sum. induction l as [|[v|] l IH]; cbn [map fold_right onptr]; [reflexivity| |]; now rewrite IH. Qed.

Lemma dec_ptrs m f : forall t a v tr, dec env (R m) f t a = Some (v, tr) -> length (ptrs tr) = nptr v.
Proof.
  induction f as [|f IH]; intros t a v tr H; [discriminate|]. cbn [dec] in H.
  destruct ((a mod align_of t =? 0) && inside _ a (size_of t) (align_of t)) eqn:G; [|discriminate H]. clear G.
  destruct t; cbv zeta in H.
  - dec_inv H. reflexivity.
  - dec_inv H. reflexivity.
  - dec_inv H. reflexivity.
  - destruct (mapM _ _) as [[vs t1]|] eqn:M in H; [|discriminate]. apply some_pair in H as [<- <-].
    rewrite nptr_agg. eapply mapM_ptrs; [|exact M]. intros y x t0. apply IH.
  - dec_inv H; first [reflexivity|match goal with D : dec _ _ _ _ _ = _ |- _ => exact (IH _ _ _ _ D) end].
  - dec_inv H; first [reflexivity|match goal with D : dec _ _ _ _ _ = _ |- _ => exact (IH _ _ _ _ D) end].
  - destruct (rptr _ _ _) as [p|] in H; [|discriminate]. destruct (zero_at _ _) as [z|] eqn:Z in H; [|discriminate]. apply zero_ptrs in Z.
    destruct p as [q|].
    + destruct (dec _ _ _ _ _) as [[v1 t1]|] eqn:D in H; [|discriminate]. apply some_pair in H as [<- <-]. apply IH in D.
      cbn [ptrs flat_map app]. fold (ptrs (z ++ Blk false q (size_of (tyof env n)) (align_of (tyof env n)) :: t1)). rewrite ptrs_app, Z. exact D.
    + apply some_pair in H as [<- <-]. change (ptrs (Rd a 8 :: z)) with (ptrs z). now rewrite Z.
  - destruct (rptr _ _ _) as [p|] in H; [|discriminate]. destruct (rint _ (a + 8) w) as [used|] in H; [|discriminate].
    destruct (match r_ck _ with None => _ | _ => _ end) as [alloc|] in H; [|discriminate]. destruct (alloc =? used)%N in H; [|discriminate].
    destruct (zero_at _ _) as [z|] eqn:Z in H; [|discriminate]. apply zero_ptrs in Z.
    set (own := Rd a 8 :: _) in H.
    assert (Eo : ptrs own = []).
    { unfold own. cbn [plain r_ck]. destruct ck; cbn [app]; [change (ptrs z = [])|change (ptrs z = [])]; exact Z. }
    destruct (used =? 0)%N in H.
    + destruct (strict _ _) in H; [|discriminate]. apply some_pair in H as [<- <-]. rewrite ptrs_app, Eo. destruct p as [q|]; [destruct ix|]; reflexivity.
    + destruct p as [q|]; [|discriminate]. destruct (inside _ q _ _) in H; [|discriminate].
      destruct (mapM _ _) as [[vs t1]|] eqn:M in H; [|discriminate]. apply some_pair in H as [<- <-].
      rewrite nptr_vec, !ptrs_app, Eo, !app_length. replace (length (ptrs (if ix then _ else _))) with 0%nat by (now destruct ix).
      cbn [length Nat.add]. eapply mapM_ptrs; [|exact M]. intros y x t0. apply IH.
  - destruct (rint _ a 1) as [b|] in H; [|discriminate]. destruct (negb _) in H.
    + dec_inv H. reflexivity.
    + destruct (rptr _ _ _) as [p|] in H; [|discriminate]. destruct (rint _ (a + 4) 4) in H; [|discriminate].
      destruct (zero_at _ _) as [z|] eqn:Z in H; [|discriminate]. apply zero_ptrs in Z. dec_inv H.
      * cbn [ptrs flat_map app]. fold (ptrs (z ++ [Rd z0 (Z.of_N n)])). rewrite ptrs_app, Z. reflexivity.
      * cbn [ptrs flat_map app]. fold (ptrs z). now rewrite Z.
  - dec_inv H; reflexivity.
  - destruct (rptr _ _ a) as [pe|] in H; [|discriminate]. destruct (rptr _ _ _) as [pc|] in H; [|discriminate].
    destruct (rint _ (a + 16) 8) as [size|] in H; [|discriminate]. destruct (rint _ (a + 24) 8) as [cap|] in H; [|discriminate].
    destruct (rint _ (a + 32) 8) as [growth|] in H; [|discriminate]. destruct (zero_at _ _) as [z|] eqn:Z in H; [|discriminate]. apply zero_ptrs in Z.
    destruct pc as [c|]; [|discriminate]. destruct (_ && inside _ c _ _) in H; [|discriminate]. destruct (rdn _ c _) as [ctrl|] in H; [|discriminate].
    destruct (r_tab _ _ _ _ _) in H; [|discriminate]. set (own := Rd a 8 :: _) in H.
    assert (Eo : ptrs own = []).
    { unfold own. change (ptrs (z ++ [Rd c (Z.of_N cap + 9)]) = []). rewrite ptrs_app, Z. reflexivity. }
    destruct pe as [e|].
    + destruct (_ && inside _ e _ _) in H; [|discriminate]. destruct (mapM _ _) as [[vs t1]|] eqn:M in H; [|discriminate].
      apply some_pair in H as [<- <-]. rewrite nptr_tab, ptrs_app, Eo. cbn [app]. eapply mapM_ptrs; [|exact M].
      intros y x t0 E. cbn beta in E. destruct (is_full _) in E.
      * destruct (dec _ _ _ _ _) as [[v1 t2]|] eqn:D in E; [|discriminate]. apply some_pair in E as [<- <-]. cbn [onptr]. eauto.
      * apply some_pair in E as [<- <-]. reflexivity.
    + destruct (_ && _) in H; [|discriminate]. apply some_pair in H as [<- <-]. now rewrite Eo.
Qed.

(* readers of memories that agree where something was read *)
Section Same.
Variables (m m' : mem) (l : list ev).
Hypothesis A : forall z, touched l z -> m' z = m z.
Lemma rdn_same a w : In (Rd a (Z.of_nat w)) l -> rdn m' a w = rdn m a w.
Proof. intros H. apply rdn_ext. intros z Hz. apply A. eapply touched_in; eauto. Qed.
Lemma rint_same a w : In (Rd a (Z.of_nat w)) l -> rint (R m') a w = rint (R m) a w.
Proof. intros H. unfold rint. cbn [plain r_mem r_be]. now rewrite rdn_same. Qed.
Lemma rptr_same a r : In (Rd a 8) l -> rptr (R m') r a = rptr (R m) r a.
Proof. intros H. unfold rptr. now rewrite rint_same. Qed.
Lemma zero_same a z : zero_at (R m) a = Some z -> incl z l -> zero_at (R m') a = Some z.
Proof.
  unfold zero_at, rint. cbn [plain r_ck r_mem r_be]. destruct ck; [|auto]. intros H Hi.
  destruct (rdn m a 1) as [b|] eqn:E; [|discriminate].
  destruct (_ =? 0)%N eqn:Eb in H; [|discriminate]. injection H as <-.
  rewrite (rdn_same a 1) by (apply Hi; now left). rewrite E, Eb. reflexivity.
Qed.
Lemma alloc_same a w used : (ck <> None -> In (Rd a (Z.of_nat w)) l) ->
  match r_ck (R m') with None => Some used | _ => rint (R m') a w end = match r_ck (R m) with None => Some used | _ => rint (R m) a w end.
Proof.
  intros H. unfold rint. cbn [plain r_ck r_mem r_be]. destruct ck eqn:C; [|reflexivity]. rewrite rdn_same; [reflexivity|]. apply H. congruence.
Qed.
End Same.

Definition sub_ok m f t a v tr p T : Prop :=
  exists b k x l trx r, place env hb raw m t a p = Ok (T, b) /\ dec env (R m) k T b = Some (x, trx) /\ tr = l ++ trx ++ r /\
    length (ptrs l) = ptr_no v p /\
    forall m' x' trx', (forall z, touched l z \/ touched r z -> m' z = m z) -> dec env (R m') k T b = Some (x', trx') ->
      dec env (R m') f t a = Some (vset v p x', l ++ trx' ++ r).

Lemma own_ptr_ok m a q : rptr (R m) (negb raw) a = Some (Some q) -> own_ptr hb raw m a = Ok q.
Proof.
  unfold rptr, rint, own_ptr, dbytes. cbn [plain r_mem r_be]. destruct (rdn m a 8); [|discriminate]. cbn [bind]. intros H.
  injection H as H. now rewrite H.
Qed.

Lemma sub m p : forall f t a v tr T, dec env (R m) f t a = Some (v, tr) -> ty_at env t v p = Some T -> sub_ok m f t a v tr p T.
Proof.
  induction p as [|s p IH]; intros f t a v tr T D E.
  { cbn [ty_at] in E. injection E as <-. exists a, f, v, [], tr, []. cbn [place app ptr_no vset]. rewrite app_nil_r.
    split; [reflexivity|]. split; [exact D|]. split; [reflexivity|]. split; [reflexivity|]. intros. now rewrite app_nil_r. }
  destruct f as [|f]; [discriminate|]. cbn [dec] in D.
  destruct ((a mod align_of t =? 0) && inside _ a (size_of t) (align_of t)) eqn:G in D; [|discriminate D].
  unfold sub_ok. cbn [dec].
  cbn [ty_at] in E. destruct s as [i| | | |i|i], t as [w|w|n|fs sz al|t off sz al|ts off sz al|n|w ix n| | |n]; try discriminate E; cbv zeta in D.
  - (* member *)
    destruct (mapM _ _) as [[vs t1]|] eqn:M in D; [|discriminate]. apply some_pair in D as [<- <-].
    destruct (nth_error fs i) as [[o t]|] eqn:Ef; [|discriminate]. destruct (nth_error vs i) as [y|] eqn:Ev; [|discriminate].
    destruct (mapM_sub _ nptr (fun y x t0 E0 => dec_ptrs m f _ _ x t0 E0) _ _ _ _ _ M Ev) as (ft & l1 & tx & r1 & E1 & E2 & E3 & E4 & E5).
    assert (ft = (o, t)) by congruence. subst ft. cbn [fst snd] in E2.
    destruct (IH f t (a + o) y tx T E2 E) as (b & k & x & l & trx & r & P1 & P2 & P3 & P4 & P5).
    exists b, k, x, (l1 ++ l), trx, (r ++ r1). cbn [place]. rewrite Ef. split; [exact P1|]. split; [exact P2|].
    split. { rewrite E3, P3, <- !app_assoc. reflexivity. }
    split. { rewrite ptrs_app, app_length, E4, P4. cbn [ptr_no]. now rewrite Ev. }
    intros m' x' trx' Ha Dx. match goal with |- context [inside (R m') a ?n ?k] => change (inside (R m') a n k) with (inside (R m) a n k) end. rewrite G. rewrite (E5 (fun ft => dec env (R m') f (snd ft) (a + fst ft)) (vset y p x') (l ++ trx' ++ r)).
    + cbn [vset]. rewrite Ev. rewrite <- !app_assoc. reflexivity.
    + intros y' x0 t0 D0 Ht. cbn beta in *. eapply dec_frame_plain; [exact D0|]. intros z Hz. apply Ha. rewrite !touched_app. specialize (Ht z Hz). tauto.
    + cbn [fst snd]. apply (P5 m' x' trx'); [|exact Dx]. intros z Hz. apply Ha. rewrite !touched_app. tauto.
  - (* optional *)
    destruct (rint (R m) a 1) as [b1|] eqn:Eb; [|discriminate]. destruct (b1 =? 0)%N eqn:E0; [apply some_pair in D as [<- <-]; discriminate|].
    destruct (b1 =? 1)%N eqn:E1 in D; [|discriminate]. destruct (dec env (R m) f t (a + off)) as [[y tx]|] eqn:Dy; [|discriminate].
    apply some_pair in D as [<- <-].
    destruct (IH f t (a + off) y tx T Dy E) as (b & k & x & l & trx & r & P1 & P2 & P3 & P4 & P5).
    exists b, k, x, (Rd a 1 :: l), trx, r. split; [exact P1|]. split; [exact P2|]. split; [now rewrite P3|]. split; [exact P4|].
    intros m' x' trx' Ha Dx. match goal with |- context [inside (R m') a ?n ?k] => change (inside (R m') a n k) with (inside (R m) a n k) end. rewrite G.
    rewrite (rint_same m m' (Rd a 1 :: l) ltac:(auto)) by (now left). rewrite Eb, E0, E1.
    rewrite (P5 m' x' trx'); [reflexivity| |exact Dx]. intros z Hz. apply Ha. rewrite touched_cons. tauto.
  - (* variant *)
    destruct (rint (R m) a 1) as [i|] eqn:Eb; [|discriminate]. destruct (nth_error ts (N.to_nat i)) as [t|] eqn:Et; [|discriminate].
    destruct (dec env (R m) f t (a + off)) as [[y tx]|] eqn:Dy; [|discriminate].
    apply some_pair in D as [<- <-]. rewrite Et in E.
    destruct (IH f t (a + off) y tx T Dy E) as (b & k & x & l & trx & r & P1 & P2 & P3 & P4 & P5).
    exists b, k, x, (Rd a 1 :: l), trx, r. split.
    { cbn [place]. unfold rint in Eb. cbn [plain r_mem r_be] in Eb. unfold dint, dbytes. destruct (rdn m a 1); [|discriminate].
      injection Eb as Eb. cbn [bind]. rewrite Eb. replace (Z.to_nat (Z.of_N i)) with (N.to_nat i) by lia. rewrite Et. exact P1. }
    split; [exact P2|]. split; [now rewrite P3|]. split; [exact P4|].
    intros m' x' trx' Ha Dx. match goal with |- context [inside (R m') a ?n ?k] => change (inside (R m') a n k) with (inside (R m) a n k) end. rewrite G.
    rewrite (rint_same m m' (Rd a 1 :: l) ltac:(auto)) by (now left). rewrite Eb, Et.
    rewrite (P5 m' x' trx'); [reflexivity| |exact Dx]. intros z Hz. apply Ha. rewrite touched_cons. tauto.
  - (* unique_ptr *)
    destruct (rptr (R m) _ a) as [[q|]|] eqn:Ep in D; [| |discriminate].
    2:{ destruct (zero_at _ _) in D; [|discriminate]. apply some_pair in D as [<- <-]. discriminate. }
    destruct (zero_at _ _) as [z|] eqn:Ez in D; [|discriminate].
    destruct (dec env (R m) f (tyof env n) q) as [[y tx]|] eqn:Dy; [|discriminate]. apply some_pair in D as [<- <-].
    destruct (IH f (tyof env n) q y tx T Dy E) as (b & k & x & l & trx & r & P1 & P2 & P3 & P4 & P5).
    set (bk := Blk false q (size_of (tyof env n)) (align_of (tyof env n))).
    exists b, k, x, (Rd a 8 :: z ++ bk :: l), trx, r.
    split. { cbn [place]. rewrite (own_ptr_ok m a q Ep). exact P1. }
    split; [exact P2|]. split. { rewrite P3. cbn [app]. rewrite <- app_assoc. reflexivity. }
    split. { change (length (ptrs (z ++ bk :: l)) = ptr_no y p). rewrite ptrs_app, (zero_ptrs m _ z Ez). exact P4. }
    intros m' x' trx' Ha Dx. match goal with |- context [inside (R m') a ?n ?k] => change (inside (R m') a n k) with (inside (R m) a n k) end. rewrite G.
    assert (Ha' : forall w, touched (Rd a 8 :: z ++ bk :: l) w -> m' w = m w) by auto.
    cbn [plain r_rel] in *. rewrite (rptr_same m m' _ Ha') by (now left). rewrite Ep.
    rewrite (zero_same m m' _ Ha' _ z Ez) by (intros e He; right; apply in_or_app; now left).
    rewrite (P5 m' x' trx'); [cbn [app vset]; rewrite <- app_assoc; reflexivity| |exact Dx].
    intros w Hw. apply Ha. rewrite touched_cons, touched_app, (touched_cons bk). tauto.
  - (* vector *)
    destruct v as [| | | | | | | | |vs| |]; try discriminate E. destruct (nth_error vs i) as [y|] eqn:Ev; [|discriminate].
    destruct (rptr (R m) _ a) as [p0|] eqn:Ep in D; [|discriminate]. destruct (rint (R m) (a + 8) w) as [used|] eqn:Eu; [|discriminate].
    destruct (match r_ck (R m) with None => _ | _ => _ end) as [alloc|] eqn:Ea in D; [|discriminate]. destruct (alloc =? used)%N eqn:Eq in D; [|discriminate].
    destruct (zero_at _ _) as [z|] eqn:Ez in D; [|discriminate].
    set (own := Rd a 8 :: Rd (a + 8) (Z.of_nat w) :: _) in D.
    destruct (used =? 0)%N eqn:E0 in D.
    { destruct (strict _ _) in D; [|discriminate]. apply some_pair in D as [D _]. injection D as <-. destruct i; discriminate. }
    destruct p0 as [q|]; [|discriminate]. destruct (inside _ q _ _) eqn:Ei in D; [|discriminate].
    destruct (mapM _ _) as [[vs' t1]|] eqn:M in D; [|discriminate]. apply some_pair in D as [D <-]. injection D as ->.
    destruct (mapM_sub _ nptr (fun y x t0 E0 => dec_ptrs m f _ _ x t0 E0) _ _ _ _ _ M Ev) as (j & l1 & tx & r1 & E1 & E2 & E3 & E4 & E5).
    assert (j = i).
    { assert (i < length (seq 0 (N.to_nat used)))%nat by (apply nth_error_Some; congruence). rewrite seq_length in *.
      rewrite (nth_error_nth' _ 0%nat) in E1 by (now rewrite seq_length). injection E1 as <-. now rewrite seq_nth. }
    subst j. cbn beta in E2.
    destruct (IH f (tyof env n) (q + Z.of_nat i * size_of (tyof env n)) y tx T E2 E) as (b & k & x & l & trx & r & P1 & P2 & P3 & P4 & P5).
    set (bk := if ix then [Blk true q (size_of (tyof env n) * Z.of_N used) (align_of (tyof env n))] else []).
    exists b, k, x, (own ++ bk ++ l1 ++ l), trx, (r ++ r1).
    split. { cbn [place]. rewrite (own_ptr_ok m a q Ep). exact P1. }
    split; [exact P2|]. split. { rewrite E3, P3, <- !app_assoc. reflexivity. }
    assert (Eo : ptrs own = []).
    { pose proof (zero_ptrs m _ z Ez) as Zp. unfold own. cbn [plain r_ck]. destruct ck; exact Zp. }
    split. { rewrite !ptrs_app, Eo, !app_length, E4, P4. replace (length (ptrs bk)) with 0%nat by (now destruct ix). cbn [ptr_no]. now rewrite Ev. }
    intros m' x' trx' Ha Dx. match goal with |- context [inside (R m') a ?n ?k] => change (inside (R m') a n k) with (inside (R m) a n k) end. rewrite G.
    assert (Ha' : forall w, touched own w -> m' w = m w) by (intros; apply Ha; left; apply touched_app; now left).
    cbn [plain r_rel] in *. rewrite (rptr_same m m' own Ha') by (now left). rewrite Ep.
    rewrite (rint_same m m' own Ha') by (right; now left). rewrite Eu. rewrite (alloc_same m m' own Ha').
    2:{ intros C. unfold own. cbn [plain r_ck]. destruct ck; [|congruence]. right; right; now left. }
    rewrite Ea, Eq. rewrite (zero_same m m' own Ha' _ z Ez) by (intros e He; right; right; apply in_or_app; now right).
    rewrite E0. match goal with |- context [inside (R m') q ?n ?k] => change (inside (R m') q n k) with (inside (R m) q n k) end. rewrite Ei.
    rewrite (E5 (fun i => dec env (R m') f (tyof env n) (q + Z.of_nat i * size_of (tyof env n))) (vset y p x') (l ++ trx' ++ r)).
    + cbn [vset]. rewrite Ev. rewrite <- !app_assoc. reflexivity.
    + intros y' x0 t0 D0 Ht. cbn beta in *. eapply dec_frame_plain; [exact D0|]. intros z' Hz. apply Ha. rewrite !touched_app. specialize (Ht z' Hz). tauto.
    + apply (P5 m' x' trx'); [|exact Dx]. intros z' Hz. apply Ha. rewrite !touched_app. tauto.
  - (* hash table *)
    destruct v as [| | | | | | | | | | |s0 g0 c0 vs]; try discriminate E. destruct (nth_error vs i) as [[y|]|] eqn:Ev; try discriminate.
    destruct (rptr (R m) _ a) as [pe|] eqn:Ep in D; [|discriminate]. destruct (rptr (R m) _ (a + 8)) as [pc|] eqn:Ec in D; [|discriminate].
    destruct (rint (R m) (a + 16) 8) as [size|] eqn:E16; [|discriminate]. destruct (rint (R m) (a + 24) 8) as [cap|] eqn:E24; [|discriminate].
    destruct (rint (R m) (a + 32) 8) as [growth|] eqn:E32; [|discriminate]. destruct (zero_at _ _) as [z|] eqn:Ez in D; [|discriminate].
    destruct pc as [c|]; [|discriminate].
    destruct ((_ <? 2 ^ 62) && _) eqn:Ei in D; [|discriminate]. destruct (rdn _ c _) as [ctrl|] eqn:El in D; [|discriminate].
    destruct (r_tab _ _ _ _ _) eqn:Et in D; [|discriminate]. set (own := Rd a 8 :: _) in D.
    destruct pe as [e|].
    2:{ destruct (_ && _) in D; [|discriminate]. apply some_pair in D as [D _]. injection D as <- <- <- <-. destruct i; discriminate. }
    destruct ((c =? _) && _ && _) eqn:Ee in D; [|discriminate]. destruct (mapM _ _) as [[vs' t1]|] eqn:M in D; [|discriminate].
    apply some_pair in D as [D <-]. injection D as -> -> -> ->.
    set (h := fun (M0 : mem) (i : nat) => if is_full (nth i c0 EMPTY)
              then let? (v, tr) := dec env (R M0) f (tyof env n) (e + Z.of_nat i * size_of (tyof env n)) in Some (Some v, tr) else Some (None, [])).
    change (mapM (h m) (seq 0 (N.to_nat cap)) = Some (vs, t1)) in M.
    assert (Hc : forall j x t0, h m j = Some (x, t0) -> length (ptrs t0) = onptr x).
    { intros j x t0 E0. unfold h in E0. destruct (is_full _) in E0; [|apply some_pair in E0 as [<- <-]; reflexivity].
      destruct (dec _ _ _ _ _) as [[v1 t2]|] eqn:D1 in E0; [|discriminate]. apply some_pair in E0 as [<- <-]. eapply dec_ptrs; eauto. }
    destruct (mapM_sub (h m) onptr Hc _ _ _ _ _ M Ev) as (j & l1 & tx & r1 & E1 & E2 & E3 & E4 & E5).
    assert (j = i).
    { assert (i < length (seq 0 (N.to_nat cap)))%nat by (apply nth_error_Some; congruence). rewrite seq_length in *.
      rewrite (nth_error_nth' _ 0%nat) in E1 by (now rewrite seq_length). injection E1 as <-. now rewrite seq_nth. }
    subst j. unfold h in E2. destruct (is_full (nth i c0 EMPTY)) eqn:Ef; [|discriminate].
    destruct (dec env (R m) f (tyof env n) (e + Z.of_nat i * size_of (tyof env n))) as [[y1 t2]|] eqn:D1; [|discriminate].
    apply some_pair in E2 as [E2 <-]. injection E2 as ->.
    destruct (IH f (tyof env n) (e + Z.of_nat i * size_of (tyof env n)) y t2 T D1 E) as (b & k & x & l & trx & r & P1 & P2 & P3 & P4 & P5).
    exists b, k, x, (own ++ l1 ++ l), trx, (r ++ r1).
    split. { cbn [place]. rewrite (own_ptr_ok m a e Ep). exact P1. }
    split; [exact P2|]. split. { rewrite E3, P3, <- !app_assoc. reflexivity. }
    assert (Eo : ptrs own = []).
    { unfold own. change (ptrs (z ++ [Rd c (Z.of_N cap + 9)]) = []). rewrite ptrs_app, (zero_ptrs m _ z Ez). reflexivity. }
    split. { rewrite !ptrs_app, Eo, !app_length, E4, P4. cbn [ptr_no]. now rewrite Ev. }
    intros m' x' trx' Ha Dx. match goal with |- context [inside (R m') a ?n ?k] => change (inside (R m') a n k) with (inside (R m) a n k) end. rewrite G.
    assert (Ha' : forall w, touched own w -> m' w = m w) by (intros; apply Ha; left; apply touched_app; now left).
    cbn [plain r_rel] in *. rewrite (rptr_same m m' own Ha' a) by (now left). rewrite Ep.
    rewrite (rptr_same m m' own Ha' (a + 8)) by (right; now left). rewrite Ec.
    rewrite (rint_same m m' own Ha' (a + 16)) by (do 2 right; now left). rewrite E16.
    rewrite (rint_same m m' own Ha' (a + 24)) by (do 3 right; now left). rewrite E24.
    rewrite (rint_same m m' own Ha' (a + 32)) by (do 4 right; now left). rewrite E32.
    rewrite (zero_same m m' own Ha' _ z Ez) by (intros w Hw; do 5 right; apply in_or_app; now left).
    match goal with |- context [inside (R m') c ?n ?k] => change (inside (R m') c n k) with (inside (R m) c n k) end. rewrite Ei.
    cbn [plain r_mem r_tab] in *.
    rewrite (rdn_same m m' own Ha' c (N.to_nat cap + 9)).
    2:{ unfold own. do 5 right. apply in_or_app. right. left. f_equal. lia. }
    rewrite El, Et.
    match goal with |- context [inside (R m') e ?n ?k] => change (inside (R m') e n k) with (inside (R m) e n k) end. rewrite Ee.
    change (mapM _ (seq 0 (N.to_nat cap))) with (mapM (h m') (seq 0 (N.to_nat cap))).
    rewrite (E5 (h m') (Some (vset y p x')) (l ++ trx' ++ r)).
    + cbn [vset]. rewrite Ev. rewrite <- !app_assoc. reflexivity.
    + intros y' x0 t0 D0 Ht. unfold h in *. destruct (is_full (nth y' c0 EMPTY)); [|exact D0].
      destruct (dec env (R m) f (tyof env n) (e + Z.of_nat y' * size_of (tyof env n))) as [[y2 t3]|] eqn:D2; [|discriminate]. apply some_pair in D0 as [<- <-].
      erewrite dec_frame_plain; [reflexivity|exact D2|]. intros z' Hz. apply Ha. rewrite !touched_app. specialize (Ht z' Hz). tauto.
    + unfold h. rewrite Ef. rewrite (P5 m' x' trx'); [reflexivity| |exact Dx]. intros z' Hz. apply Ha. rewrite !touched_app. tauto.
Qed.
End Sub.
