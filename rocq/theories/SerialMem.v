(* Reading objects from memory: the result depends only on the bytes listed in the events. *)
From Verif Require Import Base Bytes HashModel SerialModel SerialSpec.
Local Open Scope Z_scope.

Lemma rdn_length m a n l : rdn m a n = Some l -> length l = n.
Proof.
  revert a l; induction n as [|n IH]; cbn; intros a l H; [now inversion H|].
  destruct (m a); [|discriminate]. destruct (rdn m (a + 1) n) eqn:E; inversion H; cbn; f_equal; eauto.
Qed.
Lemma rdn_ext m m' a n : (forall z, a <= z < a + Z.of_nat n -> m z = m' z) -> rdn m a n = rdn m' a n.
Proof.
  revert a; induction n as [|n IH]; intros a H; [reflexivity|].
  cbn [rdn]. rewrite (H a) by lia. destruct (m' a); [|reflexivity].
  rewrite (IH (a + 1)); [reflexivity|]. intros z Hz. apply H. lia.
Qed.
Lemma rdn_nth m a n l i : rdn m a n = Some l -> (i < n)%nat -> m (a + Z.of_nat i) = nth_error l i.
Proof.
  revert a l i; induction n as [|n IH]; intros a l i H Hi; [lia|].
  cbn [rdn] in H. destruct (m a) eqn:Ea; [|discriminate]. destruct (rdn m (a + 1) n) eqn:E; [|discriminate].
  injection H as <-. destruct i as [|i]; cbn.
  - now rewrite Z.add_0_r.
  - rewrite <- (IH _ _ i E) by lia. f_equal. lia.
Qed.
Lemma rdn_intro m a l : (forall i b, nth_error l i = Some b -> m (a + Z.of_nat i) = Some b) ->
  rdn m a (length l) = Some l.
Proof.
  revert a; induction l as [|b l IH]; intros a H; [reflexivity|].
  cbn [rdn length]. pose proof (H 0%nat b eq_refl) as H0. rewrite Z.add_0_r in H0. rewrite H0.
  rewrite IH; [reflexivity|]. intros i c Hc. rewrite <- (H (S i) c Hc). f_equal. lia.
Qed.
Lemma rdn_app m a n k : rdn m a (n + k) =
  let? l := rdn m a n in let? l' := rdn m (a + Z.of_nat n) k in Some (l ++ l').
Proof.
  revert a; induction n as [|n IH]; intros a; cbn [rdn plus].
  - rewrite Z.add_0_r. now destruct (rdn m a k).
  - destruct (m a); [|reflexivity]. rewrite IH. destruct (rdn m (a + 1) n); [|reflexivity].
    replace (a + 1 + Z.of_nat n) with (a + Z.of_nat (S n)) by lia.
    now destruct (rdn m _ k).
Qed.
Lemma rdn_sub m a n l i k : rdn m a n = Some l -> (i + k <= n)%nat ->
  rdn m (a + Z.of_nat i) k = Some (slice i k l).
Proof.
  intros H Hk. replace n with (i + (k + (n - i - k)))%nat in H by lia.
  rewrite rdn_app in H. destruct (rdn m a i) as [l1|] eqn:E1; [|discriminate].
  rewrite rdn_app in H. destruct (rdn m (a + Z.of_nat i) k) as [l2|] eqn:E2; [|discriminate].
  destruct (rdn m _ (n - i - k)) as [l3|]; [|discriminate]. injection H as <-.
  apply rdn_length in E1, E2. f_equal. unfold slice. rewrite <- E1 at 1.
  rewrite skipn_app, skipn_all, Nat.sub_diag. cbn [skipn app].
  rewrite <- E2. rewrite firstn_app, firstn_all, Nat.sub_diag. cbn. now rewrite app_nil_r.
Qed.

(* [ms] agrees with [m'] on everything read according to [tr] *)
Definition agree (tr : list ev) (m m' : mem) : Prop :=
  forall a n, In (Rd a n) tr -> forall z, a <= z < a + n -> m z = m' z.
Lemma agree_app tr1 tr2 m m' : agree (tr1 ++ tr2) m m' <-> agree tr1 m m' /\ agree tr2 m m'.
Proof.
  unfold agree. split.
  - intros H; split; intros a n Hi; apply H; apply in_or_app; auto.
  - intros [H1 H2] a n Hi. apply in_app_or in Hi. destruct Hi; eauto.
Qed.
Lemma agree_cons e tr m m' : agree (e :: tr) m m' <-> agree [e] m m' /\ agree tr m m'.
Proof. apply (agree_app [e] tr). Qed.

Lemma mapM_ext_tr {A X} (g g' : A -> option (X * list ev)) l xs tr (P : list ev -> Prop) :
  (forall t t', P (t ++ t') -> P t /\ P t') ->
  (forall a x t, g a = Some (x, t) -> P t -> g' a = Some (x, t)) ->
  mapM g l = Some (xs, tr) -> P tr -> mapM g' l = Some (xs, tr).
Proof.
  intros Hs Hg. revert xs tr; induction l as [|a l IH]; cbn; intros xs tr H HP; [exact H|].
  destruct (g a) as [[x t]|] eqn:E; [|discriminate].
  destruct (mapM g l) as [[xs' ts]|] eqn:E'; [|discriminate]. injection H as <- <-.
  apply Hs in HP as [H1 H2]. rewrite (Hg _ _ _ E H1), (IH _ _ eq_refl H2). reflexivity.
Qed.

Lemma some_pair {A B} (a c : A) (b d : B) : Some (a, b) = Some (c, d) -> a = c /\ b = d.
Proof. intros H. split; congruence. Qed.
Lemma some_inj {A} (a b : A) : Some a = Some b -> a = b.
Proof. congruence. Qed.
Ltac dec_step H :=
  match type of H with
  | (let (_, _) := ?x in _) = Some _ => destruct x
  | match ?x with Some _ => _ | None => None end = Some _ => destruct x as [?|] eqn:?; [|discriminate H]
  | match ?x with Some _ => _ | None => _ end = Some _ => destruct x as [?|] eqn:?
  | (if ?x then _ else None) = Some _ => destruct x eqn:?; [|discriminate H]
  | (if ?x then _ else _) = Some _ => destruct x eqn:?
  | Some (_, _) = Some (_, _) => 
      apply some_pair in H; let H2 := fresh "E" in destruct H as [H H2]; symmetry in H, H2;
      try (match type of H with ?x = _ => subst x end);
      try (match type of H2 with ?x = _ => subst x end)
  | Some _ = Some _ =>
      apply some_inj in H; symmetry in H; try (match type of H with ?x = _ => subst x end)
  end.
Ltac dec_inv H := cbv zeta in H; repeat (dec_step H).

(* readers that differ in memory, in a larger upper bound and in admitting more hash tables *)
Definition wider (R R' : env_of_reader) : Prop :=
  r_be R' = r_be R /\ r_ptr R' = r_ptr R /\ r_rel R' = r_rel R /\ 
  (forall s c g l, r_tab R s c g l = true -> r_tab R' s c g l = true) /\
  match r_ck R, r_ck R' with
  | None, None => True
  | Some (lo, hi), Some (lo', hi') => lo' = lo /\ hi <= hi'
  | _, _ => False
  end.

Section Frame.
Variable env : list ty.
Variables R R' : env_of_reader.
Hypothesis W : wider R R'.

Lemma inside_wider a n al : inside R a n al = true -> inside R' a n al = true.
Proof.
  destruct W as (_ & _ & _ & _ & K). unfold inside.
  destruct (r_ck R) as [[lo hi]|], (r_ck R') as [[lo' hi']|]; try tauto. destruct K as [-> K]. lia.
Qed.
Lemma rdn_frame tr a w : agree tr (r_mem R) (r_mem R') -> In (Rd a (Z.of_nat w)) tr ->
  rdn (r_mem R') a w = rdn (r_mem R) a w.
Proof. intros H Hi. apply rdn_ext. intros z Hz. symmetry. eapply H; eauto. Qed.
Lemma rdn_frame' tr a w n : agree tr (r_mem R) (r_mem R') -> In (Rd a n) tr -> Z.of_nat w <= n ->
  rdn (r_mem R') a w = rdn (r_mem R) a w.
Proof. intros H Hi Hn. apply rdn_ext. intros z Hz. symmetry. eapply H; [eauto|]. lia. Qed.
Lemma rint_frame tr a w : agree tr (r_mem R) (r_mem R') -> In (Rd a (Z.of_nat w)) tr ->
  rint R' a w = rint R a w.
Proof.
  intros H Hi. destruct W as (B & _). unfold rint. erewrite rdn_frame by eauto. now rewrite B.
Qed.
Lemma rptr_frame tr a rel : agree tr (r_mem R) (r_mem R') -> In (Rd a 8) tr ->
  rptr R' rel a = rptr R rel a.
Proof. intros H Hi. unfold rptr. erewrite rint_frame; eauto. Qed.
Lemma zero_at_frame a tr z : zero_at R a = Some z -> agree tr (r_mem R) (r_mem R') -> incl z tr ->
  zero_at R' a = Some z.
Proof.
  intros H Ha Hi. pose proof W as (B & _ & _ & _ & K). unfold zero_at in *.
  destruct (r_ck R) as [[lo hi]|], (r_ck R') as [[lo' hi']|]; try tauto.
  dec_inv H. erewrite rint_frame; [|exact Ha|apply Hi; left; reflexivity].
  now rewrite Heqo, Heqb.
Qed.
Lemma ck_match {X} (x y : X) : match r_ck R' with None => x | _ => y end =
                               match r_ck R with None => x | _ => y end.
Proof.
  destruct W as (_ & _ & _ & _ & K).
  destruct (r_ck R) as [[lo hi]|], (r_ck R') as [[lo' hi']|]; tauto.
Qed.

Lemma agree_split t t' : agree (t ++ t') (r_mem R) (r_mem R') ->
  agree t (r_mem R) (r_mem R') /\ agree t' (r_mem R) (r_mem R').
Proof. apply agree_app. Qed.

Lemma dec_frame f : forall t a v tr, dec env R f t a = Some (v, tr) ->
  agree tr (r_mem R) (r_mem R') -> dec env R' f t a = Some (v, tr).
Proof.
  induction f as [|f IH]; intros t a v tr H Ha; [discriminate H|].
  cbn [dec] in *.
  destruct ((a mod align_of t =? 0) && inside R a (size_of t) (align_of t)) eqn:G; [|discriminate H].
  apply andb_prop in G as [G1 G2]. rewrite G1, (inside_wider _ _ _ G2). cbn [andb].
  pose proof W as (Wb & Wp & Wr & Wt & Wk).
  destruct t.
  - dec_inv H. erewrite rint_frame by (eauto; left; reflexivity). now rewrite Heqo.
  - dec_inv H. erewrite rdn_frame by (eauto; left; reflexivity). now rewrite Heqo.
  - dec_inv H. rewrite Wp, Heqo. destruct o as [q|]; [|reflexivity].
    now rewrite (inside_wider _ _ _ Heqb).
  - dec_inv H.
    erewrite (mapM_ext_tr _ _ _ _ _ _ agree_split); [| |eassumption|exact Ha]; [reflexivity|].
    cbn. intros; eapply IH; eauto.
  - dec_inv H; (erewrite rint_frame by (eauto; left; reflexivity)); rewrite Heqo.
    + now rewrite Heqb.
    + rewrite Heqb, Heqb0. apply agree_cons in Ha as [_ Ha].
      now rewrite (IH _ _ _ _ Heqo0 Ha).
  - dec_inv H. erewrite rint_frame by (eauto; left; reflexivity). rewrite Heqo, Heqo0.
    apply agree_cons in Ha as [_ Ha]. now rewrite (IH _ _ _ _ Heqo1 Ha).
  - rewrite Wr. dec_inv H; (erewrite rptr_frame by (eauto; left; reflexivity)); rewrite Heqo;
      (erewrite zero_at_frame; [|eassumption|exact Ha|]).
    + apply agree_cons in Ha as [_ Ha]. apply agree_split in Ha as [_ Ha].
      apply agree_cons in Ha as [_ Ha]. now rewrite (IH _ _ _ _ Heqo2 Ha).
    + intros x Hx. right. apply in_or_app. now left.
    + reflexivity.
    + intros x Hx. now right.
  - rewrite Wr. cbv zeta in *.
    destruct (rptr R (r_rel R) a) as [p|] eqn:Ep; [|discriminate].
    destruct (rint R (a + 8) w) as [used|] eqn:Eu; [|discriminate].
    destruct (match r_ck R with None => _ | _ => _ end) as [alloc|] eqn:Ea; [|discriminate].
    destruct (alloc =? used)%N eqn:Eau; [|discriminate].
    destruct (zero_at R (a + 8 + 2 * Z.of_nat w)) as [z|] eqn:Ez; [|discriminate].
    remember (Rd a 8 :: Rd (a + 8) (Z.of_nat w) ::
                match r_ck R with None => [] | _ => [Rd (a + 8 + Z.of_nat w) (Z.of_nat w)] end ++ z)
      as own eqn:Hown.
    assert (Ho : agree own (r_mem R) (r_mem R')).
    { destruct (used =? 0)%N; dec_inv H; now apply agree_split in Ha. }
    erewrite rptr_frame by (eauto; subst own; left; reflexivity).
    rewrite Ep. erewrite rint_frame by (eauto; subst own; right; left; reflexivity). rewrite Eu.
    rewrite !ck_match.
    replace (match r_ck R with None => Some used | _ => rint R' (a + 8 + Z.of_nat w) w end)
      with (Some alloc).
    2:{ rewrite <- Ea. destruct (r_ck R) eqn:Ek; [|reflexivity].
        symmetry. eapply rint_frame; [exact Ho|]. subst own. right; right; left; reflexivity. }
    rewrite Eau. erewrite zero_at_frame; [|exact Ez|exact Ho|].
    2:{ intros x Hx. subst own. right. right. apply in_or_app. now right. }
    rewrite <- Hown. destruct (used =? 0)%N.
    + unfold strict in *. rewrite ck_match. exact H.
    + dec_inv H. rewrite (inside_wider _ _ _ Heqb).
      apply agree_split in Ha as [_ Ha]. apply agree_split in Ha as [_ Ha].
      erewrite (mapM_ext_tr _ _ _ _ _ _ agree_split); [| |eassumption|exact Ha]; [reflexivity|].
      cbn. intros; eapply IH; eauto.
  - rewrite Wr. dec_inv H; (erewrite rint_frame by (eauto; left; reflexivity)); rewrite Heqo, Heqb.
    + rewrite Heqb0. erewrite rdn_frame; [|exact Ha|right; left; reflexivity]. now rewrite Heqo0.
    + erewrite rptr_frame by (eauto; right; left; reflexivity). rewrite Heqo0.
      erewrite rint_frame by (eauto; right; right; left; reflexivity). rewrite Heqo1.
      erewrite zero_at_frame; [|eassumption|exact Ha|].
      2:{ intros x Hx. right; right; right. apply in_or_app. now left. }
      apply andb_prop in Heqb0 as [E1 E2]. rewrite E1, (inside_wider _ _ _ E2). cbn [andb].
      erewrite rdn_frame; [|exact Ha|].
      2:{ right; right; right. apply in_or_app. right. left. f_equal. lia. }
      now rewrite Heqo4.
    + erewrite rptr_frame by (eauto; right; left; reflexivity). rewrite Heqo0.
      erewrite rint_frame by (eauto; right; right; left; reflexivity). rewrite Heqo1.
      erewrite zero_at_frame; [|eassumption|exact Ha|].
      2:{ intros x Hx. now right; right; right. }
      now rewrite Heqb0.
  - rewrite Wr. dec_inv H; (erewrite rint_frame by (eauto; left; reflexivity)); rewrite Heqo, Heqb.
    + rewrite Heqb0. erewrite rdn_frame'; [|exact Ha|right; left; reflexivity|lia]. now rewrite Heqo0.
    + erewrite rptr_frame by (eauto; right; left; reflexivity). rewrite Heqo0.
      erewrite rint_frame by (eauto; right; right; left; reflexivity). rewrite Heqo1.
      now rewrite Heqb0.
    + erewrite rptr_frame by (eauto; right; left; reflexivity). rewrite Heqo0.
      erewrite rint_frame by (eauto; right; right; left; reflexivity). rewrite Heqo1.
      rewrite Heqb0. erewrite rdn_frame; [|exact Ha|right; right; right; left; f_equal; lia].
      now rewrite Heqo3.
  - rewrite Wr. cbv zeta in *.
    destruct (rptr R (r_rel R) a) as [pe|] eqn:Ee; [|discriminate].
    destruct (rptr R (r_rel R) (a + 8)) as [pc|] eqn:Ec; [|discriminate].
    destruct (rint R (a + 16) 8) as [size|] eqn:Es; [|discriminate].
    destruct (rint R (a + 24) 8) as [cap|] eqn:Ecap; [|discriminate].
    destruct (rint R (a + 32) 8) as [growth|] eqn:Eg; [|discriminate].
    destruct (zero_at R (a + 40)) as [z|] eqn:Ez; [|discriminate].
    destruct pc as [c|]; [|discriminate].
    destruct ((Z.of_N cap * size_of (tyof env n) + Z.of_N cap <? 2 ^ 62) &&
              inside R c (Z.of_N cap + 9) 1) eqn:Ei; [|discriminate].
    apply andb_prop in Ei as [Ei0 Ei].
    destruct (rdn (r_mem R) c (N.to_nat cap + 9)) as [ctrl|] eqn:Ect; [|discriminate].
    destruct (r_tab R size cap growth ctrl) eqn:Et; [|discriminate].
    remember (Rd a 8 :: Rd (a + 8) 8 :: Rd (a + 16) 8 :: Rd (a + 24) 8 :: Rd (a + 32) 8 ::
                z ++ [Rd c (Z.of_N cap + 9)]) as own eqn:Hown.
    assert (Ho : agree own (r_mem R) (r_mem R')).
    { destruct pe; dec_inv H; [|exact Ha]. now apply agree_split in Ha. }
    erewrite rptr_frame by (eauto; subst own; left; reflexivity). rewrite Ee.
    erewrite rptr_frame by (eauto; subst own; right; left; reflexivity). rewrite Ec.
    erewrite rint_frame by (eauto; subst own; do 2 right; left; reflexivity). rewrite Es.
    erewrite rint_frame by (eauto; subst own; do 3 right; left; reflexivity). rewrite Ecap.
    erewrite rint_frame by (eauto; subst own; do 4 right; left; reflexivity). rewrite Eg.
    erewrite zero_at_frame; [|exact Ez|exact Ho|].
    2:{ intros x Hx. subst own. do 5 right. apply in_or_app. now left. }
    rewrite Ei0, (inside_wider _ _ _ Ei). cbn [andb].
    erewrite rdn_frame; [|exact Ho|].
    2:{ subst own. do 5 right. apply in_or_app. right. left. f_equal. lia. }
    rewrite Ect, (Wt _ _ _ _ Et). rewrite <- Hown. destruct pe as [e|]; [|exact H].
    dec_inv H. apply andb_prop in Heqb as [E1 E2]. rewrite E1, (inside_wider _ _ _ E2). cbn [andb].
    apply agree_split in Ha as [_ Ha].
    erewrite (mapM_ext_tr _ _ _ _ _ _ agree_split); [| |eassumption|exact Ha]; [reflexivity|].
    cbn. intros i x t Hx Ht. destruct (is_full (nth i ctrl EMPTY)); [|exact Hx].
    dec_inv Hx. now rewrite (IH _ _ _ _ Heqo0 Ht).
Qed.
End Frame.

(* the same memory, other pointer slots *)
Definition setp (g : Z -> option Z) (e : ev) : ev :=
  match e with PtrAt s _ sz al => PtrAt s (g s) sz al | _ => e end.
Section Ptr.
Variable env : list ty.
Variables (be : bool) (m : mem) (pv pv' : Z -> option (option Z)) (rel : bool) (ck : option (Z * Z))
  (tab : N -> N -> N -> list N -> bool) (g : Z -> option Z).
Let R := Reader be m pv rel ck tab.
Let R' := Reader be m pv' rel ck tab.
Definition fits (tr : list ev) : Prop :=
  forall s p sz al, In (PtrAt s p sz al) tr ->
    pv' s = Some (g s) /\ match g s with None => True | Some q => inside R q sz al = true end.
Lemma fits_split t t' : fits (t ++ t') -> fits t /\ fits t'.
Proof. intros H; split; intros s p sz al Hi; eapply H; apply in_or_app; eauto. Qed.
Lemma fits_cons e t : fits (e :: t) -> fits t.
Proof. intros H s p sz al Hi. eapply H. right; eauto. Qed.

Lemma mapM_ptr {A X} (h h' : A -> option (X * list ev)) l xs tr :
  (forall a x t, h a = Some (x, t) -> fits t -> h' a = Some (x, map (setp g) t)) ->
  mapM h l = Some (xs, tr) -> fits tr -> mapM h' l = Some (xs, map (setp g) tr).
Proof.
  intros Hh. revert xs tr; induction l as [|a l IH]; cbn; intros xs tr H HP.
  - apply some_pair in H as [<- <-]. reflexivity.
  - destruct (h a) as [[x t]|] eqn:E; [|discriminate].
    destruct (mapM h l) as [[xs' ts]|] eqn:E'; [|discriminate].
    apply some_pair in H as [<- <-].
    apply fits_split in HP as [H1 H2]. rewrite (Hh _ _ _ E H1), (IH _ _ eq_refl H2), map_app. reflexivity.
Qed.
Lemma zero_at_setp a z : zero_at R a = Some z -> map (setp g) z = z.
Proof.
  unfold zero_at. intros H. destruct (r_ck R); dec_inv H; reflexivity.
Qed.

Lemma dec_ptr f : forall t a v tr, dec env R f t a = Some (v, tr) -> fits tr ->
  dec env R' f t a = Some (v, map (setp g) tr).
Proof.
  induction f as [|f IH]; intros t a v tr H Ha; [discriminate H|].
  cbn [dec] in *. change (inside R') with (inside R).
  destruct ((a mod align_of t =? 0) && inside R a (size_of t) (align_of t)); [|discriminate H].
  change (rint R') with (rint R). change (rptr R') with (rptr R). change (zero_at R') with (zero_at R).
  change (strict R') with (strict R).
  change (r_mem R') with (r_mem R). change (r_rel R') with (r_rel R). change (r_ck R') with (r_ck R).
  change (r_tab R') with (r_tab R).
  destruct t.
  - dec_inv H. reflexivity.
  - dec_inv H. reflexivity.
  - dec_inv H. destruct (Ha _ _ _ _ (or_introl eq_refl)) as [Hp Hi].
    change (r_ptr R') with pv'. rewrite Hp. cbn [map setp].
    destruct (g a) as [q|]; [rewrite Hi|]; reflexivity.
  - dec_inv H. erewrite mapM_ptr; [reflexivity| |eassumption|exact Ha].
    cbn. intros; eapply IH; eauto.
  - dec_inv H; [reflexivity|]. cbn [map setp]. now rewrite (IH _ _ _ _ Heqo0 (fits_cons _ _ Ha)).
  - dec_inv H. cbn [map setp]. now rewrite (IH _ _ _ _ Heqo1 (fits_cons _ _ Ha)).
  - cbv zeta in *. destruct (rptr R (r_rel R) a) as [p|]; [|discriminate].
    destruct (zero_at R (a + 8)) as [z|] eqn:Ez; [|discriminate].
    dec_inv H; cbn [map setp]; rewrite ?map_app, (zero_at_setp _ _ Ez); [|reflexivity].
    apply fits_cons, fits_split in Ha as [_ Ha]. apply fits_cons in Ha.
    now rewrite (IH _ _ _ _ Heqo0 Ha).
  - cbv zeta in *.
    destruct (rptr R (r_rel R) a) as [p|] eqn:Ep; [|discriminate].
    destruct (rint R (a + 8) w) as [used|] eqn:Eu; [|discriminate].
    destruct (match r_ck R with None => _ | _ => _ end) as [alloc|] eqn:Ea; [|discriminate].
    destruct (alloc =? used)%N eqn:Eau; [|discriminate].
    destruct (zero_at R (a + 8 + 2 * Z.of_nat w)) as [z|] eqn:Ez; [|discriminate].
    assert (Eo : map (setp g) (Rd a 8 :: Rd (a + 8) (Z.of_nat w) ::
               match r_ck R with None => [] | _ => [Rd (a + 8 + Z.of_nat w) (Z.of_nat w)] end ++ z) =
               Rd a 8 :: Rd (a + 8) (Z.of_nat w) ::
               match r_ck R with None => [] | _ => [Rd (a + 8 + Z.of_nat w) (Z.of_nat w)] end ++ z).
    { cbn [map setp]. rewrite map_app, (zero_at_setp _ _ Ez). now destruct (r_ck R). }
    remember (Rd a 8 :: Rd (a + 8) (Z.of_nat w) ::
                match r_ck R with None => [] | _ => [Rd (a + 8 + Z.of_nat w) (Z.of_nat w)] end ++ z)
      as own eqn:Hown. clear Hown.
    destruct (used =? 0)%N.
    + destruct (strict R _); [|discriminate]. dec_inv H. rewrite map_app, Eo.
      destruct p; [destruct ix|]; reflexivity.
    + dec_inv H. apply fits_split in Ha as [_ Ha]. apply fits_split in Ha as [_ Ha].
      erewrite mapM_ptr; [| |eassumption|exact Ha]; [|cbn; intros; eapply IH; eauto].
      rewrite !map_app, Eo. now destruct ix.
  - cbv zeta in *. destruct (rint R a 1) as [b|]; [|discriminate].
    destruct (negb (b =? 0)%N); [dec_inv H; reflexivity|].
    destruct (rptr R (r_rel R) (a + 8)) as [p|] eqn:Ep; [|discriminate].
    destruct (rint R (a + 4) 4) as [size|] eqn:Eu; [|discriminate].
    destruct (zero_at R (a + 1)) as [z|] eqn:Ez; [|discriminate].
    dec_inv H; cbn [map setp app]; rewrite ?map_app, (zero_at_setp _ _ Ez); reflexivity.
  - dec_inv H; reflexivity.
  - cbv zeta in *.
    destruct (rptr R (r_rel R) a) as [pe|] eqn:Ee; [|discriminate].
    destruct (rptr R (r_rel R) (a + 8)) as [pc|] eqn:Ec; [|discriminate].
    destruct (rint R (a + 16) 8) as [size|] eqn:Es; [|discriminate].
    destruct (rint R (a + 24) 8) as [cap|] eqn:Ecap; [|discriminate].
    destruct (rint R (a + 32) 8) as [growth|] eqn:Eg; [|discriminate].
    destruct (zero_at R (a + 40)) as [z|] eqn:Ez; [|discriminate].
    destruct pc as [c|]; [|discriminate].
    destruct ((Z.of_N cap * size_of (tyof env n) + Z.of_N cap <? 2 ^ 62) &&
              inside R c (Z.of_N cap + 9) 1) eqn:Ei; [|discriminate].
    destruct (rdn (r_mem R) c (N.to_nat cap + 9)) as [ctrl|] eqn:Ect; [|discriminate].
    destruct (r_tab R size cap growth ctrl) eqn:Et; [|discriminate].
    assert (Eo : map (setp g) (Rd a 8 :: Rd (a + 8) 8 :: Rd (a + 16) 8 :: Rd (a + 24) 8 :: Rd (a + 32) 8 ::
                z ++ [Rd c (Z.of_N cap + 9)]) = Rd a 8 :: Rd (a + 8) 8 :: Rd (a + 16) 8 :: Rd (a + 24) 8 :: Rd (a + 32) 8 ::
                z ++ [Rd c (Z.of_N cap + 9)]).
    { cbn [map setp]. now rewrite map_app, (zero_at_setp _ _ Ez). }
    remember (Rd a 8 :: Rd (a + 8) 8 :: Rd (a + 16) 8 :: Rd (a + 24) 8 :: Rd (a + 32) 8 ::
                z ++ [Rd c (Z.of_N cap + 9)]) as own eqn:Hown. clear Hown.
    destruct pe as [e|].
    + dec_inv H. apply fits_split in Ha as [_ Ha].
      rewrite map_app, Eo. erewrite mapM_ptr; [reflexivity| |eassumption|exact Ha].
      cbn. intros i x t Hx Ht. destruct (is_full (nth i ctrl EMPTY)).
      * dec_inv Hx. now rewrite (IH _ _ _ _ Heqo0 Ht).
      * dec_inv Hx. reflexivity.
    + dec_inv H. now rewrite Eo.
Qed.
End Ptr.
