(* Readings of a byte buffer: what they touch, and that they do not depend on the address. *)
From Verif Require Import Base Bytes HashModel SerialModel SerialSpec SerialMem SerialPost.
Local Open Scope Z_scope.

Lemma rdn_in B b a n l : rdn (at_base B b) a n = Some l -> (0 < n)%nat ->
  B <= a /\ a + Z.of_nat n <= B + Z.of_nat (length b).
Proof.
  intros H Hn. pose proof (rdn_length _ _ _ _ H) as Hl.
  destruct (nth_error l 0) as [x|] eqn:E0; [|apply nth_error_None in E0; lia].
  destruct (nth_error l (n - 1)) as [y|] eqn:E1; [|apply nth_error_None in E1; lia].
  pose proof (rdn_nth _ _ _ _ 0 H ltac:(lia)) as H0. rewrite E0 in H0. apply at_base_some in H0.
  pose proof (rdn_nth _ _ _ _ (n - 1) H ltac:(lia)) as H1. rewrite E1 in H1. apply at_base_some in H1. lia.
Qed.

Lemma mapM_Forall {I X} (P : ev -> Prop) (g : I -> option (X * list ev)) l : forall xs tr,
  (forall i x t, In i l -> g i = Some (x, t) -> Forall P t) -> mapM g l = Some (xs, tr) -> Forall P tr.
Proof.
  induction l as [|i l IH]; intros xs tr Hg H; cbn [mapM] in H.
  - apply some_pair in H as [_ <-]. constructor.
  - dec_inv H. apply Forall_app. split; [eapply Hg; [left; reflexivity|eassumption]|].
    eapply IH; [|reflexivity]. intros; eapply Hg; [right|]; eassumption.
Qed.

Section Bounds.
Variables (env : list ty) (be rel : bool) (B hi : Z) (m : mem) (tab : N -> N -> N -> list N -> bool).
Hypothesis Hm : forall z x, m z = Some x -> B <= z < hi.
Notation R := (plain be m rel (Some (B, hi)) tab).

Lemma rdn_inm a n l : rdn m a n = Some l -> (0 < n)%nat -> B <= a /\ a + Z.of_nat n <= hi.
Proof.
  intros H Hn. pose proof (rdn_length _ _ _ _ H) as Hl.
  destruct (nth_error l 0) as [x|] eqn:E0; [|apply nth_error_None in E0; lia].
  destruct (nth_error l (n - 1)) as [y|] eqn:E1; [|apply nth_error_None in E1; lia].
  pose proof (rdn_nth _ _ _ _ 0 H ltac:(lia)) as H0. rewrite E0 in H0. apply Hm in H0.
  pose proof (rdn_nth _ _ _ _ (n - 1) H ltac:(lia)) as H1. rewrite E1 in H1. apply Hm in H1. lia.
Qed.

Lemma inside_R a n al : inside R a n al = true -> B <= a /\ a + n <= hi /\ a mod al = 0.
Proof. clear Hm. unfold inside, plain, r_ck. lia. Qed.
Lemma rint_in a w x : rint R a w = Some x -> (0 < w)%nat -> B <= a /\ a + Z.of_nat w <= hi.
Proof. unfold rint. intros H Hw. dec_inv H. cbn [plain r_mem] in *. eapply rdn_inm; eauto. Qed.
Lemma rptr_in a x r : rptr R r a = Some x -> B <= a /\ a + 8 <= hi.
Proof. unfold rptr. intros H. dec_inv H. eapply rint_in in Heqo; lia. Qed.
Lemma zero_in a z : zero_at R a = Some z -> Forall (in_buffer B hi) z.
Proof.
  unfold zero_at. cbn [plain r_ck]. intros H. dec_inv H. constructor; [|constructor].
  eapply rint_in in Heqo; [|lia]. exact Heqo.
Qed.

Lemma dec_inside f : forall t a v tr, dec env R f t a = Some (v, tr) -> Forall (in_buffer B hi) tr.
Proof.
  induction f as [|f IH]; intros t a v tr H; [discriminate H|].
  cbn [dec] in H.
  destruct ((a mod align_of t =? 0) && inside R a (size_of t) (align_of t)) eqn:G; [|discriminate H].
  apply andb_prop in G as [_ G]. apply inside_R in G as (G1 & G2 & _).
  destruct t; cbn [size_of] in G2.
  - dec_inv H. repeat constructor; lia.
  - dec_inv H. repeat constructor; lia.
  - dec_inv H. repeat constructor; [lia|lia|]. destruct o as [q|]; [|exact I].
    apply inside_R in Heqb. exact Heqb.
  - dec_inv H. eapply mapM_Forall; [|eassumption]. cbn beta. intros; eapply IH; eauto.
  - dec_inv H; (eapply rint_in in Heqo; [|lia]); constructor; [exact Heqo|constructor|exact Heqo|].
    eapply IH; eauto.
  - dec_inv H. eapply rint_in in Heqo; [|lia]. constructor; [exact Heqo|]. eapply IH; eauto.
  - cbv zeta in H. change (r_rel R) with rel in H.
    destruct (rptr R rel a) as [p|] eqn:Ep; [|discriminate].
    destruct (zero_at R (a + 8)) as [z|] eqn:Ez; [|discriminate]. apply zero_in in Ez.
    destruct p as [q|].
    + destruct (dec env R f (tyof env n) q) as [[v' tr']|] eqn:E; [|discriminate].
      apply some_pair in H as [_ <-]. constructor; [cbn; lia|]. apply Forall_app. split; [exact Ez|].
      constructor; [|eapply IH; eassumption].
      destruct f as [|f]; [discriminate E|]. cbn [dec] in E.
      destruct ((q mod align_of (tyof env n) =? 0) && inside R q (size_of (tyof env n)) (align_of (tyof env n))) eqn:G; [|discriminate E].
      apply andb_prop in G as [_ G]. apply inside_R in G. exact G.
    + apply some_pair in H as [_ <-]. constructor; [cbn; lia|exact Ez].
  - cbv zeta in H. change (r_rel R) with rel in H. cbn [r_ck plain] in H.
    destruct (rptr R rel a) as [p|] eqn:Ep; [|discriminate].
    destruct (rint R (a + 8) w) as [used|] eqn:Eu; [|discriminate].
    destruct (rint R (a + 8 + Z.of_nat w) w) as [alloc|] eqn:Ea; [|discriminate].
    destruct (alloc =? used)%N eqn:Eau; [|discriminate].
    destruct (zero_at R (a + 8 + 2 * Z.of_nat w)) as [z|] eqn:Ez; [|discriminate]. apply zero_in in Ez.
    assert (Hown : Forall (in_buffer B hi) (Rd a 8 :: Rd (a + 8) (Z.of_nat w) :: [Rd (a + 8 + Z.of_nat w) (Z.of_nat w)] ++ z)).
    { do 3 (constructor; [cbn [in_buffer]; lia|]). exact Ez. }
    destruct (used =? 0)%N.
    + unfold strict in H. cbn [r_ck plain] in H. destruct p as [q|]; [discriminate|].
      apply some_pair in H as [_ <-]. rewrite app_nil_r. exact Hown.
    + destruct p as [q|]; [|discriminate].
      destruct (inside R q (size_of (tyof env n) * Z.of_N used) (align_of (tyof env n))) eqn:Ei; [|discriminate].
      destruct (mapM _ _) as [[vs tr']|] eqn:Em; [|discriminate].
      apply some_pair in H as [_ <-]. apply inside_R in Ei.
      change (Forall (in_buffer B hi) ((Rd a 8 :: Rd (a + 8) (Z.of_nat w) :: [Rd (a + 8 + Z.of_nat w) (Z.of_nat w)] ++ z) ++
        (if ix then [Blk true q (size_of (tyof env n) * Z.of_N used) (align_of (tyof env n))] else []) ++ tr')).
      apply Forall_app. split; [exact Hown|]. apply Forall_app. split.
      * destruct ix; repeat constructor; apply Ei.
      * eapply mapM_Forall; [|eassumption]. cbn beta. intros; eapply IH; eauto.
  - dec_inv H.
    + eapply rint_in in Heqo; [|lia]. cbn [plain r_mem] in Heqo0. eapply rdn_inm in Heqo0; [|lia]. repeat constructor; cbn; lia.
    + eapply rint_in in Heqo; [|lia]. eapply rptr_in in Heqo0. eapply rint_in in Heqo1; [|lia]. apply zero_in in Heqo2.
      match goal with E : negb _ && _ = true |- _ => apply andb_prop in E as [_ E2] end. apply inside_R in E2.
      constructor; [cbn; lia|]. constructor; [cbn; lia|]. constructor; [cbn; lia|]. apply Forall_app. split; [exact Heqo2|].
      constructor; [cbn; lia|constructor].
    + eapply rint_in in Heqo; [|lia]. eapply rptr_in in Heqo0. eapply rint_in in Heqo1; [|lia]. apply zero_in in Heqo2.
      repeat (constructor; [cbn; lia|]). exact Heqo2.
  - dec_inv H; (eapply rint_in in Heqo; [|lia]).
    + repeat constructor; cbn; lia.
    + repeat constructor; cbn; lia.
    + cbn [plain r_mem] in Heqo3. eapply rdn_inm in Heqo3; [|lia]. repeat constructor; cbn; lia.
  - cbv zeta in H. change (r_rel R) with rel in H.
    destruct (rptr R rel a) as [pe|] eqn:Ee; [|discriminate].
    destruct (rptr R rel (a + 8)) as [pc|] eqn:Ec; [|discriminate].
    destruct (rint R (a + 16) 8) as [size|] eqn:Es; [|discriminate].
    destruct (rint R (a + 24) 8) as [cap|] eqn:Ecap; [|discriminate].
    destruct (rint R (a + 32) 8) as [growth|] eqn:Eg; [|discriminate].
    destruct (zero_at R (a + 40)) as [z|] eqn:Ez; [|discriminate]. apply zero_in in Ez.
    destruct pc as [c|]; [|discriminate].
    destruct ((Z.of_N cap * size_of (tyof env n) + Z.of_N cap <? 2 ^ 62) &&
              inside R c (Z.of_N cap + 9) 1) eqn:Ei; [|discriminate].
    apply andb_prop in Ei as [Ei0 Ei]. apply inside_R in Ei.
    destruct (rdn (r_mem R) c (N.to_nat cap + 9)) as [ctrl|] eqn:Ect; [|discriminate].
    destruct (r_tab R size cap growth ctrl) eqn:Et; [|discriminate].
    remember (Rd a 8 :: Rd (a + 8) 8 :: Rd (a + 16) 8 :: Rd (a + 24) 8 :: Rd (a + 32) 8 ::
                z ++ [Rd c (Z.of_N cap + 9)]) as own eqn:Hown.
    assert (Ho : Forall (in_buffer B hi) own).
    { subst own. repeat (constructor; [cbn; lia|]). apply Forall_app. split; [exact Ez|]. constructor; [cbn; lia|constructor]. }
    destruct pe as [e|].
    + destruct (_ && inside R e _ _) eqn:Eq in H; [|discriminate].
      destruct (mapM _ _) as [[vs tr']|] eqn:Em; [|discriminate].
      apply some_pair in H as [_ <-]. apply Forall_app. split; [exact Ho|].
      eapply mapM_Forall; [|eassumption]. cbn beta. intros i x t' _ Hx.
      destruct (is_full (nth i ctrl EMPTY)); [|apply some_pair in Hx as [_ <-]; constructor].
      dec_inv Hx. eapply IH; eauto.
    + dec_inv H. exact Ho.
Qed.
End Bounds.
Lemma dec_bounds env be B b tab f t a v tr :
  dec env (plain be (at_base B b) true (Some (B, B + Z.of_nat (length b))) tab) f t a = Some (v, tr) ->
  Forall (in_buffer B (B + Z.of_nat (length b))) tr.
Proof.
  apply dec_inside. intros z x H. apply at_base_some in H. lia.
Qed.

Lemma mapM_two {I X} (h : ev -> ev) (g g' : I -> option (X * list ev)) l : forall xs tr xs' tr',
  (forall i x t x' t', In i l -> g i = Some (x, t) -> g' i = Some (x', t') -> x' = x /\ t' = map h t) ->
  mapM g l = Some (xs, tr) -> mapM g' l = Some (xs', tr') -> xs' = xs /\ tr' = map h tr.
Proof.
  induction l as [|i l IH]; intros xs tr xs' tr' Hg H H'; cbn [mapM] in H, H'.
  - apply some_pair in H as [<- <-]. apply some_pair in H' as [<- <-]. split; reflexivity.
  - destruct (g i) as [[x t]|] eqn:E; [|discriminate]. destruct (mapM g l) as [[ys u]|] eqn:E1; [|discriminate].
    destruct (g' i) as [[x' t']|] eqn:E'; [|discriminate]. destruct (mapM g' l) as [[ys' u']|] eqn:E1'; [|discriminate].
    apply some_pair in H as [<- <-]. apply some_pair in H' as [<- <-].
    destruct (Hg i _ _ _ _ (or_introl eq_refl) E E') as [-> ->].
    destruct (IH _ _ _ _ (fun i x t x' t' Hi => Hg i x t x' t' (or_intror Hi)) eq_refl eq_refl) as [-> ->].
    split; [reflexivity|]. now rewrite map_app.
Qed.

Section Shift.
Variables (env : list ty) (A : Z).
Hypothesis Hpos : forall n, 0 <= size_of (tyof env n).
Variables (be : bool) (B B' : Z) (b : list N) (tab : N -> N -> N -> list N -> bool).
Hypothesis HB : 0 < B < 2 ^ 62.
Hypothesis HB' : 0 < B' < 2 ^ 62.
Hypothesis Hlen : Z.of_nat (length b) < 2 ^ 62.
Hypothesis Hbytes : bytes_ok b.
Notation d := (B' - B).
Notation hi := (B + Z.of_nat (length b)).
Notation hi' := (B' + Z.of_nat (length b)).
Notation R := (plain be (at_base B b) true (Some (B, hi)) tab).
Notation R' := (plain be (at_base B' b) true (Some (B', hi')) tab).

Lemma at_base_shift z : at_base B' b (z + d) = at_base B b z.
Proof.
  unfold at_base. replace (z + d <? B') with (z <? B) by lia. replace (z + d - B') with (z - B) by lia. reflexivity.
Qed.
Lemma rdn_shift n : forall a, rdn (at_base B' b) (a + d) n = rdn (at_base B b) a n.
Proof.
  induction n as [|n IH]; intros a; [reflexivity|]. cbn [rdn]. rewrite at_base_shift.
  replace (a + d + 1) with (a + 1 + d) by lia. now rewrite IH.
Qed.
Lemma rint_shift a w : rint R' (a + d) w = rint R a w.
Proof. unfold rint. cbn [r_mem r_be plain]. now rewrite rdn_shift. Qed.
Lemma zero_shift a z z' : zero_at R a = Some z -> zero_at R' (a + d) = Some z' -> z' = map (moved d) z.
Proof.
  unfold zero_at. cbn [r_ck plain]. rewrite rint_shift. destruct (rint R a 1); [|discriminate].
  destruct (_ =? 0)%N; [|discriminate]. intros H H'. apply some_inj in H as <-. apply some_inj in H' as <-. reflexivity.
Qed.
Lemma word_bound B0 a l : rdn (at_base B0 b) a 8 = Some l -> (to_int be l < W64)%N.
Proof.
  intros H. pose proof (rdn_length _ _ _ _ H) as Hl. change W64 with (256 ^ N.of_nat 8)%N. rewrite <- Hl.
  apply to_int_bound. apply Forall_forall. intros x Hx. apply In_nth_error in Hx as (i & Hi).
  assert (i < 8)%nat by (rewrite <- Hl; apply nth_error_Some; congruence).
  pose proof (rdn_nth _ _ _ _ i H ltac:(assumption)) as E. rewrite Hi in E. unfold at_base in E.
  destruct (_ <? B0); [discriminate|]. apply nth_error_In in E. unfold bytes_ok in Hbytes. rewrite Forall_forall in Hbytes. now apply Hbytes.
Qed.
Definition sp (p : option Z) : option Z := match p with None => None | Some q => Some (q + d) end.
Definition okp (lo h : Z) (p : option Z) : Prop := match p with None => True | Some q => lo <= q <= h end.
Lemma ptr_of_shift a x : (x < W64)%N -> B <= a <= hi -> okp B hi (ptr_of true a x) -> okp B' hi' (ptr_of true (a + d) x) ->
  ptr_of true (a + d) x = sp (ptr_of true a x).
Proof.
  intros Hx Ha. unfold ptr_of. destruct (z_of_u x =? NULLPTR_OFFSET); [reflexivity|].
  apply z_of_u_range in Hx. set (off := z_of_u x) in *. clearbody off.
  assert (W : forall z, - 2 ^ 63 <= z < 2 ^ 63 + 2 ^ 63 - 1 -> wrap_i64 z = z \/ 2 ^ 63 <= z /\ wrap_i64 z < 0).
  { intros z Hz. unfold wrap_i64. destruct (Z.ltb_spec z (2 ^ 63)) as [E|E].
    - left. apply z_of_u_of_z. lia.
    - right. split; [exact E|]. unfold u_of_z, z_of_u. rewrite Z.mod_small by (unfold Z64; lia). unfold Z64.
      destruct (N.ltb_spec (Z.to_N z) 9223372036854775808%N); lia. }
  destruct (W (a + off) ltac:(lia)) as [E|[E1 E2]]; destruct (W (a + d + off) ltac:(lia)) as [E'|[E1' E2']];
  try rewrite E; try rewrite E';
  repeat (match goal with |- context [?x =? 0] => destruct (Z.eqb_spec x 0) end); cbn [okp sp]; intros; try f_equal; lia.
Qed.
Lemma rptr_shift a p p' : B <= a <= hi -> rptr R true a = Some p -> rptr R' true (a + d) = Some p' ->
  okp B hi p -> okp B' hi' p' -> p' = sp p.
Proof.
  intros Ha. unfold rptr. rewrite rint_shift. destruct (rint R a 8) as [x|] eqn:E; [|discriminate].
  assert (Hx : (x < W64)%N).
  { unfold rint in E. cbn [r_mem r_be plain] in E. destruct (rdn (at_base B b) a 8) eqn:F; [|discriminate].
    apply some_inj in E as <-. eapply word_bound; eassumption. }
  intros H H'. apply some_inj in H as <-. apply some_inj in H' as <-. intros. now apply ptr_of_shift.
Qed.
Lemma inside_R' a n al : inside R' a n al = true -> B' <= a /\ a + n <= hi'.
Proof. unfold inside, plain, r_ck. lia. Qed.
Lemma dec_in f n q v tr : dec env R f (tyof env n) q = Some (v, tr) -> B <= q <= hi.
Proof.
  destruct f; [discriminate|]. cbn [dec]. intros H. destruct (_ && _) eqn:E; [|discriminate].
  apply andb_prop in E as [_ E]. apply inside_R in E. specialize (Hpos n). lia.
Qed.
Lemma dec_in' f n q v tr : dec env R' f (tyof env n) q = Some (v, tr) -> B' <= q <= hi'.
Proof.
  destruct f; [discriminate|]. cbn [dec]. intros H. destruct (_ && _) eqn:E; [|discriminate].
  apply andb_prop in E as [_ E]. apply inside_R' in E. specialize (Hpos n). lia.
Qed.

Lemma dec_shift f : forall t a v tr v' tr', dec env R f t a = Some (v, tr) -> dec env R' f t (a + d) = Some (v', tr') ->
  v' = v /\ tr' = map (moved d) tr.
Proof.
  induction f as [|f IH]; intros t a v tr v' tr' H H'; [discriminate H|].
  cbn [dec] in H, H'.
  destruct ((a mod align_of t =? 0) && inside R a (size_of t) (align_of t)) eqn:G; [|discriminate H].
  destruct (((a + d) mod align_of t =? 0) && inside R' (a + d) (size_of t) (align_of t)) eqn:G'; [|discriminate H'].
  apply andb_prop in G as [_ G]. apply inside_R in G as (G1 & G2 & _). clear G'.
  destruct t; cbn [size_of] in G2; cbv zeta in H, H';
    repeat (match type of H' with context [a + d + ?k] => replace (a + d + k) with (a + k + d) in H' by lia end);
    rewrite ?rint_shift in H'.
  - dec_inv H. dec_inv H'. split; [congruence|reflexivity].
  - cbn [plain r_mem] in H, H'. rewrite rdn_shift in H'. dec_inv H. dec_inv H'. split; [congruence|reflexivity].
  - cbn [plain r_ptr] in H, H'. rewrite rdn_shift in H'. destruct (rdn (at_base B b) a 8) as [l|] eqn:El; [|discriminate].
    set (p := ptr_of true a (to_int be l)) in *. set (p' := ptr_of true (a + d) (to_int be l)) in *.
    destruct (match p with Some q => _ | None => true end) eqn:E; [|discriminate].
    destruct (match p' with Some q => _ | None => true end) eqn:E'; [|discriminate].
    apply some_pair in H as [<- <-]. apply some_pair in H' as [<- <-]. split; [reflexivity|].
    cbn [map moved]. do 2 f_equal. specialize (Hpos n). apply ptr_of_shift.
    + eapply word_bound; eassumption.
    + lia.
    + fold p. destruct p as [q|]; [|exact I]. apply inside_R in E. cbn. lia.
    + fold p'. destruct p' as [q|]; [|exact I]. apply inside_R' in E'. cbn. lia.
  - destruct (mapM (fun ft => dec env R f (snd ft) (a + fst ft)) fs) as [[vs u]|] eqn:E; [|discriminate].
    destruct (mapM (fun ft => dec env R' f (snd ft) (a + d + fst ft)) fs) as [[vs' u']|] eqn:E'; [|discriminate].
    apply some_pair in H as [<- <-]. apply some_pair in H' as [<- <-].
    destruct (mapM_two (moved d) _ _ _ _ _ _ _ (fun i x t x' t' _ H1 H2 => IH (snd i) (a + fst i) x t x' t' H1
      (eq_trans (f_equal _ (eq_sym (Z.add_shuffle0 a d (fst i)))) H2)) E E') as [-> ->]. split; reflexivity.
  - destruct (rint R a 1) as [x|]; [|discriminate]. destruct (x =? 0)%N.
    + dec_inv H. dec_inv H'. split; reflexivity.
    + destruct (x =? 1)%N; [|discriminate]. destruct (dec env R f t (a + off)) as [[w u]|] eqn:E; [|discriminate].
      destruct (dec env R' f t (a + off + d)) as [[w' u']|] eqn:E'; [|discriminate].
      destruct (IH _ _ _ _ _ _ E E') as [-> ->]. dec_inv H. dec_inv H'. split; reflexivity.
  - destruct (rint R a 1) as [x|]; [|discriminate]. destruct (nth_error ts (N.to_nat x)) as [t|]; [|discriminate].
    destruct (dec env R f t (a + off)) as [[w u]|] eqn:E; [|discriminate].
    destruct (dec env R' f t (a + off + d)) as [[w' u']|] eqn:E'; [|discriminate].
    destruct (IH _ _ _ _ _ _ E E') as [-> ->]. dec_inv H. dec_inv H'. split; reflexivity.
  - change (r_rel R) with true in H. change (r_rel R') with true in H'.
    destruct (rptr R true a) as [p|] eqn:Ep; [|discriminate]. destruct (rptr R' true (a + d)) as [p'|] eqn:Ep'; [|discriminate].
    destruct (zero_at R (a + 8)) as [z|] eqn:Ez; [|discriminate]. destruct (zero_at R' (a + 8 + d)) as [z'|] eqn:Ez'; [|discriminate].
    apply (zero_shift _ _ _ Ez) in Ez'. subst z'.
    assert (Hp : p' = sp p).
    { apply (rptr_shift a); [lia|assumption|assumption| |].
      - destruct p as [q|]; [|exact I]. destruct (dec env R f _ q) as [[w u]|] eqn:E; [|discriminate]. now apply dec_in in E.
      - destruct p' as [q|]; [|exact I]. destruct (dec env R' f _ q) as [[w u]|] eqn:E; [|discriminate]. now apply dec_in' in E. }
    subst p'. destruct p as [q|]; cbn [sp] in H'.
    + destruct (dec env R f _ q) as [[w u]|] eqn:E; [|discriminate]. destruct (dec env R' f _ (q + d)) as [[w' u']|] eqn:E'; [|discriminate].
      destruct (IH _ _ _ _ _ _ E E') as [-> ->]. apply some_pair in H as [<- <-]. apply some_pair in H' as [<- <-].
      split; [reflexivity|]. cbn [map moved]. rewrite map_app. reflexivity.
    + dec_inv H. dec_inv H'. split; reflexivity.
  - change (r_rel R) with true in H. change (r_rel R') with true in H'. cbn [r_ck plain] in H, H'. rewrite ?rint_shift in H'.
    destruct (rptr R true a) as [p|] eqn:Ep; [|discriminate]. destruct (rptr R' true (a + d)) as [p'|] eqn:Ep'; [|discriminate].
    destruct (rint R (a + 8) w) as [used|] eqn:Eu; [|discriminate].
    replace (a + 8 + d + Z.of_nat w) with (a + 8 + Z.of_nat w + d) in H' by lia. rewrite ?rint_shift in H'.
    destruct (rint R (a + 8 + Z.of_nat w) w) as [alloc|] eqn:Ea; [|discriminate].
    destruct (alloc =? used)%N eqn:Eau; [|discriminate].
    replace (a + 8 + d + 2 * Z.of_nat w) with (a + 8 + 2 * Z.of_nat w + d) in H' by lia.
    destruct (zero_at R (a + 8 + 2 * Z.of_nat w)) as [z|] eqn:Ez; [|discriminate].
    destruct (zero_at R' (a + 8 + 2 * Z.of_nat w + d)) as [z'|] eqn:Ez'; [|discriminate].
    apply (zero_shift _ _ _ Ez) in Ez'. subst z'.
    assert (Hown : forall l, Rd (a + d) 8 :: Rd (a + 8 + d) (Z.of_nat w) :: [Rd (a + 8 + Z.of_nat w + d) (Z.of_nat w)] ++ map (moved d) z ++ map (moved d) l =
      map (moved d) ((Rd a 8 :: Rd (a + 8) (Z.of_nat w) :: [Rd (a + 8 + Z.of_nat w) (Z.of_nat w)] ++ z) ++ l)).
    { intros l. cbn [app map moved]. now rewrite map_app. }
    destruct (used =? 0)%N.
    + unfold strict in H, H'. cbn [r_ck plain] in H, H'. destruct p as [q|]; [discriminate|]. destruct p' as [q|]; [discriminate|].
      apply some_pair in H as [<- <-]. apply some_pair in H' as [<- <-]. split; [reflexivity|].
      rewrite <- Hown. cbn [map app]. now rewrite !app_nil_r.
    + destruct p as [q|]; [|discriminate]. destruct p' as [q'|]; [|discriminate].
      destruct (inside R q _ _) eqn:Ei in H; [|discriminate]. destruct (inside R' q' _ _) eqn:Ei' in H'; [|discriminate].
      apply inside_R in Ei. apply inside_R' in Ei'.
      assert (0 <= size_of (tyof env n) * Z.of_N used) by (apply Z.mul_nonneg_nonneg; [apply Hpos|lia]).
      assert (Hq : Some q' = sp (Some q)).
      { apply (rptr_shift a); [lia|assumption|assumption| |]; cbn; lia. }
      apply some_inj in Hq. subst q'.
      destruct (mapM _ _) as [[vs u]|] eqn:E in H; [|discriminate].
      destruct (mapM _ _) as [[vs' u']|] eqn:E' in H'; [|discriminate].
      apply some_pair in H as [<- <-]. apply some_pair in H' as [<- <-].
      destruct (mapM_two (moved d) _ _ _ _ _ _ _ (fun i x t x' t' _ H1 H2 => IH (tyof env n) (q + Z.of_nat i * size_of (tyof env n)) x t x' t' H1
        (eq_trans (f_equal _ (eq_sym (Z.add_shuffle0 q d (Z.of_nat i * size_of (tyof env n))))) H2)) E E') as [-> ->].
      split; [reflexivity|]. rewrite <- Hown. rewrite map_app. destruct ix; cbn [map app moved]; now rewrite <- ?app_assoc.
  - destruct (rint R a 1) as [x|]; [|discriminate]. destruct (negb (x =? 0)%N).
    + destruct (x =? 1)%N; [|discriminate]. cbn [plain r_mem] in H, H'. rewrite rdn_shift in H'.
      dec_inv H. dec_inv H'. split; [congruence|reflexivity].
    + change (r_rel R) with true in H. change (r_rel R') with true in H'.
      destruct (rptr R true (a + 8)) as [p|] eqn:Ep; [|discriminate]. destruct (rptr R' true (a + 8 + d)) as [p'|] eqn:Ep'; [|discriminate].
      rewrite ?rint_shift in H'.
      destruct (rint R (a + 4) 4) as [size|]; [|discriminate].
      destruct (zero_at R (a + 1)) as [z|] eqn:Ez; [|discriminate]. destruct (zero_at R' (a + 1 + d)) as [z'|] eqn:Ez'; [|discriminate].
      apply (zero_shift _ _ _ Ez) in Ez'. subst z'.
      assert (Hp : p' = sp p).
      { apply (rptr_shift (a + 8)); [lia|assumption|assumption| |].
        - destruct p as [q|]; [|exact I]. destruct (_ && inside R q _ _) eqn:E in H; [|discriminate].
          apply andb_prop in E as [_ E]. apply inside_R in E. cbn. lia.
        - destruct p' as [q|]; [|exact I]. destruct (_ && inside R' q _ _) eqn:E in H'; [|discriminate].
          apply andb_prop in E as [_ E]. apply inside_R' in E. cbn. lia. }
      subst p'. destruct p as [q|]; cbn [sp] in H'.
      * cbn [plain r_mem] in H, H'. rewrite rdn_shift in H'. destruct (_ && _) in H; [|discriminate]. destruct (_ && _) in H'; [|discriminate].
        dec_inv H. dec_inv H'. split; [congruence|]. cbn [map moved]. rewrite map_app. reflexivity.
      * dec_inv H. dec_inv H'. split; reflexivity.
  - destruct (rint R (a + 15) 1) as [x|]; [|discriminate]. destruct (x <? 128)%N.
    + destruct (x <=? 15)%N; [|discriminate]. cbn [plain r_mem] in H, H'. rewrite rdn_shift in H'.
      dec_inv H. dec_inv H'. split; [congruence|]. reflexivity.
    + change (r_rel R) with true in H. change (r_rel R') with true in H'.
      destruct (rptr R true a) as [p|] eqn:Ep; [|discriminate]. destruct (rptr R' true (a + d)) as [p'|] eqn:Ep'; [|discriminate].
      rewrite ?rint_shift in H'. destruct (rint R (a + 8) 4) as [size|]; [|discriminate].
      destruct (size =? 0)%N eqn:E0.
      * dec_inv H. dec_inv H'. split; reflexivity.
      * destruct p as [q|]; [|discriminate]. destruct p' as [q'|]; [|discriminate].
        cbn [plain r_mem] in H, H'. destruct (rdn _ q _) as [l|] eqn:E in H; [|discriminate].
        destruct (rdn _ q' _) as [l'|] eqn:E' in H'; [|discriminate].
        pose proof (rdn_in _ _ _ _ _ E ltac:(lia)). pose proof (rdn_in _ _ _ _ _ E' ltac:(lia)).
        assert (Hq : Some q' = sp (Some q)).
        { apply (rptr_shift a); [lia|assumption|assumption| |]; cbn; lia. }
        apply some_inj in Hq. subst q'. rewrite rdn_shift in E'.
        dec_inv H. dec_inv H'. split; [congruence|reflexivity].
  - change (r_rel R) with true in H. change (r_rel R') with true in H'.
    destruct (rptr R true a) as [pe|] eqn:Ee; [|discriminate]. destruct (rptr R' true (a + d)) as [pe'|] eqn:Ee'; [|discriminate].
    destruct (rptr R true (a + 8)) as [pc|] eqn:Ec; [|discriminate]. destruct (rptr R' true (a + 8 + d)) as [pc'|] eqn:Ec'; [|discriminate].
    rewrite ?rint_shift in H'.
    destruct (rint R (a + 16) 8) as [size|] eqn:Es; [|discriminate].
    destruct (rint R (a + 24) 8) as [cap|] eqn:Ecap; [|discriminate].
    destruct (rint R (a + 32) 8) as [growth|] eqn:Eg; [|discriminate].
    destruct (zero_at R (a + 40)) as [z|] eqn:Ez; [|discriminate]. destruct (zero_at R' (a + 40 + d)) as [z'|] eqn:Ez'; [|discriminate].
    apply (zero_shift _ _ _ Ez) in Ez'. subst z'.
    destruct pc as [c|]; [|discriminate]. destruct pc' as [c'|]; [|discriminate].
    destruct ((_ <? 2 ^ 62) && inside R c (Z.of_N cap + 9) 1) eqn:Ei in H; [|discriminate].
    apply andb_prop in Ei as [Ei0 Ei]. apply inside_R in Ei.
    destruct ((_ <? 2 ^ 62) && inside R' c' (Z.of_N cap + 9) 1) eqn:Ei' in H'; [|discriminate].
    apply andb_prop in Ei' as [_ Ei']. apply inside_R' in Ei'.
    assert (Hc : Some c' = sp (Some c)).
    { apply (rptr_shift (a + 8)); [lia|assumption|assumption| |]; cbn; lia. }
    apply some_inj in Hc. subst c'.
    cbn [plain r_mem r_tab] in H, H'. rewrite rdn_shift in H'.
    destruct (rdn _ c _) as [ctrl|] eqn:Ect; [|discriminate].
    destruct (tab size cap growth ctrl) eqn:Et; [|discriminate].
    pose proof (Hpos n) as Hn.
    assert (0 <= Z.of_N cap * size_of (tyof env n)) by (apply Z.mul_nonneg_nonneg; lia).
    assert (Hp : pe' = sp pe).
    { apply (rptr_shift a); [lia|assumption|assumption| |].
      - destruct pe as [q|]; [|exact I]. destruct (_ && inside R q _ _) eqn:E in H; [|discriminate].
        apply andb_prop in E as [_ E]. apply inside_R in E. cbn. lia.
      - destruct pe' as [q|]; [|exact I]. destruct (_ && inside R' q _ _) eqn:E in H'; [|discriminate].
        apply andb_prop in E as [_ E]. apply inside_R' in E. cbn. lia. }
    subst pe'. destruct pe as [e|]; cbn [sp] in H'.
    + destruct (_ && inside R e _ _) in H; [|discriminate]. destruct (_ && inside R' (e + d) _ _) in H'; [|discriminate].
      destruct (mapM _ _) as [[vs u]|] eqn:E in H; [|discriminate].
      destruct (mapM _ _) as [[vs' u']|] eqn:E' in H'; [|discriminate].
      apply some_pair in H as [<- <-]. apply some_pair in H' as [<- <-].
      assert (Hm : vs' = vs /\ u' = map (moved d) u).
      { eapply mapM_two; [|exact E|exact E']. cbn beta. intros i x t x' t' _ H1 H2.
        destruct (is_full (nth i ctrl EMPTY)).
        - replace (e + d + Z.of_nat i * size_of (tyof env n)) with (e + Z.of_nat i * size_of (tyof env n) + d) in H2 by lia.
          destruct (dec env R f _ _) as [[y w]|] eqn:F in H1; [|discriminate].
          destruct (dec env R' f _ _) as [[y' w']|] eqn:F' in H2; [|discriminate].
          destruct (IH _ _ _ _ _ _ F F') as [-> ->]. dec_inv H1. dec_inv H2. split; reflexivity.
        - dec_inv H1. dec_inv H2. split; reflexivity. }
      destruct Hm as [-> ->]. split; [reflexivity|]. cbn [app map moved]. rewrite !map_app. reflexivity.
    + destruct (_ && _) in H; [|discriminate]. dec_inv H. dec_inv H'. split; [reflexivity|].
      cbn [app map moved]. rewrite !map_app. reflexivity.
Qed.
End Shift.
