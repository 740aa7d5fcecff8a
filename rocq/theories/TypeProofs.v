From Coq Require Import String.
From Verif Require Import Base TypeModel TypeSpec.

Definition gkey (e : env) (t : cty) : string * N := match tkey e t with Some k => k | None => (EmptyString, 0%N) end.
Lemma key_eqb_ok a b : key_eqb a b = true <-> a = b.
Proof.
  destruct a as (a, x), b as (b, y). unfold key_eqb. cbn [fst snd]. rewrite andb_true_iff, String.eqb_eq, N.eqb_eq. split; [intros (-> & ->); auto|intros E; injection E; auto].
Qed.
Lemma index_ok k d : forall i, match index_of k d i with Some j => exists n, j = (i + N.of_nat n)%N /\ nth_error d n = Some k | None => ~ In k d end.
Proof.
  induction d as [|x d IH]; intros i; cbn [index_of]; [auto|]. destruct (key_eqb k x) eqn:E.
  - apply key_eqb_ok in E. subst x. exists 0. split; [lia|auto].
  - specialize (IH (i + 1)%N). destruct (index_of k d (i + 1)).
    + destruct IH as (m & -> & H). exists (S m). split; [lia|auto].
    + intros [->|H]; [|auto]. assert (key_eqb k k = true) by (apply key_eqb_ok; auto). congruence.
Qed.

(* derivations of walk; `done` as the list of types *)
Section Deriv.
Variables (op cl : hd -> list tok) (e : env).
Inductive W : cty -> list cty -> list tok -> list cty -> Prop :=
  | W_rep t ds i u : tkey e t <> None -> nth_error ds i = Some u -> tkey e u = tkey e t -> W t ds [Num (N.of_nat i)] ds
  | W_new t ds x ds1 : tkey e t <> None -> WL (kids e t) (ds ++ [t]) x ds1 -> W t ds (op (head t) ++ x ++ cl (head t)) ds1
  | W_plain t ds x ds1 : tkey e t = None -> WL (kids e t) ds x ds1 -> W t ds (op (head t) ++ x ++ cl (head t)) ds1
with WL : list cty -> list cty -> list tok -> list cty -> Prop :=
  | WL_nil ds : WL [] ds [] ds
  | WL_cons t l ds x ds1 y ds2 : W t ds x ds1 -> WL l ds1 y ds2 -> WL (t :: l) ds (x ++ y) ds2.
Definition keyed (ds : list cty) : Prop := Forall (fun t => tkey e t <> None) ds.
Definition walks (f : nat) : list cty -> list (string * N) -> res (list tok * list (string * N)) :=
  fix go l d := match l with
  | [] => Ok ([], d)
  | t :: l => let* '(x, d) := walk op cl e f t d in let* '(y, d) := go l d in Ok ((x ++ y)%list, d)
  end.
Lemma walk_S f t d : walk op cl e (S f) t d =
  let expand d := let* '(x, d) := walks f (kids e t) d in Ok ((op (head t) ++ x ++ cl (head t))%list, d) in
  match tkey e t with Some k => match index_of k d 0 with Some i => Ok ([Num i], d) | None => expand (d ++ [k])%list end | None => expand d end.
Proof. reflexivity. Qed.
Lemma walk_W f : forall t ds a d1, keyed ds -> walk op cl e f t (map (gkey e) ds) = Ok (a, d1) -> exists ds1, d1 = map (gkey e) ds1 /\ keyed ds1 /\ W t ds a ds1.
Proof.
  induction f as [|f IH]; intros t ds a d1 K H; [discriminate|]. rewrite walk_S in H. cbn zeta in H.
  assert (WS : forall l ds x d1, keyed ds -> walks f l (map (gkey e) ds) = Ok (x, d1) -> exists ds1, d1 = map (gkey e) ds1 /\ keyed ds1 /\ WL l ds x ds1).
  { clear - IH. induction l as [|t l IHl]; intros ds x d1 K H; cbn [walks] in H.
    - injection H as <- <-. exists ds. split; [auto|]. split; [auto|constructor].
    - apply bind_ok in H. destruct H as ((y & d2) & H1 & H). apply bind_ok in H. destruct H as ((z & d3) & H2 & H). injection H as <- <-.
      destruct (IH _ _ _ _ K H1) as (ds1 & -> & K1 & W1). destruct (IHl _ _ _ K1 H2) as (ds2 & -> & K2 & W2). exists ds2. split; [auto|]. split; [auto|]. econstructor; eauto. }
  destruct (tkey e t) as [k|] eqn:E.
  - pose proof (index_ok k (map (gkey e) ds) 0) as X. destruct (index_of k (map (gkey e) ds) 0) as [i|].
    + destruct X as (n & -> & X). injection H as <- <-. exists ds. split; [auto|]. split; [auto|]. rewrite nth_error_map in X. destruct (nth_error ds n) as [u|] eqn:U; [|discriminate].
      replace (0 + N.of_nat n)%N with (N.of_nat n) by lia. apply (W_rep t ds n u); [congruence|auto|]. injection X as X. unfold gkey in X.
      assert (Q : tkey e u <> None) by (unfold keyed in K; rewrite Forall_forall in K; apply K; eapply nth_error_In; eauto). destruct (tkey e u); congruence.
    + apply bind_ok in H. destruct H as ((x & d2) & H1 & H). injection H as <- <-.
      replace (map (gkey e) ds ++ [k]) with (map (gkey e) (ds ++ [t])) in H1 by (rewrite map_app; cbn [map]; unfold gkey at 2; rewrite E; auto).
      apply WS in H1; [|apply Forall_app; split; [exact K|constructor; [congruence|constructor]]]. destruct H1 as (ds1 & -> & K1 & W1). exists ds1. split; [auto|]. split; [auto|]. apply W_new; [congruence|auto].
  - apply bind_ok in H. destruct H as ((x & d2) & H1 & H). injection H as <- <-. apply WS in H1; auto. destruct H1 as (ds1 & -> & K1 & W1). exists ds1. split; [auto|]. split; [auto|]. apply W_plain; auto.
Qed.
End Deriv.
Scheme W_mut := Induction for W Sort Prop with WL_mut := Induction for WL Sort Prop.
Combined Scheme W_ind2 from W_mut, WL_mut.

(* opening and closing determine the head *)
Definition kind (h k : hd) : Prop :=
  match h, k with
  | HStrong _, HStrong _ | HDur _, HDur _ | HTime _, HTime _ | HMm _, HMm _ => True
  | _, _ => h = k
  end.
Lemma open_inj h k p q : h <> HPair -> k <> HPair -> opening h ++ p = opening k ++ q -> p = q /\ kind h k.
Proof.
  destruct h, k; intros N1 N2 E; try (exfalso; congruence);
    repeat match goal with x : unary |- _ => destruct x end; cbn [opening app unary_name] in E; try discriminate; injection E; intros; subst; split; auto; cbn; auto.
Qed.
Lemma close_inj h k p q : kind h k -> closing h ++ p = closing k ++ q -> p = q /\ h = k.
Proof.
  intros K E. destruct h, k; cbn [kind] in K; try discriminate; try (injection K; intros; subst); cbn [closing app] in E; auto; injection E; intros; subst; auto.
Qed.
Lemma open_num h n p q : h <> HPair -> opening h ++ p <> Num n :: q.
Proof. destruct h; intros H E; cbn [opening app] in E; try congruence; discriminate. Qed.
Lemma kids_fixed e t : fixed t = true -> Forall (fun u => fixed u = true) (kids e t).
Proof. destruct t; cbn [fixed kids]; intros H; try discriminate; try constructor; auto. - apply andb_true_iff in H. cbn [fixed]. tauto. - constructor; auto. apply andb_true_iff in H. cbn [fixed]. tauto. Qed.
Lemma fixed_pair t : fixed t = true -> head t <> HPair.
Proof. destruct t; discriminate. Qed.
Lemma pair_head t : is_pair t = true <-> head t = HPair.
Proof. destruct t; cbn [is_pair head]; split; congruence. Qed.
Lemma kind_arity e e' t u : fixed t = true -> fixed u = true -> kind (head t) (head u) -> length (kids e t) = length (kids e' u).
Proof. destruct t, u; cbn [fixed head kind kids length]; intros; try discriminate; auto; try congruence. Qed.

Lemma F2_len A B (R : A -> B -> Prop) l k : Forall2 R l k -> length l = length k.
Proof. induction 1; cbn [length]; auto. Qed.
Lemma F2_impl A B (R Q : A -> B -> Prop) l k : (forall x y, R x y -> Q x y) -> Forall2 R l k -> Forall2 Q l k.
Proof. intros H. induction 1; constructor; auto. Qed.
Definition same (e : env) (t : cty) (e' : env) (u : cty) : Prop := forall n, alike n e t e' u.
Lemma fixed_same e t e' u : fixed t = true -> fixed u = true -> same e t e' u.
Proof. intros A B [|n]; cbn [alike]; auto. Qed.
Lemma same_kids e t e' u : same e t e' u -> fixed t = true /\ fixed u = true \/ (is_pair t = is_pair u /\ Forall2 (fun t u => same e t e' u) (kids e t) (kids e' u)).
Proof.
  intros H. destruct (fixed t && fixed u) eqn:F; [apply andb_true_iff in F; auto|]. right.
  assert (Q : forall n, is_pair t = is_pair u /\ Forall2 (fun t u => alike n e t e' u) (kids e t) (kids e' u)).
  { intros n. destruct (H (S n)) as [(A & B)|(A & B & C)]; [rewrite A, B in F; discriminate|auto]. }
  split; [apply (Q 0)|]. assert (R : forall n, Forall2 (fun t u => alike n e t e' u) (kids e t) (kids e' u)) by (intros n; apply Q). clear - R.
  revert R. generalize (kids e t) (kids e' u). intros l k R. assert (L : length l = length k) by (apply (F2_len _ _ _ _ _ (R 0))).
  revert k R L. induction l as [|x l IH]; intros [|y k] R L; try discriminate; constructor.
  - intros n. specialize (R n). inversion R; auto.
  - apply IH; auto. intros n. specialize (R n). inversion R; auto.
Qed.

(* the correspondence of two walks *)
Section Two.
Variables (e e' : env) (r r' : cty).
Hypothesis N1 : names_ok e r.
Hypothesis N2 : names_ok e' r'.
Inductive rel (ds es : list cty) : cty -> cty -> Prop :=
  | rel_key i t u : nth_error ds i = Some t -> nth_error es i = Some u -> rel ds es t u
  | rel_node t u : head t = head u -> Forall2 (rel ds es) (kids e t) (kids e' u) -> rel ds es t u.
Fixpoint rel_mono ds es x y t u (H : rel ds es t u) {struct H} : rel (ds ++ x) (es ++ y) t u.
Proof.
  destruct H as [i t u A B|t u A B].
  - apply (rel_key _ _ i); rewrite nth_error_app1; auto; apply nth_error_Some; congruence.
  - apply rel_node; auto. clear A. revert B. generalize (kids e t) (kids e' u). fix go 3. intros l k [|x' y' l' k' C D]; constructor; [apply rel_mono; auto|apply go; auto].
Qed.
Definition entry (ds es : list cty) (i : nat) : Prop :=
  forall t u, nth_error ds i = Some t -> nth_error es i = Some u -> head t = head u /\ Forall2 (rel ds es) (kids e t) (kids e' u).
Lemma entry_mono ds es x y i : i < length ds -> length ds = length es -> entry ds es i -> entry (ds ++ x) (es ++ y) i.
Proof.
  intros L L2 H t u A B. rewrite nth_error_app1 in A by auto. rewrite nth_error_app1 in B by lia. destruct (H t u A B) as (H1 & H2). split; [auto|].
  eapply F2_impl; [|exact H2]. intros; apply rel_mono; auto.
Qed.
(* from tables (ds, es) to (ds1, es1) *)
Definition grow (ds es ds1 es1 : list cty) : Prop :=
  exists x y, ds1 = ds ++ x /\ es1 = es ++ y /\ length x = length y /\ forall i, length ds <= i < length ds1 -> entry ds1 es1 i.
Lemma grow_refl ds es : grow ds es ds es.
Proof. exists [], []. rewrite !app_nil_r. split; [auto|]. split; [auto|]. split; [auto|]. lia. Qed.
Lemma grow_trans a b c d f g : length a = length b -> grow a b c d -> grow c d f g -> grow a b f g.
Proof.
  intros L (x & y & -> & -> & L1 & E1) (x' & y' & -> & -> & L2 & E2). exists (x ++ x'), (y ++ y'). rewrite !app_assoc. split; [auto|]. split; [auto|]. split; [rewrite !app_length; lia|].
  intros i Hi. destruct (Nat.lt_ge_cases i (length (a ++ x))).
  - apply entry_mono; auto; [rewrite !app_length; lia|apply E1; lia].
  - apply E2. lia.
Qed.
Lemma grow_rel a b c d t u : grow a b c d -> rel a b t u -> rel c d t u.
Proof. intros (x & y & -> & -> & _) H. apply rel_mono; auto. Qed.
Lemma grow_len a b c d : length a = length b -> grow a b c d -> length c = length d.
Proof. intros L (x & y & -> & -> & L1 & _). rewrite !app_length. lia. Qed.
Definition occ (ds : list cty) : Prop := Forall (occurs e r) ds.
Definition occ' (es : list cty) : Prop := Forall (occurs e' r') es.
Lemma occ_kids t : occurs e r t -> Forall (occurs e r) (kids e t).
Proof. intros H. apply Forall_forall. intros v I. eapply occ_kid; eauto. Qed.
Lemma occ_kids' t : occurs e' r' t -> Forall (occurs e' r') (kids e' t).
Proof. intros H. apply Forall_forall. intros v I. eapply occ_kid; eauto. Qed.
Notation WA := (W opening closing e).
Notation WB := (W opening closing e').
Notation WLA := (WL opening closing e).
Notation WLB := (WL opening closing e').
Lemma kids_related t u : same e t e' u -> kind (head t) (head u) \/ (head t = HPair /\ head u = HPair) -> Forall2 (fun t u => same e t e' u) (kids e t) (kids e' u).
Proof.
  intros S K. destruct (same_kids _ _ _ _ S) as [(A & B)|(A & B)]; [|auto].
  assert (L : length (kids e t) = length (kids e' u)). { destruct K as [K|(K & _)]; [apply kind_arity; auto|apply fixed_pair in A; congruence]. }
  pose proof (kids_fixed e t A) as FA. pose proof (kids_fixed e' u B) as FB. revert L FA FB. generalize (kids e t) (kids e' u). clear. induction l as [|x l IH]; intros [|y k] L FA FB; try discriminate; constructor.
  - inversion FA; inversion FB; subst. apply fixed_same; auto.
  - inversion FA; inversion FB; subst. apply IH; auto.
Qed.
Lemma same_pair t u : same e t e' u -> (head t = HPair <-> head u = HPair).
Proof.
  intros S. destruct (same_kids _ _ _ _ S) as [(A & B)|(A & B)].
  - apply fixed_pair in A. apply fixed_pair in B. tauto.
  - rewrite <- !pair_head, A. tauto.
Qed.
Lemma key_pair en t : tkey en t <> None -> head t <> HPair.
Proof. destruct t; cbn [tkey head]; congruence. Qed.
Theorem two :
  (forall t ds a ds1, WA t ds a ds1 -> forall u es b es1 ra rb, WB u es b es1 -> length ds = length es -> occurs e r t -> occurs e' r' u -> occ ds -> occ' es -> same e t e' u ->
     a ++ ra = b ++ rb -> ra = rb /\ occ ds1 /\ occ' es1 /\ grow ds es ds1 es1 /\ rel ds1 es1 t u) /\
  (forall l ds a ds1, WLA l ds a ds1 -> forall k es b es1 ra rb, WLB k es b es1 -> length ds = length es -> Forall (occurs e r) l -> Forall (occurs e' r') k -> occ ds -> occ' es -> Forall2 (fun t u => same e t e' u) l k ->
     a ++ ra = b ++ rb -> ra = rb /\ occ ds1 /\ occ' es1 /\ grow ds es ds1 es1 /\ Forall2 (rel ds1 es1) l k).
Proof.
  assert (NODE : forall t x hs u y ra rb, same e t e' u -> hs = head u -> (opening (head t) ++ x ++ closing (head t)) ++ ra = (opening hs ++ y ++ closing hs) ++ rb ->
    x ++ (closing (head t) ++ ra) = y ++ (closing hs ++ rb) /\ (kind (head t) (head u) \/ (head t = HPair /\ head u = HPair))).
  { intros t x hs u y ra rb S -> E. rewrite <- !app_assoc in E. pose proof (same_pair t u S) as P.
    destruct (is_pair t) eqn:T.
    - apply pair_head in T. pose proof (proj1 P T) as T'. rewrite T, T' in *. cbn [opening app] in E. auto.
    - assert (T1 : head t <> HPair) by (intros Q; apply pair_head in Q; congruence). apply open_inj in E; [|auto|tauto]. tauto. }
  assert (CLOSE : forall t u ra rb, kind (head t) (head u) \/ (head t = HPair /\ head u = HPair) -> closing (head t) ++ ra = closing (head u) ++ rb -> ra = rb /\ head t = head u).
  { intros t u ra rb [K|(A & B)] E; [eapply close_inj; eauto|]. rewrite A, B in *. cbn in E. split; [congruence|auto]. }
  apply W_ind2.
  - (* repeated *) intros t ds i u0 Kt Hi Ku u es b es1 ra rb HB L Ot Ou Od Oe S E. assert (u0 = t).
    { destruct (tkey e t) as [k|] eqn:Q; [|congruence]. apply (N1 u0 t k); auto. apply (proj1 (Forall_forall _ _) Od). eapply nth_error_In; eauto. }
    subst u0. assert (NP : head u <> HPair) by (intros Q; apply (proj2 (same_pair t u S)) in Q; apply (key_pair e t Kt Q)).
    inversion HB; subst.
    + cbn [app] in E. injection E as E1 E2. apply Nat2N.inj in E1. subst i0. assert (u0 = u).
      { destruct (tkey e' u) as [k|] eqn:Q; [|congruence]. apply (N2 u0 u k); auto. apply (proj1 (Forall_forall _ _) Oe). eapply nth_error_In; eauto. }
      subst u0. split; [auto|]. split; [auto|]. split; [auto|]. split; [apply grow_refl|]. eapply rel_key; eauto.
    + exfalso. rewrite <- app_assoc in E. symmetry in E. apply open_num in E; auto.
    + exfalso. rewrite <- app_assoc in E. symmetry in E. apply open_num in E; auto.
  - (* new *) intros t ds x ds1 Kt HW IH u es b es1 ra rb HB L Ot Ou Od Oe S E. assert (NP : head t <> HPair) by (apply (key_pair e); auto).
    inversion HB; subst.
    + exfalso. rewrite <- app_assoc in E. apply open_num in E; auto.
    + destruct (NODE _ _ _ _ _ _ _ S eq_refl E) as (E1 & K). assert (L0 : length (ds ++ [t]) = length (es ++ [u])) by (rewrite !app_length; cbn; lia).
      assert (OD : occ (ds ++ [t])) by (apply Forall_app; auto). assert (OE : occ' (es ++ [u])) by (apply Forall_app; auto).
      destruct (IH _ _ _ _ _ _ H0 L0 (occ_kids t Ot) (occ_kids' u Ou) OD OE (kids_related t u S K) E1) as (E2 & O1 & O2 & G & R).
      destruct (CLOSE _ _ _ _ K E2) as (E3 & Hh). split; [auto|]. split; [auto|]. split; [auto|]. destruct G as (x' & y' & -> & -> & LL & EN).
      assert (NT : nth_error ((ds ++ [t]) ++ x') (length ds) = Some t) by (rewrite <- app_assoc, nth_error_app2, Nat.sub_diag; auto).
      assert (NU : nth_error ((es ++ [u]) ++ y') (length ds) = Some u) by (rewrite <- app_assoc, nth_error_app2, L, Nat.sub_diag; auto; lia).
      split; [|eapply rel_key; eauto]. exists (t :: x'), (u :: y'). rewrite <- !app_assoc in *. cbn [app] in *. split; [auto|]. split; [auto|]. split; [cbn; lia|].
      intros i Hi. destruct (Nat.eq_dec i (length ds)) as [->|Ne].
      * intros t0 u0 A B. rewrite NT in A. rewrite NU in B. injection A as <-. injection B as <-. auto.
      * apply EN. rewrite app_length. cbn [length]. lia.
    + exfalso. destruct (NODE _ _ _ _ _ _ _ S eq_refl E) as (E1 & K). clear - Kt H K. destruct K as [K|(K & _)]; [|destruct t; cbn [tkey head kind] in *; congruence]. destruct t, u; cbn [tkey head kind] in *; congruence.
  - (* plain *) intros t ds x ds1 Kt HW IH u es b es1 ra rb HB L Ot Ou Od Oe S E.
    inversion HB; subst.
    + exfalso. assert (NP : head t <> HPair) by (intros Q; apply (proj1 (same_pair t u S)) in Q; apply (key_pair e' u H Q)). rewrite <- app_assoc in E. apply open_num in E; auto.
    + exfalso. destruct (NODE _ _ _ _ _ _ _ S eq_refl E) as (E1 & K). clear - Kt H K. destruct K as [K|(K & K')]; [|destruct u; cbn [tkey head kind] in *; congruence]. destruct t, u; cbn [tkey head kind] in *; congruence.
    + destruct (NODE _ _ _ _ _ _ _ S eq_refl E) as (E1 & K). destruct (IH _ _ _ _ _ _ H0 L (occ_kids t Ot) (occ_kids' u Ou) Od Oe (kids_related t u S K) E1) as (E2 & O1 & O2 & G & R).
      destruct (CLOSE _ _ _ _ K E2) as (E3 & Hh). split; [auto|]. split; [auto|]. split; [auto|]. split; [auto|]. apply rel_node; auto.
  - intros ds k es b es1 ra rb HB L Ol Ok Od Oe F E. inversion F; subst. inversion HB; subst. cbn [app] in E. split; [auto|]. split; [auto|]. split; [auto|]. split; [apply grow_refl|constructor].
  - intros t l ds x ds1 y ds2 H1 IH1 H2 IH2 k es b es1 ra rb HB L Ol Ok Od Oe F E. inversion F as [|? u ? k' S F']; subst. inversion HB; subst. inversion Ol; subst. inversion Ok; subst. rewrite <- !app_assoc in E.
    match goal with A : WB u es _ _ |- _ => destruct (IH1 _ _ _ _ _ _ A L ltac:(assumption) ltac:(assumption) Od Oe S E) as (E2 & O1 & O2 & G & R) end.
    match goal with A : WLB k' _ _ _ |- _ => destruct (IH2 _ _ _ _ _ _ A (grow_len _ _ _ _ L G) ltac:(assumption) ltac:(assumption) O1 O2 F' E2) as (E3 & O3 & O4 & G2 & R2) end.
    split; [auto|]. split; [auto|]. split; [auto|]. split; [eapply grow_trans; eauto|]. constructor; [eapply grow_rel; eauto|auto].
Qed.
Lemma rel_shape ds es : (forall i, i < length ds -> entry ds es i) -> forall n t u, rel ds es t u -> shape false n e t = shape false n e' u.
Proof.
  intros EN. induction n as [|n IH]; intros t u H; cbn [shape]; auto.
  assert (Q : head t = head u /\ Forall2 (rel ds es) (kids e t) (kids e' u)).
  { destruct H as [i t u A B|t u A B]; [|auto]. apply (EN i); auto. apply nth_error_Some. congruence. }
  destruct Q as (-> & F). f_equal. induction F as [|x y l k R F IHF]; cbn [map]; [auto|]. f_equal; auto.
Qed.
End Two.
Theorem hash_separates e t e' u f g a d1 b e1 : names_ok e t -> names_ok e' u -> (forall n, alike n e t e' u) ->
  walk opening closing e f t [] = Ok (a, d1) -> walk opening closing e' g u [] = Ok (b, e1) -> a = b -> forall n, shape false n e t = shape false n e' u.
Proof.
  intros N1 N2 S HA HB -> n. destruct (walk_W opening closing e f t [] b d1) as (ds1 & _ & _ & A); [constructor|exact HA|]. destruct (walk_W opening closing e' g u [] b e1) as (es1 & _ & _ & B); [constructor|exact HB|].
  destruct (proj1 (two e e' t u N1 N2) _ _ _ _ A _ _ _ _ [] [] B) as (_ & _ & _ & G & R); auto; try constructor.
  destruct G as (x & y & -> & -> & L & EN). apply (rel_shape e e' _ _ (fun i Hi => EN i (conj (Nat.le_0_l i) Hi))); auto.
Qed.

(* ---- flat structs ---- *)
Lemma W_cons e t ds a ds1 : fixed t = true -> W opening closing e t ds a ds1 -> a <> [].
Proof.
  intros F H. inversion H; subst; [discriminate| |]; apply fixed_pair in F; destruct (head t); cbn [opening app]; congruence.
Qed.
Lemma flat_len e e' r r' : names_ok e r -> names_ok e' r' -> forall l ds a ds1, WL opening closing e l ds a ds1 -> forall k es b es1, WL opening closing e' k es b es1 -> length ds = length es ->
  Forall (occurs e r) l -> Forall (occurs e' r') k -> occ e r ds -> occ' e' r' es -> Forall (fun t => fixed t = true) l -> Forall (fun t => fixed t = true) k -> a = b -> length l = length k.
Proof.
  intros N1 N2. induction l as [|t l IH]; intros ds a ds1 HA [|u k] es b es1 HB L Ol Ok Od Oe Fl Fk E; auto.
  - exfalso. inversion HA; subst. inversion HB; subst. inversion Fk; subst. try match goal with H : [] = _ ++ _ |- _ => symmetry in H end. match goal with H : _ ++ _ = [] |- _ => apply app_eq_nil in H; destruct H as (H & _) end. subst. eapply W_cons; eauto.
  - exfalso. inversion HB; subst. inversion HA; subst. inversion Fl; subst. try match goal with H : [] = _ ++ _ |- _ => symmetry in H end. match goal with H : _ ++ _ = [] |- _ => apply app_eq_nil in H; destruct H as (H & _) end. subst. eapply W_cons; eauto.
  - inversion HA; subst. inversion HB; subst. inversion Ol; subst. inversion Ok; subst. inversion Fl; subst. inversion Fk; subst. cbn [length]. f_equal.
    match goal with A : W _ _ e t _ _ _, B : W _ _ e' u _ _ _, E : _ ++ _ = _ ++ _ |- _ =>
      destruct (proj1 (two e e' r r' N1 N2) _ _ _ _ A _ _ _ _ _ _ B L ltac:(assumption) ltac:(assumption) Od Oe (fixed_same e t e' u ltac:(assumption) ltac:(assumption)) (eq_sym E)) as (E2 & O1 & O2 & G & _) end.
    match goal with A : WL _ _ e l _ _ _, B : WL _ _ e' k _ _ _ |- _ => apply (IH _ _ _ A _ _ _ _ B); auto end. eapply grow_len; eauto.
Qed.
Theorem flat_separates e i e' j f g a d1 b e1 : names_ok e (CStruct i) -> names_ok e' (CStruct j) -> flat e i -> flat e' j ->
  walk opening closing e f (CStruct i) [] = Ok (a, d1) -> walk opening closing e' g (CStruct j) [] = Ok (b, e1) -> a = b -> forall n, shape false n e (CStruct i) = shape false n e' (CStruct j).
Proof.
  intros N1 N2 F1 F2 HA HB E. eapply hash_separates; eauto. subst b.
  destruct (walk_W opening closing e f (CStruct i) [] a d1) as (ds1 & _ & _ & A); [constructor|exact HA|]. destruct (walk_W opening closing e' g (CStruct j) [] a e1) as (es1 & _ & _ & B); [constructor|exact HB|].
  assert (L : length (kids e (CStruct i)) = length (kids e' (CStruct j))).
  { inversion A as [? ? n ? _ Q| |]; subst; [destruct n; discriminate| |discriminate]. inversion B; subst; try discriminate; try (match goal with H : nth_error [] ?n = _ |- _ => destruct n; discriminate end).
    match goal with E : _ ++ [] = _ ++ [] |- _ => rewrite !app_nil_r in E end. subst.
    match goal with A : WL _ _ e _ _ _ _, B : WL _ _ e' _ _ _ _ |- _ => eapply (flat_len e e' _ _ N1 N2 _ _ _ _ A _ _ _ _ B); auto end;
      try (repeat constructor; fail); try exact F1; try exact F2.
    - apply occ_kids; constructor.
    - apply occ_kids'; constructor. }
  intros [|n]; cbn [alike]; auto. right. split; [auto|]. split; [auto|]. revert F1 F2 L. unfold flat. cbn [kids]. generalize (s_fields (sget e i)) (s_fields (sget e' j)). clear.
  induction l as [|x l IH]; intros [|y k] F1 F2 L; try discriminate; constructor; inversion F1; inversion F2; subst.
  - apply fixed_same; auto.
  - apply IH; auto.
Qed.

(* ---- the walk ends ---- *)
Section Ends.
Variables (op cl : hd -> list tok) (e : env).
Notation walk := (walk op cl e).
Notation walks := (walks op cl e).
Lemma walks_cons f t l d : walks f (t :: l) d = let* '(x, d) := walk f t d in let* '(y, d) := walks f l d in Ok ((x ++ y)%list, d).
Proof. reflexivity. Qed.
Lemma walks_mono f g : (forall t d x, walk f t d = Ok x -> walk g t d = Ok x) -> forall l d x, walks f l d = Ok x -> walks g l d = Ok x.
Proof.
  intros H. induction l as [|t l IH]; intros d x E; [exact E|]. rewrite walks_cons in *. apply bind_ok in E. destruct E as ((y & d2) & E1 & E). apply bind_ok in E. destruct E as ((z & d3) & E2 & E).
  rewrite (H _ _ _ E1). cbn [bind]. rewrite (IH _ _ E2). exact E.
Qed.
Lemma walk_mono f : forall g t d x, f <= g -> walk f t d = Ok x -> walk g t d = Ok x.
Proof.
  induction f as [|f IH]; intros g t d x L E; [discriminate|]. destruct g as [|g]; [lia|]. rewrite walk_S in *. cbn zeta in *.
  assert (M : forall d x, (let* '(x, d) := walks f (kids e t) d in Ok ((op (head t) ++ x ++ cl (head t))%list, d)) = Ok x -> (let* '(x, d) := walks g (kids e t) d in Ok ((op (head t) ++ x ++ cl (head t))%list, d)) = Ok x).
  { clear - IH L. intros d x E. apply bind_ok in E. destruct E as ((y & d2) & E1 & E). rewrite (walks_mono f g) with (x := (y, d2)); auto. intros; apply IH; auto; lia. }
  destruct (tkey e t); [destruct (index_of p d 0); auto|auto].
Qed.
Definition skey (s : sdef) : string * N := (canonical (s_name s), s_size s).
Definition missing (d : list (string * N)) : nat := length (filter (fun s => negb (existsb (key_eqb (skey s)) d)) e).
Lemma filter_le {A} (p q : A -> bool) l : (forall x, p x = true -> q x = true) -> length (filter p l) <= length (filter q l).
Proof. intros H. induction l as [|x l IH]; cbn [filter]; auto. destruct (p x) eqn:P; [rewrite (H _ P); cbn; lia|]. destruct (q x); cbn; lia. Qed.
Lemma filter_lt {A} (p q : A -> bool) l x : (forall x, p x = true -> q x = true) -> In x l -> p x = false -> q x = true -> length (filter p l) < length (filter q l).
Proof.
  intros H I P Q. induction l as [|y l IH]; [contradiction|]. cbn [filter]. destruct I as [->|I].
  - rewrite P, Q. cbn. pose proof (filter_le p q l H). lia.
  - specialize (IH I). destruct (p y) eqn:Py; [rewrite (H _ Py); cbn; lia|]. destruct (q y); cbn; lia.
Qed.
Lemma missing_app d x : missing (d ++ x) <= missing d.
Proof. apply filter_le. intros s. rewrite existsb_app, negb_orb. intros H. apply andb_true_iff in H. tauto. Qed.
Lemma missing_new d i : i < length e -> ~ In (skey (sget e i)) d -> missing (d ++ [skey (sget e i)]) < missing d.
Proof.
  intros L H. apply (filter_lt _ _ _ (sget e i)).
  - intros s. rewrite existsb_app, negb_orb. intros Q. apply andb_true_iff in Q. tauto.
  - apply nth_In. auto.
  - rewrite existsb_app. cbn [existsb]. rewrite (proj2 (key_eqb_ok _ _) eq_refl). cbn. rewrite orb_true_r. auto.
  - destruct (existsb (key_eqb (skey (sget e i))) d) eqn:E; auto. exfalso. apply existsb_exists in E. destruct E as (k & I & K). apply key_eqb_ok in K. subst k. auto.
Qed.
Definition ends (d : list (string * N)) (t : cty) : Prop := exists f x y, walk f t d = Ok (x, (d ++ y)%list).
Lemma walks_end l : forall m d, missing d <= m -> (forall t d, In t l -> missing d <= m -> ends d t) -> exists f x y, walks f l d = Ok (x, (d ++ y)%list).
Proof.
  induction l as [|t l IH]; intros m d L H.
  - exists 0, [], []. rewrite app_nil_r. reflexivity.
  - destruct (H t d) as (f1 & x1 & y1 & E1); [left; auto|auto|]. destruct (IH m (d ++ y1)%list) as (f2 & x2 & y2 & E2); [pose proof (missing_app d y1); lia|intros; apply H; auto; right; auto|].
    exists (f1 + f2), (x1 ++ x2)%list, (y1 ++ y2)%list. rewrite walks_cons. rewrite (walk_mono f1 (f1 + f2) _ _ _ ltac:(lia) E1). cbn [bind].
    rewrite (walks_mono f2 (f1 + f2)) with (x := (x2, ((d ++ y1) ++ y2)%list)); [cbn [bind]; rewrite app_assoc; auto| |auto]. intros; apply (walk_mono f2); auto; lia.
Qed.
Fixpoint tsize (t : cty) : nat :=
  match t with
  | CInt _ _ _ | CScalar _ _ | CVoid _ _ | CStr _ | CStruct _ => 1
  | CPtr _ _ t | CArr _ t | CUn _ _ t | CStrong _ t | CDur _ t | CTime _ t => S (tsize t)
  | CVar ts | CTup ts => S ((fix go l := match l with [] => 0 | t :: l => tsize t + go l end) ts)
  | CPair a b => S (tsize a + tsize b)
  | CMm _ _ s t => S (S (tsize s) + S (tsize t))
  end.
Lemma in_size ts t : In t ts -> tsize t <= (fix go l := match l with [] => 0 | t :: l => tsize t + go l end) ts.
Proof. induction ts as [|x ts IH]; intros []; [subst; lia|]. specialize (IH H). lia. Qed.
Lemma kid_size t u : (forall i, t <> CStruct i) -> In u (kids e t) -> tsize u < tsize t.
Proof.
  intros N I. destruct t; cbn [kids tsize] in *; try contradiction; try (destruct I as [<-|[]]; lia).
  - exfalso. eapply N; reflexivity.
  - apply in_size in I. lia.
  - apply in_size in I. lia.
  - destruct I as [<-|[<-|[]]]; lia.
  - destruct I as [<-|[<-|[]]]; cbn [tsize]; lia.
Qed.
Lemma expand_ends t d d0 : (exists f x y, walks f (kids e t) d0 = Ok (x, (d0 ++ y)%list)) -> (exists z, d0 = (d ++ z)%list) ->
  exists f x y, (let* '(x, d) := walks f (kids e t) d0 in Ok ((op (head t) ++ x ++ cl (head t))%list, d)) = Ok (x, (d ++ y)%list).
Proof. intros (f & x & y & E) (z & ->). exists f. rewrite E. cbn [bind]. eexists. exists (z ++ y)%list. rewrite (app_assoc d). reflexivity. Qed.
Theorem walk_ends : forall m n d t, missing d <= m -> tsize t <= n -> ends d t.
Proof.
  induction m as [m IHm] using lt_wf_ind. induction n as [|n IHn]; intros d t Lm Ln; [destruct t; cbn [tsize] in Ln; lia|].
  destruct (tkey e t) as [k|] eqn:K.
  - destruct (index_of k d 0) as [i|] eqn:I.
    + exists 1, [Num i], []. rewrite walk_S. cbn zeta. rewrite K, I, app_nil_r. auto.
    + pose proof (index_ok k d 0) as NI. rewrite I in NI.
      assert (X : exists f x y, walks f (kids e t) (d ++ [k]) = Ok (x, ((d ++ [k]) ++ y)%list)).
      { destruct t; try discriminate; try (apply (walks_end _ m); [pose proof (missing_app d [k]); lia|intros u d' Iu L; apply IHn; auto; apply kid_size in Iu; [lia|congruence]]).
        injection K as <-. destruct (Nat.lt_ge_cases i (length e)) as [Hi|Hi].
        - pose proof (missing_new d i Hi NI) as L. eapply (walks_end _ (m - 1)); [unfold skey in L; lia|]. intros u d' _ L'. apply (IHm (m - 1)) with (n := tsize u); unfold skey in *; lia.
        - cbn [kids]. unfold sget. rewrite (nth_overflow _ _ Hi). cbn [s_fields]. exists 0, [], []. rewrite app_nil_r. reflexivity. }
      destruct (expand_ends t d (d ++ [k]) X) as (f & x & y & E); [exists [k]; auto|]. exists (S f), x, y. rewrite walk_S. cbn zeta. rewrite K, I. exact E.
  - assert (X : exists f x y, walks f (kids e t) d = Ok (x, (d ++ y)%list)).
    { apply (walks_end _ m); auto. intros u d' Iu L. apply IHn; auto. apply kid_size in Iu; [lia|intros i ->; discriminate]. }
    destruct (expand_ends t d d X) as (f & x & y & E); [exists []; rewrite app_nil_r; auto|]. exists (S f), x, y. rewrite walk_S. cbn zeta. rewrite K. exact E.
Qed.
End Ends.
Theorem hash_total e t : exists f, forall g, f <= g -> exists h h', type_hash f e t = Ok h /\ type_hash g e t = Ok h /\ static_type_hash g e t = Ok h'.
Proof.
  destruct (walk_ends opening closing e (missing e []) (tsize t) [] t) as (f1 & x1 & y1 & E1); auto. destruct (walk_ends static_opening static_closing e (missing e []) (tsize t) [] t) as (f2 & x2 & y2 & E2); auto.
  exists (f1 + f2). intros g L. unfold type_hash, static_type_hash.
  rewrite (walk_mono _ _ _ f1 (f1 + f2) _ _ _ ltac:(lia) E1), (walk_mono _ _ _ f1 g _ _ _ ltac:(lia) E1), (walk_mono _ _ _ f2 g _ _ _ ltac:(lia) E2). cbn [bind]. eauto.
Qed.
