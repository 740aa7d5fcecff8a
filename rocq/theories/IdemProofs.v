(* Serializing what was deserialized gives the same bytes again. *)
From Verif Require Import Base Bytes HeaderModel HeaderSpec HeaderProofs HashModel SerialModel SerialSpec SerialMem SerialPost SerialTop SerialFinal
  TwinSpec TwinProofs IdemSpec.
Local Open Scope Z_scope.

Lemma Forall2_app_len {X Y} (P : X -> Y -> Prop) l1 : forall l2 k1 k2, length l1 = length l2 -> Forall2 P (l1 ++ k1) (l2 ++ k2) -> Forall2 P l1 l2 /\ Forall2 P k1 k2.
Proof.
  induction l1 as [|x l1 IH]; intros [|y l2] k1 k2 L H; try discriminate; [split; [constructor|exact H]|].
  cbn in H. inversion H; subst. destruct (IH l2 k1 k2 ltac:(cbn in L; lia) ltac:(assumption)). split; [constructor|]; assumption.
Qed.
Lemma mapM_len {X Y} (g : X -> option (Y * list ev)) l : forall xs tr, mapM g l = Some (xs, tr) -> length xs = length l.
Proof.
  induction l as [|x l IH]; intros xs tr H; cbn [mapM] in H; [injection H as <- _; reflexivity|].
  destruct (g x) as [[y t]|]; [|discriminate]. destruct (mapM g l) as [[ys ts]|]; [|discriminate]. injection H as <- _. cbn. f_equal. eapply IH. reflexivity.
Qed.

(* ---------------- two readings of the same contents ---------------- *)
Section Two.
Variables (env : list ty) (A : Z).
Hypothesis Henv : Forall (wf A) env.
Variables (be1 be2 rel1 rel2 : bool) (m1 m2 : mem) (ck2 : option (Z * Z)) (tab1 tab2 : N -> N -> N -> list N -> bool).
Variable blocks : list (Z * Z * Z).
Let s1 := Side be1 rel1 m1.
Let s2 := Side be2 rel2 m2.
Let R1 := plain be1 m1 rel1 None tab1.
Let R2 := plain be2 m2 rel2 ck2 tab2.
Notation corr := (corr blocks).
Notation same_ptr := (same_ptr blocks).
Notation stray1 := (stray1 blocks).
Notation stray2 := (stray2 blocks).

Definition ptr_ok (x y : Z * option Z * Z * Z) : Prop := same_ptr (snd (fst (fst x))) (snd (fst (fst y))).
Definition blk_ok (x y : blk) : Prop := match x, y with (ix, a, n, _), (_, a', _, _) => if ix then corr a a' n else corr a a' 0 end.
Record cond (t1 t2 : list ev) : Prop := {
  c_ptr : Forall2 ptr_ok (ptrs t1) (ptrs t2);
  c_blk : Forall2 blk_ok (blks t1) (blks t2);
  c_res1 : forall q, In (Res q) t1 -> stray1 q;
  c_res2 : forall q, In (Res q) t2 -> stray2 q }.
Definition shape (t1 t2 : list ev) : Prop := length (ptrs t1) = length (ptrs t2) /\ length (blks t1) = length (blks t2).

Lemma shape_app t1 t2 u1 u2 : shape t1 t2 -> shape u1 u2 -> shape (t1 ++ u1) (t2 ++ u2).
Proof. unfold shape, ptrs, blks. rewrite !flat_map_app, !app_length. lia. Qed.
Lemma cond_app t1 t2 u1 u2 : shape t1 t2 -> cond (t1 ++ u1) (t2 ++ u2) -> cond t1 t2 /\ cond u1 u2.
Proof.
  intros [L1 L2] [P B X Y]. unfold ptrs, blks in *. rewrite !flat_map_app in P, B.
  destruct (Forall2_app_len _ _ _ _ _ L1 P), (Forall2_app_len _ _ _ _ _ L2 B).
  split; split; try assumption; intros q I; [apply X|apply Y|apply X|apply Y]; apply in_or_app; auto.
Qed.
Definition quiet (l : list ev) : Prop := forall e, In e l -> match e with Rd _ _ => True | _ => False end.
Lemma quiet_none l : quiet l -> ptrs l = [] /\ blks l = [].
Proof.
  intros Q. induction l as [|e l IH]; [split; reflexivity|]. destruct IH as [P B]; [intros x I; apply Q; right; exact I|].
  pose proof (Q e (or_introl eq_refl)) as K. destruct e; try contradiction. cbn. auto.
Qed.
Lemma quiet_shape l1 l2 : quiet l1 -> quiet l2 -> shape l1 l2.
Proof. intros Q1 Q2. destruct (quiet_none _ Q1) as [E1 E2], (quiet_none _ Q2) as [E3 E4]. unfold shape. rewrite E1, E2, E3, E4. auto. Qed.

Lemma both {X} (g1 g2 : X -> option (val * list ev)) (Q : X -> Prop) : forall l xs t1 t2,
  (forall x v u1 u2, In x l -> g1 x = Some (v, u1) -> g2 x = Some (v, u2) -> shape u1 u2 /\ (cond u1 u2 -> Q x)) ->
  mapM g1 l = Some (xs, t1) -> mapM g2 l = Some (xs, t2) -> shape t1 t2 /\ (cond t1 t2 -> forall x, In x l -> Q x).
Proof.
  induction l as [|x l IH]; intros xs t1 t2 K H1 H2; cbn [mapM] in H1, H2.
  - injection H1 as <- <-. injection H2 as <-. split; [split; reflexivity|]. intros _ x [].
  - destruct (g1 x) as [[y1 u1]|] eqn:E1; [|discriminate]. destruct (mapM g1 l) as [[ys1 v1]|] eqn:F1; [|discriminate].
    destruct (g2 x) as [[y2 u2]|] eqn:E2; [|discriminate]. destruct (mapM g2 l) as [[ys2 v2]|] eqn:F2; [|discriminate].
    injection H1 as <- <-. injection H2 as -> -> <-.
    destruct (K x _ _ _ (or_introl eq_refl) E1 E2) as [Sx Qx]. destruct (IH _ _ _ (fun z v a b I => K z v a b (or_intror I)) eq_refl eq_refl) as [Sl Ql].
    split; [apply shape_app; assumption|]. intros C. apply cond_app in C as [C1 C2]; [|exact Sx]. intros z [<-|I]; auto.
Qed.
Lemma both_opt {X} (g1 g2 : X -> option (option val * list ev)) (Q : X -> Prop) : forall l xs t1 t2,
  (forall x v u1 u2, In x l -> g1 x = Some (v, u1) -> g2 x = Some (v, u2) -> shape u1 u2 /\ (cond u1 u2 -> Q x)) ->
  mapM g1 l = Some (xs, t1) -> mapM g2 l = Some (xs, t2) -> shape t1 t2 /\ (cond t1 t2 -> forall x, In x l -> Q x).
Proof.
  induction l as [|x l IH]; intros xs t1 t2 K H1 H2; cbn [mapM] in H1, H2.
  - injection H1 as <- <-. injection H2 as <-. split; [split; reflexivity|]. intros _ x [].
  - destruct (g1 x) as [[y1 u1]|] eqn:E1; [|discriminate]. destruct (mapM g1 l) as [[ys1 v1]|] eqn:F1; [|discriminate].
    destruct (g2 x) as [[y2 u2]|] eqn:E2; [|discriminate]. destruct (mapM g2 l) as [[ys2 v2]|] eqn:F2; [|discriminate].
    injection H1 as <- <-. injection H2 as -> -> <-.
    destruct (K x _ _ _ (or_introl eq_refl) E1 E2) as [Sx Qx]. destruct (IH _ _ _ (fun z v a b I => K z v a b (or_intror I)) eq_refl eq_refl) as [Sl Ql].
    split; [apply shape_app; assumption|]. intros C. apply cond_app in C as [C1 C2]; [|exact Sx]. intros z [<-|I]; auto.
Qed.

Lemma wf_size t : wf A t -> 0 <= size_of t.
Proof. apply size_nonneg. Qed.
Lemma free_in s f : forall t a k, wf A t -> free s f t a k -> 0 <= k < size_of t.
Proof.
  induction f as [|f IH]; intros t a k W F; [destruct F|]. destruct t as [w|w|n|fs sz al|t off sz al|ts off sz al|n|w ix n| | |n]; cbn [free size_of] in *; try lia.
  - destruct F as (o & t & I & F). inversion W as [| | |? ? ? _ _ _ Wf _| | | | | | |]; subst. destruct (Wf o t I) as (Wt & No & Le & _). apply IH in F; [lia|exact Wt].
  - inversion W; subst. destruct (int_at s a 1) as [[|]|]; try contradiction. apply IH in F; [lia|assumption].
  - inversion W as [| | | | |? ? ? ? _ _ No Nz _ Wf| | | | |]; subst. destruct (int_at s a 1) as [i|]; [|contradiction]. destruct F as [F|F]; [lia|].
    destruct (nth_error ts (N.to_nat i)) as [t|] eqn:E; [|contradiction]. destruct (Wf t) as (Wt & Le & _); [eapply nth_error_In; exact E|]. apply IH in F; [lia|exact Wt].
  - destruct (int_at s a 1) as [[|]|]; try contradiction. lia.
  - destruct (int_at s (a + 15) 1) as [r|]; [|contradiction]. lia.
Qed.

Lemma int_byte s a b : d_mem s a = Some b -> int_at s a 1 = Some b.
Proof. intros E. unfold int_at. cbn [rdn]. rewrite E. unfold to_int. destruct (d_be s); cbn [rev app le_dec]; f_equal; lia. Qed.
Lemma byte_int s a b : int_at s a 1 = Some b -> d_mem s a = Some b.
Proof.
  unfold int_at. cbn [rdn]. destruct (d_mem s a) as [x|]; [|discriminate]. unfold to_int. intros [= <-]. f_equal. destruct (d_be s); cbn [rev app le_dec]; lia.
Qed.
Lemma same_byte a1 a2 n (F : Z -> Prop) k b1 b2 : same_but s1 s2 a1 a2 n F -> 0 <= k < n -> ~ F k ->
  int_at s1 (a1 + k) 1 = Some b1 -> int_at s2 (a2 + k) 1 = Some b2 -> b1 = b2.
Proof. intros S K NF I1 I2. destruct (S k K) as (x & y & X & Y & [E|E]); [contradiction|]. apply byte_int in I1, I2. congruence. Qed.
(* part of an object *)
Lemma same_part a1 a2 n (F G : Z -> Prop) o k : same_but s1 s2 a1 a2 n F -> 0 <= o -> o + k <= n -> (forall j, 0 <= j < k -> F (o + j) -> G j) ->
  same_but s1 s2 (a1 + o) (a2 + o) k G.
Proof.
  intros S No Le K j J. destruct (S (o + j)) as (x & y & X & Y & E); [lia|]. exists x, y.
  replace (a1 + o + j) with (a1 + (o + j)) by lia. replace (a2 + o + j) with (a2 + (o + j)) by lia. split; [exact X|]. split; [exact Y|].
  destruct E as [E|E]; [left; apply K; assumption|right; exact E].
Qed.

Lemma zero_quiet a z : zero_at R2 a = Some z -> quiet z.
Proof.
  unfold zero_at. destruct (r_ck R2) as [|]; [|intros [= <-] e []].
  destruct (rint R2 a 1); [|discriminate]. destruct (_ =? _)%N; [|discriminate]. intros [= <-] e [<-|[]]. exact I.
Qed.

Lemma dec_twin : forall f t a1 a2 v t1 t2, wf A t -> dec env R1 f t a1 = Some (v, t1) -> dec env R2 f t a2 = Some (v, t2) ->
  shape t1 t2 /\ (cond t1 t2 -> same_padding env s1 s2 f t a1 a2 -> twin env s1 s2 blocks f t a1 a2).
Proof.
  induction f as [|f IH]; intros t a1 a2 v t1 t2 W D1 D2; [discriminate D1|].
  cbn [dec] in D1, D2.
  destruct (_ && _) eqn:G1 in D1; [clear G1|discriminate]. destruct (_ && _) eqn:G2 in D2; [clear G2|discriminate].
  destruct t as [w|w|n|fs sz al|t off sz al|ts off sz al|n|w ix n| | |n].
  - destruct (rint R1 a1 w) as [x|] eqn:X1; [|discriminate]. destruct (rint R2 a2 w) as [y|] eqn:X2; [|discriminate].
    injection D1 as <- <-. injection D2 as -> <-. split; [apply quiet_shape; intros e [<-|[]]; exact I|].
    intros _ _. exists x. split; [exact X1|exact X2].
  - destruct (rdn (r_mem R1) a1 w) as [x|] eqn:X1; [|discriminate]. destruct (rdn (r_mem R2) a2 w) as [y|] eqn:X2; [|discriminate].
    injection D1 as <- <-. injection D2 as -> <-. split; [apply quiet_shape; intros e [<-|[]]; exact I|].
    intros _ _. exists x. split; [exact X1|exact X2].
  - cbv zeta in D1, D2.
    destruct (r_ptr R1 a1) as [p1|] eqn:X1; [|discriminate]. destruct (match p1 with None => _ | _ => _ end); [|discriminate].
    destruct (r_ptr R2 a2) as [p2|] eqn:X2; [|discriminate]. destruct (match p2 with None => _ | _ => _ end); [|discriminate].
    injection D1 as <- <-. injection D2 as <-. split; [split; reflexivity|]. intros [P _ _ _] _. exists p1, p2.
    assert (Y1 : ptr_at s1 a1 = Some p1).
    { cbn [R1 plain r_ptr] in X1. unfold ptr_at, int_at. cbn [s1 d_mem d_be d_rel]. destruct (rdn m1 a1 8); [|discriminate]. exact X1. }
    assert (Y2 : ptr_at s2 a2 = Some p2).
    { cbn [R2 plain r_ptr] in X2. unfold ptr_at, int_at. cbn [s2 d_mem d_be d_rel]. destruct (rdn m2 a2 8); [|discriminate]. exact X2. }
    split; [exact Y1|]. split; [exact Y2|]. cbn in P. inversion P; subst. assumption.
  - destruct (mapM _ fs) as [[vs u1]|] eqn:X1 in D1; [|discriminate]. destruct (mapM _ fs) as [[vs2 u2]|] eqn:X2 in D2; [|discriminate].
    injection D1 as <- <-. injection D2 as -> <-. inversion W as [| | |? ? ? _ _ _ Wf Ap| | | | | | |]; subst.
    destruct (both _ _ (fun ft => same_padding env s1 s2 f (snd ft) (a1 + fst ft) (a2 + fst ft) -> twin env s1 s2 blocks f (snd ft) (a1 + fst ft) (a2 + fst ft)) _ _ _ _
                (fun ft v x1 x2 I E1 E2 => IH (snd ft) _ _ v x1 x2 (proj1 (Wf (fst ft) (snd ft) ltac:(destruct ft; exact I))) E1 E2) X1 X2) as [Sh Q].
    split; [exact Sh|]. intros C [B P] o t I. apply (Q C (o, t) I). cbn [fst snd]. destruct (Wf o t I) as (Wt & No & Le & _).
    split; [|apply P; exact I]. eapply same_part; [exact B|exact No|exact Le|]. cbn [free size_of]. intros j J (o' & t' & I' & F).
    replace (o + j - o') with (o - o' + j) in F by lia.
    destruct (ForallOrdPairs_In Ap _ _ I I') as [E|[E|E]]; cbn [fst snd] in *.
    + injection E as -> ->. replace (o' - o' + j) with j in F by lia. exact F.
    + exfalso. apply (free_in _ _ _ _ _ (proj1 (Wf o' t' I'))) in F. unfold apart in E. lia.
    + exfalso. apply (free_in _ _ _ _ _ (proj1 (Wf o' t' I'))) in F. unfold apart in E. lia.
  - destruct (rint R1 a1 1) as [b1|] eqn:X1; [|discriminate]. destruct (rint R2 a2 1) as [b2|] eqn:X2; [|discriminate]. inversion W; subst.
    destruct (N.eqb_spec b1 0) as [->|E1].
    { injection D1 as <- <-. destruct (N.eqb_spec b2 0) as [->|E2].
      - injection D2 as <-. split; [apply quiet_shape; intros e [<-|[]]; exact I|]. intros _ _. exists 0%N. split; [split; assumption|]. intros []; reflexivity.
      - destruct (b2 =? 1)%N; [|discriminate]. destruct (dec env R2 f t (a2 + off)) as [[? ?]|]; discriminate D2. }
    destruct (N.eqb_spec b1 1) as [->|]; [|discriminate]. destruct (dec env R1 f t (a1 + off)) as [[v1 u1]|] eqn:K1; [|discriminate]. injection D1 as <- <-.
    destruct (N.eqb_spec b2 0) as [->|E2]; [discriminate|]. destruct (N.eqb_spec b2 1) as [->|]; [|discriminate].
    destruct (dec env R2 f t (a2 + off)) as [[v2 u2]|] eqn:K2; [|discriminate]. injection D2 as -> <-.
    match goal with Wt : wf A t |- _ => destruct (IH _ _ _ _ _ _ Wt K1 K2) as [Sh Q] end. split; [apply (shape_app [Rd a1 1] [Rd a2 1]); [split; reflexivity|exact Sh]|].
    intros C [B P]. apply (cond_app [Rd a1 1] [Rd a2 1]) in C as [_ C]; [|split; reflexivity].
    exists 1%N. split; [split; assumption|]. intros _. apply Q; [exact C|]. cbn [pads] in P. split; [|apply (P 1%N); [exact X1|discriminate]].
    eapply same_part; [exact B|lia|cbn [size_of]; lia|]. cbn [free]. change (int_at s1 a1 1) with (rint R1 a1 1). rewrite X1. intros j J F.
    replace (off + j - off) with j in F by lia. exact F.
  - destruct (rint R1 a1 1) as [i1|] eqn:X1; [|discriminate]. destruct (rint R2 a2 1) as [i2|] eqn:X2; [|discriminate].
    inversion W as [| | | | |? ? ? ? _ _ No _ _ Wf| | | | |]; subst.
    destruct (nth_error ts (N.to_nat i1)) as [t|] eqn:T1; [|discriminate]. destruct (nth_error ts (N.to_nat i2)) as [t'|] eqn:T2; [|discriminate].
    destruct (dec env R1 f t (a1 + off)) as [[v1 u1]|] eqn:K1; [|discriminate]. injection D1 as <- <-.
    destruct (dec env R2 f t' (a2 + off)) as [[v2 u2]|] eqn:K2; [|discriminate]. injection D2 as -> -> <-.
    rewrite T1 in T2. injection T2 as <-. destruct (Wf t) as (Wt & Le & _); [eapply nth_error_In; exact T1|].
    destruct (IH _ _ _ _ _ _ Wt K1 K2) as [Sh Q]. split; [apply (shape_app [Rd a1 1] [Rd a2 1]); [split; reflexivity|exact Sh]|].
    intros C [B P]. apply (cond_app [Rd a1 1] [Rd a2 1]) in C as [_ C]; [|split; reflexivity].
    exists i1. split; [split; assumption|]. rewrite T1. intros ? [= <-]. apply Q; [exact C|]. cbn [pads] in P. split; [|apply (P i1); [exact X1|exact T1]].
    eapply same_part; [exact B|lia|cbn [size_of]; lia|]. cbn [free]. change (int_at s1 a1 1) with (rint R1 a1 1). rewrite X1, T1. intros j J [F|F]; [lia|].
    replace (off + j - off) with j in F by lia. exact F.
  - cbv zeta in D1, D2. cbn [R1 R2 plain r_rel] in D1, D2. fold R1 in D1. fold R2 in D2.
    destruct (rptr R1 rel1 a1) as [p1|] eqn:X1; [|discriminate]. cbn [zero_at R1 plain r_ck] in D1. fold R1 in D1.
    destruct (rptr R2 rel2 a2) as [p2|] eqn:X2; [|discriminate]. destruct (zero_at R2 (a2 + 8)) as [z|] eqn:Z; [|discriminate]. apply zero_quiet in Z.
    destruct p1 as [q1|].
    2: { injection D1 as <- <-. destruct p2 as [q2|]; [destruct (dec env R2 f (tyof env n) q2) as [[? ?]|]; discriminate D2|]. injection D2 as <-.
         split; [apply quiet_shape; intros e; [intros [<-|[]]|intros [<-|J]; [|apply Z; exact J]]; exact I|]. intros _ _. left. split; assumption. }
    destruct (dec env R1 f (tyof env n) q1) as [[v1 u1]|] eqn:K1; [|discriminate]. injection D1 as <- <-.
    destruct p2 as [q2|]; [|discriminate]. destruct (dec env R2 f (tyof env n) q2) as [[v2 u2]|] eqn:K2; [|discriminate]. injection D2 as -> <-.
    destruct (IH _ _ _ _ _ _ (tyof_wf env A Henv n) K1 K2) as [Sh Q].
    assert (S1 : shape [Rd a1 8] (Rd a2 8 :: z)).
    { apply quiet_shape; intros e; [intros [<-|[]]|intros [<-|J]; [|apply Z; exact J]]; exact I. }
    set (bl1 := Blk false q1 _ _). set (bl2 := Blk false q2 _ _).
    split.
    { apply (shape_app [Rd a1 8] (Rd a2 8 :: z) (bl1 :: u1) (bl2 :: u2)); [exact S1|]. apply (shape_app [bl1] [bl2]); [split; reflexivity|exact Sh]. }
    intros C [B P]. apply (cond_app [Rd a1 8] (Rd a2 8 :: z) (bl1 :: u1) (bl2 :: u2)) in C as [_ C]; [|exact S1].
    apply (cond_app [bl1] [bl2]) in C as [Cb C]; [|split; reflexivity].
    destruct (P q1 q2 X1 X2) as [Bq Pq]. right. exists q1, q2. split; [exact X1|]. split; [exact X2|]. split; [|split; [exact Bq|apply Q; [exact C|split; assumption]]].
    pose proof (c_blk _ _ Cb) as K. cbn in K. inversion K; subst. assumption.
  - cbv zeta in D1, D2. cbn [R1 R2 plain r_rel r_ck] in D1, D2. fold R1 in D1. fold R2 in D2. set (T := tyof env n) in *.
    destruct (rptr R1 rel1 a1) as [p1|] eqn:X1; [|discriminate]. destruct (rint R1 (a1 + 8) w) as [used|] eqn:U1; [|discriminate].
    rewrite N.eqb_refl in D1. cbn [zero_at R1 plain r_ck] in D1. fold R1 in D1.
    destruct (rptr R2 rel2 a2) as [p2|] eqn:X2; [|discriminate]. destruct (rint R2 (a2 + 8) w) as [used2|] eqn:U2; [|discriminate].
    match type of D2 with match ?x with _ => _ end = _ => destruct x as [alloc|]; [|discriminate] end.
    destruct (alloc =? used2)%N; [|discriminate]. destruct (zero_at R2 _) as [z|] eqn:Z; [|discriminate]. apply zero_quiet in Z.
    set (own1 := Rd a1 8 :: Rd (a1 + 8) (Z.of_nat w) :: [] ++ []) in D1.
    match type of D2 with context [?l ++ (match p2 with _ => _ end)] => set (own2 := l) in D2 end.
    assert (Q1 : quiet own1) by (intros e [<-|[<-|[]]]; exact I).
    assert (Q2 : quiet own2).
    { intros e [<-|[<-|J]]; [exact I|exact I|]. apply in_app_or in J as [J|J]; [|apply Z; exact J]. destruct ck2; [destruct J as [<-|[]]; exact I|destruct J]. }
    destruct (N.eqb_spec used 0) as [->|Nu].
    + destruct (strict R1 _) eqn:S1; [|discriminate]. apply some_pair in D1 as [<- <-].
      destruct (N.eqb_spec used2 0) as [->|Nu2].
      2: { exfalso. destruct p2 as [q2|]; [|discriminate]. destruct (inside _ _ _ _); [|discriminate].
           match type of D2 with match mapM ?g ?l with _ => _ end = _ => destruct (mapM g l) as [[vs tr]|] eqn:M; [|discriminate] end.
           injection D2 as -> _. apply mapM_len in M. rewrite seq_length in M. cbn in M. lia. }
      destruct (strict R2 _); [|discriminate]. apply some_pair in D2 as [_ <-].
      match goal with |- shape (_ ++ ?l1) (_ ++ ?l2) /\ _ => assert (Sr : shape l1 l2) by (split; destruct p1, p2, ix; reflexivity) end.
      split; [apply shape_app; [apply quiet_shape; assumption|exact Sr]|].
      intros C [B P]. apply cond_app in C as [_ [_ _ C1 C2]]; [|apply quiet_shape; assumption].
      exists p1, p2, 0%N. split; [exact X1|]. split; [exact X2|]. split; [split; assumption|]. left. split; [reflexivity|].
      split; intros q -> ->; [apply C1|apply C2]; left; reflexivity.
    + destruct p1 as [q1|]; [|discriminate]. destruct (inside R1 _ _ _); [|discriminate].
      match type of D1 with match mapM ?g ?l with _ => _ end = _ => destruct (mapM g l) as [[vs u1]|] eqn:K1; [|discriminate] end. apply some_pair in D1 as [<- <-].
      pose proof (mapM_len _ _ _ _ K1) as L1. rewrite seq_length in L1.
      destruct (N.eqb_spec used2 0) as [->|Nu2].
      { exfalso. destruct (strict R2 _); [|discriminate]. injection D2 as E _. subst vs. cbn in L1. lia. }
      destruct p2 as [q2|]; [|discriminate]. destruct (inside R2 _ _ _); [|discriminate].
      match type of D2 with match mapM ?g ?l with _ => _ end = _ => destruct (mapM g l) as [[vs2 u2]|] eqn:K2; [|discriminate] end. apply some_pair in D2 as [D2 <-]; injection D2 as ->.
      pose proof (mapM_len _ _ _ _ K2) as L2. rewrite seq_length in L2. assert (used2 = used) by lia. subst used2.
      destruct (both _ _ (fun i => same_padding env s1 s2 f T (q1 + Z.of_nat i * size_of T) (q2 + Z.of_nat i * size_of T) -> twin env s1 s2 blocks f T (q1 + Z.of_nat i * size_of T) (q2 + Z.of_nat i * size_of T)) _ _ _ _
                (fun i v x1 x2 _ E1 E2 => IH T _ _ v x1 x2 (tyof_wf env A Henv n) E1 E2) K1 K2) as [Sh Q].
      set (bl1 := if ix then [Blk true q1 _ _] else []). set (bl2 := if ix then [Blk true q2 _ _] else []).
      assert (Sb : shape bl1 bl2) by (unfold bl1, bl2; destruct ix; split; reflexivity).
      split; [apply shape_app; [apply quiet_shape; assumption|apply shape_app; assumption]|].
      intros C [B P]. apply cond_app in C as [_ C]; [|apply quiet_shape; assumption]. apply cond_app in C as [Cb C]; [|exact Sb].
      destruct (P q1 q2 used X1 X2 U1 Nu) as [Bq Pq]. fold T in Bq, Pq.
      exists (Some q1), (Some q2), used. split; [exact X1|]. split; [exact X2|]. split; [split; assumption|]. right. exists q1, q2.
      split; [reflexivity|]. split; [reflexivity|]. split; [exact Nu|]. split; [|split; [exact Bq|]].
      * intros ->. pose proof (c_blk _ _ Cb) as K. cbn in K. inversion K; subst. assumption.
      * intros i Hi. apply (Q C i); [apply in_seq; lia|]. split; [|apply Pq; exact Hi].
        pose proof (wf_size _ (tyof_wf env A Henv n)) as Nz. fold T in Nz.
        eapply same_part; [exact Bq|nia|nia|]. cbv beta. intros j J (i' & Hi' & F).
        destruct (Nat.eq_dec i' i) as [->|Ne]; [replace (Z.of_nat i * size_of T + j - Z.of_nat i * size_of T) with j in F by lia; exact F|].
        exfalso. apply (free_in _ _ _ _ _ (tyof_wf env A Henv n)) in F. fold T in F. nia.
  - destruct (rint R1 a1 1) as [b1|] eqn:X1; [|discriminate]. destruct (rint R2 a2 1) as [b2|] eqn:X2; [|discriminate].
    assert (Eb : same_padding env s1 s2 (S f) TStr a1 a2 -> b1 = b2).
    { intros [B _]. eapply (same_byte a1 a2 _ _ 0 b1 b2 B); [cbn; lia| |rewrite Z.add_0_r; exact X1|rewrite Z.add_0_r; exact X2].
      cbn [free]. change (int_at s1 a1 1) with (rint R1 a1 1). rewrite X1. destruct b1; [lia|tauto]. }
    destruct (negb (b1 =? 0)%N) eqn:N1.
    { assert (Sh : shape t1 t2).
      { destruct (b1 =? 1)%N; [|discriminate]. destruct (rdn (r_mem R1) (a1 + 1) 15); [|discriminate]. apply some_pair in D1 as [<- <-].
        destruct (negb (b2 =? 0)%N).
        - destruct (b2 =? 1)%N; [|discriminate]. destruct (rdn (r_mem R2) (a2 + 1) 15); [|discriminate]. injection D2 as _ <-. split; reflexivity.
        - destruct (rptr _ _ _) as [p|]; [|discriminate]. destruct (rint R2 (a2 + 4) 4); [|discriminate]. destruct (zero_at R2 _) as [z|] eqn:Z; [|discriminate].
          apply zero_quiet in Z. apply quiet_shape; [intros e [<-|[<-|[]]]; exact I|].
          destruct p as [q|]; [destruct (_ && _) in D2; [|discriminate]; destruct (rdn (r_mem R2) q _); [|discriminate]; injection D2 as _ <-|destruct (_ =? _)%N in D2; [|discriminate]; injection D2 as _ <-];
            intros e J.
          + repeat (destruct J as [<-|J]; [exact I|]). apply in_app_or in J as [J|[<-|[]]]; [apply Z; exact J|exact I].
          + repeat (destruct J as [<-|J]; [exact I|]). apply Z. exact J. }
      split; [exact Sh|]. intros _ P. specialize (Eb P). subst b2. exists b1. split; [split; assumption|]. left. destruct (N.eqb_spec b1 0); [discriminate|assumption]. }
    destruct (N.eqb_spec b1 0) as [->|]; [|discriminate]. clear N1.
    cbv zeta in D1, D2. cbn [R1 R2 plain r_rel r_ck] in D1, D2. fold R1 in D1. fold R2 in D2.
    destruct (rptr R1 rel1 (a1 + 8)) as [p1|] eqn:P1; [|discriminate]. destruct (rint R1 (a1 + 4) 4) as [n1|] eqn:Z1; [|discriminate].
    cbn [zero_at R1 plain r_ck] in D1. fold R1 in D1.
    assert (Qt1 : quiet t1).
    { destruct p1 as [q|]; [destruct (_ && _) in D1; [|discriminate]; destruct (rdn (r_mem R1) q _); [|discriminate]; injection D1 as _ <-|destruct (_ =? _)%N in D1; [|discriminate]; injection D1 as _ <-];
        intros e J; repeat (destruct J as [<-|J]; [exact I|]); destruct J. }
    destruct (N.eqb_spec b2 0) as [->|Nb2]; cbn [negb] in D2.
    2: { split; [|intros _ P; specialize (Eb P); congruence]. apply quiet_shape; [exact Qt1|]. destruct (b2 =? 1)%N; [|discriminate].
         destruct (rdn (r_mem R2) (a2 + 1) 15); [|discriminate]. injection D2 as _ <-. intros e [<-|[<-|[]]]; exact I. }
    destruct (rptr R2 rel2 (a2 + 8)) as [p2|] eqn:P2; [|discriminate]. destruct (rint R2 (a2 + 4) 4) as [n2|] eqn:Z2; [|discriminate].
    destruct (zero_at R2 _) as [z|] eqn:Z; [|discriminate]. apply zero_quiet in Z.
    split.
    { apply quiet_shape; [exact Qt1|].
      destruct p2 as [q|]; [destruct (_ && _) in D2; [|discriminate]; destruct (rdn (r_mem R2) q _); [|discriminate]; injection D2 as _ <-|destruct (_ =? _)%N in D2; [|discriminate]; injection D2 as _ <-];
            intros e J.
      + repeat (destruct J as [<-|J]; [exact I|]). apply in_app_or in J as [J|[<-|[]]]; [apply Z; exact J|exact I].
      + repeat (destruct J as [<-|J]; [exact I|]). apply Z. exact J. }
    intros _ _. exists 0%N. split; [split; assumption|]. right.
    destruct p1 as [q1|], p2 as [q2|].
    + destruct (_ && _) in D1; [|discriminate]. destruct (rdn (r_mem R1) q1 _) as [l1|] eqn:K1; [|discriminate].
      destruct (_ && _) in D2; [|discriminate]. destruct (rdn (r_mem R2) q2 _) as [l2|] eqn:K2; [|discriminate].
      injection D1 as <- _. injection D2 as -> _. pose proof (rdn_length _ _ _ _ K1). pose proof (rdn_length _ _ _ _ K2). assert (n2 = n1) by lia. subst n2.
      exists (Some q1), (Some q2), n1. split; [exact P1|]. split; [exact P2|]. split; [split; assumption|]. exists l1. split; assumption.
    + exfalso. destruct (negb (n1 =? 0)%N && _) eqn:N1; [|discriminate]. destruct (rdn (r_mem R1) q1 _) as [l1|] eqn:K1; [|discriminate]. injection D1 as <- _.
      destruct (_ =? _)%N in D2; [|discriminate]. injection D2 as E _. pose proof (rdn_length _ _ _ _ K1). subst l1. cbn in *. lia.
    + exfalso. destruct (negb (n2 =? 0)%N && _) eqn:N2; [|discriminate]. destruct (rdn (r_mem R2) q2 _) as [l2|] eqn:K2; [|discriminate].
      destruct (_ =? _)%N in D1; [|discriminate]. injection D1 as <- _. injection D2 as -> _. pose proof (rdn_length _ _ _ _ K2). cbn in *. lia.
    + destruct (N.eqb_spec n1 0) as [->|]; [|discriminate]. destruct (N.eqb_spec n2 0) as [->|]; [|discriminate].
      exists None, None, 0%N. split; [exact P1|]. split; [exact P2|]. split; [split; assumption|exact I].
  - destruct (rint R1 (a1 + 15) 1) as [r1|] eqn:X1; [|discriminate]. destruct (rint R2 (a2 + 15) 1) as [r2|] eqn:X2; [|discriminate].
    cbv zeta in D1, D2. cbn [R1 R2 plain r_rel r_ck] in D1, D2. fold R1 in D1. fold R2 in D2.
    assert (Qt : forall R a t v, (if (match rint R (a + 15) 1 with Some r => r | None => 0 end <? 128)%N
                                  then require (match rint R (a + 15) 1 with Some r => r | None => 0 end <=? 15)%N in
             let? l := rdn (r_mem R) a (15 - N.to_nat (match rint R (a + 15) 1 with Some r => r | None => 0%N end)) in
             Some (VStr l, [Rd (a + 15) 1; Rd a 15])
        else let? p := rptr R (r_rel R) a in
             let? size := rint R (a + 8) 4 in
             if (size =? 0)%N then Some (VStr [], [Rd (a + 15) 1; Rd a 8; Rd (a + 8) 4])
             else let? q := p in
                  let? l := rdn (r_mem R) q (N.to_nat size) in
                  Some (VStr l, [Rd (a + 15) 1; Rd a 8; Rd (a + 8) 4] ++ [Rd q (Z.of_N size)])) = Some (v, t) -> quiet t).
    { clear. intros R a t v D. destruct (_ <? _)%N.
      - destruct (_ <=? _)%N; [|discriminate]. destruct (rdn _ _ _); [|discriminate]. injection D as _ <-. intros e [<-|[<-|[]]]; exact I.
      - destruct (rptr _ _ _); [|discriminate]. destruct (rint _ _ _); [|discriminate]. destruct (_ =? _)%N; [injection D as _ <-; intros e [<-|[<-|[<-|[]]]]; exact I|].
        destruct o; [|discriminate]. destruct (rdn _ _ _); [|discriminate]. injection D as _ <-. intros e [<-|[<-|[<-|[<-|[]]]]]; exact I. }
    split.
    { apply quiet_shape; [apply (Qt R1 a1 t1 v)|apply (Qt R2 a2 t2 v)]; [rewrite X1; exact D1|rewrite X2; exact D2]. }
    intros _ [B P]. cbn [pads] in P. exists r1, r2. split; [exact X1|]. split; [exact X2|].
    destruct (N.ltb_spec r1 128) as [L1|L1].
    { left. split; [exact L1|]. eapply (same_byte a1 a2 _ _ 15 r1 r2 B); [cbn; lia| |exact X1|exact X2].
      cbn [free]. change (int_at s1 (a1 + 15) 1) with (rint R1 (a1 + 15) 1). rewrite X1. lia. }
    right. split; [exact L1|]. destruct (P r1 X1 L1) as (r2' & X2' & L2). change (rint R2 (a2 + 15) 1 = Some r2') in X2'. rewrite X2 in X2'. injection X2' as <-.
    split; [exact L2|]. rewrite (proj2 (N.ltb_ge r2 128) L2) in D2.
    destruct (rptr R1 rel1 a1) as [p1|] eqn:P1; [|discriminate]. destruct (rint R1 (a1 + 8) 4) as [n1|] eqn:Z1; [|discriminate].
    destruct (rptr R2 rel2 a2) as [p2|] eqn:P2; [|discriminate]. destruct (rint R2 (a2 + 8) 4) as [n2|] eqn:Z2; [|discriminate].
    exists p1, p2, n1. split; [exact P1|]. split; [exact P2|].
    destruct (N.eqb_spec n1 0) as [->|N1].
    + injection D1 as <- _. assert (n2 = 0%N).
      { destruct (N.eqb_spec n2 0) as [->|N2]; [reflexivity|]. destruct p2; [|discriminate]. destruct (rdn _ _ _) eqn:K; [|discriminate]. injection D2 as -> _.
        apply rdn_length in K. cbn in K. lia. }
      subst n2. split; [split; assumption|]. left. reflexivity.
    + destruct p1 as [q1|]; [|discriminate]. destruct (rdn (r_mem R1) q1 _) as [l1|] eqn:K1; [|discriminate]. injection D1 as <- _. pose proof (rdn_length _ _ _ _ K1).
      destruct (N.eqb_spec n2 0) as [->|N2]; [injection D2 as E _; subst l1; cbn in *; lia|]. destruct p2 as [q2|]; [|discriminate].
      destruct (rdn (r_mem R2) q2 _) as [l2|] eqn:K2; [|discriminate]. injection D2 as -> _. pose proof (rdn_length _ _ _ _ K2). assert (n2 = n1) by lia. subst n2.
      split; [split; assumption|]. right. exists q1, q2. split; [reflexivity|]. split; [reflexivity|]. exists l1. split; assumption.
  - cbv zeta in D1, D2. cbn [R1 R2 plain r_rel r_ck] in D1, D2. fold R1 in D1. fold R2 in D2. set (T := tyof env n) in *.
    destruct (rptr R1 rel1 a1) as [pe1|] eqn:E1; [|discriminate]. destruct (rptr R1 rel1 (a1 + 8)) as [pc1|] eqn:C1; [|discriminate].
    destruct (rint R1 (a1 + 16) 8) as [sz1|] eqn:S1; [|discriminate]. destruct (rint R1 (a1 + 24) 8) as [cap1|] eqn:Cp1; [|discriminate].
    destruct (rint R1 (a1 + 32) 8) as [g1|] eqn:G1; [|discriminate]. cbn [zero_at R1 plain r_ck] in D1. fold R1 in D1.
    destruct pc1 as [c1|]; [|discriminate]. destruct (_ && inside R1 _ _ _) in D1; [|discriminate].
    destruct (rdn (r_mem R1) c1 (N.to_nat cap1 + 9)) as [ctrl1|] eqn:K1; [|discriminate]. destruct (r_tab R1 _ _ _ _); [|discriminate].
    destruct (rptr R2 rel2 a2) as [pe2|] eqn:E2; [|discriminate]. destruct (rptr R2 rel2 (a2 + 8)) as [pc2|] eqn:C2; [|discriminate].
    destruct (rint R2 (a2 + 16) 8) as [sz2|] eqn:S2; [|discriminate]. destruct (rint R2 (a2 + 24) 8) as [cap2|] eqn:Cp2; [|discriminate].
    destruct (rint R2 (a2 + 32) 8) as [g2|] eqn:G2; [|discriminate]. destruct (zero_at R2 _) as [z|] eqn:Z; [|discriminate]. apply zero_quiet in Z.
    destruct pc2 as [c2|]; [|discriminate]. destruct (_ && inside R2 _ _ _) in D2; [|discriminate].
    destruct (rdn (r_mem R2) c2 (N.to_nat cap2 + 9)) as [ctrl2|] eqn:K2; [|discriminate]. destruct (r_tab R2 _ _ _ _); [|discriminate].
    set (own1 := Rd a1 8 :: _) in D1. set (own2 := Rd a2 8 :: _) in D2.
    assert (Q1 : quiet own1) by (intros e J; repeat (destruct J as [<-|J]; [exact I|]); destruct J).
    assert (Q2 : quiet own2).
    { intros e J. repeat (destruct J as [<-|J]; [exact I|]). apply in_app_or in J as [J|[<-|[]]]; [apply Z; exact J|exact I]. }
    assert (V : exists l, v = VTab sz1 g1 ctrl1 l).
    { destruct pe1 as [e1|]; [destruct (_ && _ && _) in D1; [|discriminate]; destruct (mapM _ _) as [[vs u]|] in D1; [|discriminate]|destruct (_ && _) in D1; [|discriminate]];
        injection D1 as <- _; eexists; reflexivity. }
    destruct V as [l V].
    assert (V2 : sz2 = sz1 /\ g2 = g1 /\ ctrl2 = ctrl1).
    { destruct pe2 as [e2|]; [destruct (_ && _ && _) in D2; [|discriminate]; destruct (mapM _ _) as [[vs u]|] in D2; [|discriminate]|destruct (_ && _) in D2; [|discriminate]];
        rewrite V in D2; injection D2 as -> -> -> _; auto. }
    destruct V2 as (-> & -> & ->). pose proof (rdn_length _ _ _ _ K1). pose proof (rdn_length _ _ _ _ K2). assert (cap2 = cap1) by lia. subst cap2.
    destruct pe1 as [e1|], pe2 as [e2|].
    2: { exfalso. destruct ((c1 =? _) && negb ((cap1 =? 0)%N && (sz1 =? 0)%N) && _) eqn:Y in D1; [|discriminate]. destruct ((cap1 =? 0)%N && (sz1 =? 0)%N); [|discriminate].
         rewrite andb_false_r in Y. discriminate. }
    2: { exfalso. destruct ((c2 =? _) && negb ((cap1 =? 0)%N && (sz1 =? 0)%N) && _) eqn:Y in D2; [|discriminate]. destruct ((cap1 =? 0)%N && (sz1 =? 0)%N); [|discriminate].
         rewrite andb_false_r in Y. discriminate. }
    2: { destruct (_ && _) in D1; [|discriminate]. apply some_pair in D1 as [_ <-]. destruct (_ && _) in D2; [|discriminate]. apply some_pair in D2 as [_ <-].
         split; [apply quiet_shape; assumption|]. intros _ _. exists None, None, (Some c1), (Some c2), sz1, cap1, g1.
         split; [exact E1|]. split; [exact E2|]. split; [exact C1|]. split; [exact C2|]. split; [split; assumption|]. split; [split; assumption|]. split; [split; assumption|].
         left. split; reflexivity. }
    destruct (_ && _ && _) in D1; [|discriminate]. destruct (_ && _ && _) in D2; [|discriminate].
    match type of D1 with match mapM ?g ?l with _ => _ end = _ => destruct (mapM g l) as [[vs u1]|] eqn:M1; [|discriminate] end. apply some_pair in D1 as [<- <-].
    match type of D2 with match mapM ?g ?l with _ => _ end = _ => destruct (mapM g l) as [[vs2 u2]|] eqn:M2; [|discriminate] end. apply some_pair in D2 as [D2 <-]; injection D2 as ->.
    set (QQ := fun i : nat => is_full (nth i ctrl1 EMPTY) = true -> same_padding env s1 s2 f T (e1 + Z.of_nat i * size_of T) (e2 + Z.of_nat i * size_of T) ->
                         twin env s1 s2 blocks f T (e1 + Z.of_nat i * size_of T) (e2 + Z.of_nat i * size_of T)).
    match type of M1 with mapM ?x1 ?l = _ => match type of M2 with mapM ?x2 _ = _ =>
      assert (EE : forall i x w1 w2, In i l -> x1 i = Some (x, w1) -> x2 i = Some (x, w2) -> shape w1 w2 /\ (cond w1 w2 -> QQ i));
        [|destruct (both_opt x1 x2 QQ l vs u1 u2 EE M1 M2) as [Sh Q]] end end.
    { intros i x x1 x2 _ Y1 Y2. unfold QQ. destruct (is_full (nth i ctrl1 EMPTY)).
      - destruct (dec env R1 f T _) as [[y1 w1]|] eqn:W1; [|discriminate]. injection Y1 as <- <-.
        destruct (dec env R2 f T _) as [[y2 w2]|] eqn:W2; [|discriminate]. injection Y2 as -> <-.
        destruct (IH _ _ _ _ _ _ (tyof_wf env A Henv n) W1 W2) as [Sh K]. split; [exact Sh|]. intros C _. apply K. exact C.
      - injection Y1 as <- <-. injection Y2 as <-. split; [split; reflexivity|]. intros _ [=]. }
    split; [apply shape_app; [apply quiet_shape; assumption|exact Sh]|].
    intros C [B P]. apply cond_app in C as [_ C]; [|apply quiet_shape; assumption].
    destruct (P e1 e2 c1 cap1 E1 E2 C1 Cp1) as [Bq Pq]. fold T in Bq, Pq.
    exists (Some e1), (Some e2), (Some c1), (Some c2), sz1, cap1, g1.
    split; [exact E1|]. split; [exact E2|]. split; [exact C1|]. split; [exact C2|]. split; [split; assumption|]. split; [split; assumption|]. split; [split; assumption|].
    right. exists e1, e2, c1, c2. do 4 (split; [reflexivity|]). split; [exact Bq|].
    intros i Hi. exists (nth i ctrl1 EMPTY).
    assert (B1 : int_at s1 (c1 + Z.of_nat i) 1 = Some (nth i ctrl1 EMPTY)).
    { apply int_byte. cbn [s1 d_mem]. change m1 with (r_mem R1). rewrite (rdn_nth _ _ _ _ _ K1) by lia. apply nth_error_nth'. lia. }
    assert (B2 : int_at s2 (c2 + Z.of_nat i) 1 = Some (nth i ctrl1 EMPTY)).
    { apply int_byte. cbn [s2 d_mem]. change m2 with (r_mem R2). rewrite (rdn_nth _ _ _ _ _ K2) by lia. apply nth_error_nth'. lia. }
    split; [split; assumption|]. intros Fl. apply (Q C i); [apply in_seq; lia|exact Fl|]. split; [|apply (Pq i _ Hi B1 Fl)].
    pose proof (wf_size _ (tyof_wf env A Henv n)) as Nz. fold T in Nz.
    eapply same_part; [exact Bq|nia|nia|]. cbv beta. intros j J (i' & b & Hi' & _ & _ & F).
    destruct (Nat.eq_dec i' i) as [->|Ne]; [replace (Z.of_nat i * size_of T + j - Z.of_nat i * size_of T) with j in F by lia; exact F|].
    exfalso. apply (free_in _ _ _ _ _ (tyof_wf env A Henv n)) in F. fold T in F. nia.
Qed.
End Two.
