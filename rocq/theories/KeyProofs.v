From Coq Require Import ZArith Lia.
From Verif Require Import Base FnvModel KeyModel KeySpec.
From Verif Require HashModel HashSpec HashRefine.
(* ---- integers ---- *)
Lemma to_int_id s w z : 0 < w -> int_range s w z -> to_int (s, w) z = z.
Proof.
  intros Hw R. unfold to_int, int_range in *. cbn [fst snd]. set (W := (2 ^ (8 * Z.of_nat w))%Z).
  assert (HW : W = (2 * 2 ^ (8 * Z.of_nat w - 1))%Z). { unfold W. rewrite <- (Z.pow_succ_r 2) by lia. f_equal. lia. }
  assert (P : (0 < 2 ^ (8 * Z.of_nat w - 1))%Z) by (apply Z.pow_pos_nonneg; lia). set (H := (2 ^ (8 * Z.of_nat w - 1))%Z) in *.
  assert (HH : (W / 2 = H)%Z) by (rewrite HW, Z.mul_comm, Z.div_mul; lia). rewrite HH. destruct s; cbn [andb].
  - destruct (Z.lt_ge_cases z 0).
    + assert (Q : (z mod W = z + W)%Z) by (symmetry; apply (Z.mod_unique _ _ (-1)%Z); lia). rewrite Q. destruct (Z.leb_spec H (z + W)); lia.
    + rewrite Z.mod_small by lia. destruct (Z.leb_spec H z); lia.
  - fold W in R. apply Z.mod_small. lia.
Qed.
Lemma range_mono s w w' z : w <= w' -> 0 < w -> int_range s w z -> int_range s w' z.
Proof.
  unfold int_range. intros L P R. destruct s.
  - assert ((2 ^ (8 * Z.of_nat w - 1) <= 2 ^ (8 * Z.of_nat w' - 1))%Z) by (apply Z.pow_le_mono_r; lia). lia.
  - assert ((2 ^ (8 * Z.of_nat w) <= 2 ^ (8 * Z.of_nat w'))%Z) by (apply Z.pow_le_mono_r; lia). lia.
Qed.
Lemma range_sign w w' z : w < w' -> int_range false w z -> int_range true w' z.
Proof.
  unfold int_range. intros L R. assert ((2 ^ (8 * Z.of_nat w) <= 2 ^ (8 * Z.of_nat w' - 1))%Z) by (apply Z.pow_le_mono_r; lia). lia.
Qed.
Lemma promote s w z : 0 < w -> int_range s w z -> forall s' w', (if w <? 4 then (true, 4) else (s, w)) = (s', w') -> 4 <= w' /\ int_range s' w' z.
Proof.
  intros P R s' w' E. destruct (Nat.ltb_spec w 4); injection E as <- <-; split; auto. destruct s; [apply (range_mono _ w); auto; lia|apply (range_sign w); auto].
Qed.
Lemma widen s1 v1 s' w' z : 0 < v1 -> int_range s1 v1 z -> v1 <= w' -> (s1 = s' \/ (0 <= z)%Z) -> (s1 = false -> s' = true -> v1 < w') -> int_range s' w' z.
Proof.
  intros P R L S1 S2. destruct s1, s'; try (apply (range_mono _ v1); auto; fail); [|apply (range_sign v1); auto].
  destruct S1 as [S1|S1]; [discriminate|]. unfold int_range in *. assert ((2 ^ (8 * Z.of_nat v1 - 1) <= 2 ^ (8 * Z.of_nat w'))%Z) by (apply Z.pow_le_mono_r; lia). lia.
Qed.
(* integers of the same signedness are compared by value *)
Lemma eq_int_ok s w1 z1 w2 z2 : 0 < w1 -> 0 < w2 -> int_range s w1 z1 -> int_range s w2 z2 -> eq_int s w1 z1 s w2 z2 = (z1 =? z2)%Z.
Proof.
  intros P1 P2 R1 R2. unfold eq_int, common. destruct (if w1 <? 4 then (true, 4) else (s, w1)) as (s1, v1) eqn:E1. destruct (if w2 <? 4 then (true, 4) else (s, w2)) as (s2, v2) eqn:E2.
  destruct (promote _ _ _ P1 R1 _ _ E1) as (L1 & Q1). destruct (promote _ _ _ P2 R2 _ _ E2) as (L2 & Q2).
  assert (N : s = true /\ s1 = true /\ s2 = true \/ (0 <= z1)%Z /\ (0 <= z2)%Z).
  { destruct s; [left|right; unfold int_range in *; lia]. destruct (Nat.ltb_spec w1 4), (Nat.ltb_spec w2 4); injection E1 as <- <-; injection E2 as <- <-; auto. }
  set (sg := if v1 =? v2 then s1 && s2 else if v2 <? v1 then s1 else s2).
  assert (Hs : sg = true -> (s1 = false -> v1 < Nat.max v1 v2) /\ (s2 = false -> v2 < Nat.max v1 v2)).
  { unfold sg. destruct (Nat.eqb_spec v1 v2), (Nat.ltb_spec v2 v1); intros; destruct s1, s2; try discriminate; split; intros; try discriminate; lia. }
  assert (G1 : int_range sg (Nat.max v1 v2) z1).
  { apply (widen s1 v1); auto; try lia. - destruct N as [(_ & S1 & S2)|]; [|tauto]. left. unfold sg. rewrite S1, S2. destruct (v1 =? v2), (v2 <? v1); auto. }
  assert (G2 : int_range sg (Nat.max v1 v2) z2).
  { apply (widen s2 v2); auto; try lia. - destruct N as [(_ & S1 & S2)|]; [|tauto]. left. unfold sg. rewrite S1, S2. destruct (v1 =? v2), (v2 <? v1); auto. }
  rewrite !to_int_id by (auto; lia). auto.
Qed.
(* ---- numbers ---- *)
Lemma odd_part_ok p : forall q k, odd_part p = (q, k) -> (0 <= k)%Z /\ Zpos p = (Zpos q * 2 ^ k)%Z /\ Z.odd (Zpos q) = true.
Proof.
  induction p as [p IH|p IH|]; intros q k E; cbn [odd_part] in E.
  - injection E as <- <-. split; [lia|]. split; [lia|auto].
  - destruct (odd_part p) as (q', k') eqn:E'. injection E as <- <-. destruct (IH _ _ eq_refl) as (A & B & C). split; [lia|]. split; auto. rewrite Z.pow_add_r by lia. change (2 ^ 1)%Z with 2%Z. lia.
  - injection E as <- <-. split; [lia|]. split; [lia|auto].
Qed.
Lemma odd_unique a i b j : Z.odd a = true -> Z.odd b = true -> (0 <= i)%Z -> (0 <= j)%Z -> (a * 2 ^ i = b * 2 ^ j)%Z -> a = b /\ i = j.
Proof.
  assert (G : forall a i b j, Z.odd b = true -> (0 <= i)%Z -> (0 <= j)%Z -> (a * 2 ^ i = b * 2 ^ j)%Z -> (i <= j)%Z).
  { clear. intros a i b j Ob Hi Hj E. destruct (Z.le_gt_cases i j); auto. exfalso. replace i with ((i - j - 1) + 1 + j)%Z in E by lia. rewrite !Z.pow_add_r in E by lia.
    assert (P : (2 ^ j <> 0)%Z) by (apply Z.pow_nonzero; lia). rewrite !Z.mul_assoc in E. apply Z.mul_cancel_r in E; auto. rewrite <- E in Ob. rewrite !Z.odd_mul in Ob. cbn in Ob. rewrite andb_false_r in Ob. discriminate. }
  intros Oa Ob Hi Hj E. pose proof (G a i b j Ob Hi Hj E). pose proof (G b j a i Oa Hj Hi (eq_sym E)). assert (i = j) as -> by lia. split; auto.
  apply (Z.mul_cancel_r _ _ (2 ^ j)); auto. apply Z.pow_nonzero; lia.
Qed.
Lemma eq_num_ok n1 m1 e1 n2 m2 e2 : eq_num n1 m1 e1 n2 m2 e2 = true <-> num n1 m1 e1 = num n2 m2 e2.
Proof.
  unfold eq_num, num. set (e := Z.min e1 e2). assert (L1 : (e <= e1)%Z) by lia. assert (L2 : (e <= e2)%Z) by lia. clearbody e. rewrite Z.eqb_eq.
  assert (P1 : (0 < 2 ^ (e1 - e))%Z) by (apply Z.pow_pos_nonneg; lia). assert (P2 : (0 < 2 ^ (e2 - e))%Z) by (apply Z.pow_pos_nonneg; lia).
  destruct m1 as [|p1], m2 as [|p2]; cbn [Z.of_N].
  - rewrite !Z.mul_0_r. split; auto.
  - destruct (odd_part p2) as (q, k) eqn:E. rewrite Z.mul_0_r. split; intros H; [exfalso; pose proof (Z.mul_pos_pos (Zpos p2) _ eq_refl P2); destruct n2; lia|]. destruct n2; injection H; discriminate.
  - destruct (odd_part p1) as (q, k) eqn:E. rewrite Z.mul_0_r. split; intros H; [exfalso; pose proof (Z.mul_pos_pos (Zpos p1) _ eq_refl P1); destruct n1; lia|]. destruct n1; injection H; discriminate.
  - destruct (odd_part p1) as (q1, k1) eqn:E1. destruct (odd_part p2) as (q2, k2) eqn:E2. destruct (odd_part_ok _ _ _ E1) as (K1 & B1 & O1). destruct (odd_part_ok _ _ _ E2) as (K2 & B2 & O2). rewrite B1, B2.
    set (a := if n1 then Zneg q1 else Zpos q1). set (b := if n2 then Zneg q2 else Zpos q2).
    assert (Oa : Z.odd a = true) by (unfold a; destruct n1; auto). assert (Ob : Z.odd b = true) by (unfold b; destruct n2; auto).
    assert (Ea : ((if n1 then -1 else 1) * (Z.pos q1 * 2 ^ k1) * 2 ^ (e1 - e) = a * 2 ^ (k1 + (e1 - e)))%Z) by (rewrite Z.pow_add_r by lia; unfold a; destruct n1; lia).
    assert (Eb : ((if n2 then -1 else 1) * (Z.pos q2 * 2 ^ k2) * 2 ^ (e2 - e) = b * 2 ^ (k2 + (e2 - e)))%Z) by (rewrite Z.pow_add_r by lia; unfold b; destruct n2; lia).
    rewrite Ea, Eb. split; intros H.
    + assert (G : a = b /\ (k1 + (e1 - e) = k2 + (e2 - e))%Z) by (apply odd_unique; auto; lia). destruct G as (-> & Q). f_equal. lia.
    + injection H as H1 H2. rewrite H1. f_equal. f_equal. lia.
Qed.
Lemma trunc_odd q k e : (0 <= k)%Z -> trunc (q * 2 ^ Z.to_N k) e = trunc q (e + k).
Proof.
  intros K. unfold trunc. destruct (Z.leb_spec 0 e), (Z.leb_spec 0 (e + k)); try lia.
  - rewrite <- N.mul_assoc, <- N.pow_add_r. f_equal. f_equal. lia.
  - replace (Z.to_N k) with (Z.to_N (e + k) + Z.to_N (- e))%N by lia. rewrite N.pow_add_r, N.mul_assoc, N.div_mul; auto. apply N.pow_nonzero. discriminate.
  - replace (Z.to_N (- e)) with (Z.to_N (- (e + k)) + Z.to_N k)%N by lia. rewrite N.pow_add_r. apply N.div_mul_cancel_r; apply N.pow_nonzero; discriminate.
Qed.
Lemma cast_den n1 m1 e1 n2 m2 e2 : num n1 m1 e1 = num n2 m2 e2 -> cast n1 m1 e1 = cast n2 m2 e2.
Proof.
  assert (Z0 : forall n e, cast n 0 e = Ok 0%N). { intros n e. unfold cast, trunc. destruct (0 <=? e)%Z; [rewrite N.mul_0_l|rewrite N.div_0_l by (apply N.pow_nonzero; discriminate)]; auto. }
  unfold num. destruct m1 as [|p1], m2 as [|p2]; intros H.
  - rewrite !Z0. auto.
  - destruct (odd_part p2); destruct n2; discriminate.
  - destruct (odd_part p1); destruct n1; discriminate.
  - destruct (odd_part p1) as (q1, k1) eqn:E1. destruct (odd_part p2) as (q2, k2) eqn:E2. destruct (odd_part_ok _ _ _ E1) as (K1 & B1 & O1). destruct (odd_part_ok _ _ _ E2) as (K2 & B2 & O2).
    assert (T1 : trunc (Npos p1) e1 = trunc (Npos q1) (e1 + k1)). { rewrite <- trunc_odd by auto. f_equal. apply N2Z.inj. rewrite N2Z.inj_mul, N2Z.inj_pow, Z2N.id by lia. exact B1. }
    assert (T2 : trunc (Npos p2) e2 = trunc (Npos q2) (e2 + k2)). { rewrite <- trunc_odd by auto. f_equal. apply N2Z.inj. rewrite N2Z.inj_mul, N2Z.inj_pow, Z2N.id by lia. exact B2. }
    injection H as Hq He. assert (q1 = q2 /\ n1 = n2) as (-> & ->) by (destruct n1, n2; try discriminate; injection Hq as ->; auto).
    unfold cast. rewrite T1, T2, He. auto.
Qed.
Lemma cast_ok n m e : num_range n m e -> exists t, cast n m e = Ok t.
Proof.
  unfold num_range, cast, trunc. intros R. destruct n.
  - assert (T : (if (0 <=? e)%Z then (m * 2 ^ Z.to_N e)%N else (m / 2 ^ Z.to_N (- e))%N) = 0%N).
    { destruct (Z.leb_spec 0 e).
      - rewrite Z.max_l, Z.max_r in R by lia. assert (0 < 2 ^ e)%Z by (apply Z.pow_pos_nonneg; lia). assert (m = 0%N) as -> by nia. auto.
      - rewrite Z.max_r, Z.max_l in R by lia. apply N.div_small. apply N2Z.inj_lt. rewrite N2Z.inj_pow, Z2N.id by lia. lia. }
    rewrite T. cbn. eauto.
  - assert (T : ((if (0 <=? e)%Z then m * 2 ^ Z.to_N e else m / 2 ^ Z.to_N (- e)) < 18446744073709551616)%N).
    { destruct (Z.leb_spec 0 e).
      - rewrite Z.max_l, Z.max_r in R by lia. apply N2Z.inj_lt. rewrite N2Z.inj_mul, N2Z.inj_pow, Z2N.id by lia. cbn [Z.of_N]. lia.
      - rewrite Z.max_r, Z.max_l in R by lia. apply N.div_lt_upper_bound; [apply N.pow_nonzero; discriminate|]. apply N2Z.inj_lt. rewrite N2Z.inj_mul, N2Z.inj_pow, Z2N.id by lia. cbn [Z.of_N]. lia. }
    apply N.ltb_lt in T. rewrite T. destruct (_ =? 0)%N; eauto.
Qed.

(* ---- values ---- *)
Section TyInd.
Variable P : ty -> Prop.
Hypothesis h1 : forall s w, P (TInt s w).
Hypothesis h2 : P TNum.
Hypothesis h3 : P TPtr.
Hypothesis h4 : P TStr.
Hypothesis h5 : forall t, P t -> P (TSeq t).
Hypothesis h6 : forall ts, Forall P ts -> P (TStruct ts).
Hypothesis h7 : forall a b, P a -> P b -> P (TPair a b).
Hypothesis h8 : forall ts, Forall P ts -> P (TTuple ts).
Hypothesis h9 : forall s ts, Forall P ts -> P (TVar s ts).
Hypothesis h10 : forall t, P t -> P (TStrong t).
Hypothesis h11 : forall s t, P t -> P (TOpt s t).
Hypothesis h12 : forall n, P (TBits n).
Fixpoint ty_rec' (t : ty) : P t :=
  let go := fix go (l : list ty) : Forall P l := match l with [] => Forall_nil _ | t :: l => Forall_cons _ (ty_rec' t) (go l) end in
  match t with
  | TInt s w => h1 s w | TNum => h2 | TPtr => h3 | TStr => h4 | TSeq t => h5 t (ty_rec' t) | TStruct ts => h6 ts (go ts)
  | TPair a b => h7 a b (ty_rec' a) (ty_rec' b) | TTuple ts => h8 ts (go ts) | TVar s ts => h9 s ts (go ts)
  | TStrong t => h10 t (ty_rec' t) | TOpt s t => h11 s t (ty_rec' t) | TBits n => h12 n
  end.
End TyInd.
Lemma eq_bytes_ok a b : eq_bytes a b = true <-> a = b.
Proof. unfold eq_bytes. destruct (list_eq_dec N.eq_dec a b); split; auto; discriminate. Qed.
Section Sh.
Variable std_hash : val -> N.
Hypothesis SH : std_hash_ok std_hash.
Notation hashv := (hashv std_hash).
Definition eql (f : val -> val -> bool) : list val -> list val -> bool :=
  fix go (l k : list val) : bool := match l, k with [], [] => true | x :: l, y :: k => f x y && go l k | _, _ => false end.
Fixpoint hashl (l : list val) (h : N) : res N := match l with [] => Ok h | v :: l => let* h := hashv v h in hashl l h end.
Definition good (t : ty) (a b : val) : Prop :=
  (eqop a b = true <-> den a = den b) /\ (eqt a b = true <-> den a = den b) /\ (den a = den b -> forall seed, hashv a seed = hashv b seed) /\ (forall seed, exists h, hashv a seed = Ok h).
Definition goodl (l k : list val) : Prop :=
  (eql eqop l k = true <-> map den l = map den k) /\ (eql eqt l k = true <-> map den l = map den k) /\ (map den l = map den k -> forall seed, hashl l seed = hashl k seed) /\ (forall seed, exists h, hashl l seed = Ok h).
Lemma eql_cons f x l y k (A B : Prop) : (f x y = true <-> A) -> (eql f l k = true <-> B) -> (eql f (x :: l) (y :: k) = true <-> A /\ B).
Proof. intros H1 H2. cbn [eql]. rewrite andb_true_iff. tauto. Qed.
Lemma goodl_cons t x y l k : good t x y -> goodl l k -> goodl (x :: l) (y :: k).
Proof.
  intros (A1 & A2 & A3 & A4) (B1 & B2 & B3 & B4). assert (C : map den (x :: l) = map den (y :: k) <-> den x = den y /\ map den l = map den k).
  { cbn [map]. split; [intros E; injection E; auto|intros (-> & ->); auto]. }
  split; [rewrite C; apply eql_cons; auto|]. split; [rewrite C; apply eql_cons; auto|]. split.
  - rewrite C. intros (E1 & E2) seed. cbn [hashl]. rewrite (A3 E1). destruct (hashv y seed); auto. cbn [bind]. auto.
  - intros seed. cbn [hashl]. destruct (A4 seed) as (h & ->). cbn [bind]. auto.
Qed.
Lemma goodl_nil : goodl [] [].
Proof. split; [cbn; tauto|]. split; [cbn; tauto|]. split; [auto|]. cbn. eauto. Qed.
Lemma each_good ts : Forall (fun t => forall a b, has_ty a t -> has_ty b t -> good t a b) ts -> forall l k, each_ty l ts -> each_ty k ts -> goodl l k.
Proof.
  induction 1 as [|t ts H F IH]; intros l k Hl Hk; inversion Hl; subst; inversion Hk; subst; [apply goodl_nil|]. apply (goodl_cons t); auto.
Qed.
Lemma goodl_len l k : length l <> length k -> (forall seed, exists h, hashl l seed = Ok h) -> goodl l k.
Proof.
  intros L X. assert (E : map den l <> map den k) by (intros E; apply L; rewrite <- (map_length den l), E, map_length; auto).
  assert (Q : forall f, eql f l k = false). { intros f. revert k L E. clear. induction l as [|x l IH]; intros [|y k] L E; cbn [eql]; auto. { cbn in L. congruence. }
    rewrite IH; [apply andb_false_r|cbn in L; congruence|]. intros Z. apply (f_equal (@length _)) in Z. rewrite !map_length in Z. cbn in L. congruence. }
  split; [rewrite Q; split; [discriminate|tauto]|]. split; [rewrite Q; split; [discriminate|tauto]|]. split; [tauto|auto].
Qed.
Lemma all_good t : (forall a b, has_ty a t -> has_ty b t -> good t a b) -> forall l k, all_ty l t -> all_ty k t -> goodl l k.
Proof.
  intros H. assert (T : forall l, all_ty l t -> forall seed, exists h, hashl l seed = Ok h).
  { induction l as [|x l IH]; intros Hl seed; cbn [hashl]; eauto. inversion Hl; subst. destruct (H x x) as (_ & _ & _ & X); auto. destruct (X seed) as (h & ->). cbn [bind]. auto. }
  induction l as [|x l IH]; intros [|y k] Hl Hk.
  - apply goodl_nil.
  - apply goodl_len; [discriminate|auto].
  - apply goodl_len; [discriminate|auto].
  - inversion Hl; subst. inversion Hk; subst. apply (goodl_cons t); auto.
Qed.
Lemma den_list l k : AList (map den l) = AList (map den k) <-> map den l = map den k.
Proof. split; [intros E; injection E; auto|intros ->; auto]. Qed.
Theorem keys_good t : forall a b, has_ty a t -> has_ty b t -> good t a b.
Proof.
  induction t as [s w| | | |t IH|ts IH|ta tb IHa IHb|ts IH|s ts IH|t IH|s t IH|n] using ty_rec'; intros a b Ha Hb.
  - inversion Ha; subst. inversion Hb; subst. unfold good. cbn [eqop eqt den KeyModel.hashv]. rewrite eq_int_ok by (auto; lia).
    assert (E : AInt z = AInt z0 <-> z = z0) by (split; congruence). rewrite E, Z.eqb_eq. split; [tauto|]. split; [tauto|]. split; [intros ->; auto|eauto].
  - inversion Ha; subst. inversion Hb; subst. unfold good. cbn [eqop eqt den KeyModel.hashv]. rewrite eq_num_ok. split; [tauto|]. split; [tauto|]. split.
    + intros E seed. rewrite (cast_den _ _ _ _ _ _ E). auto.
    + intros seed. destruct (cast_ok n m e) as (h & ->); auto. cbn [bind]. eauto.
  - inversion Ha; subst. inversion Hb; subst. unfold good. cbn [eqop eqt den KeyModel.hashv]. assert (E : AInt (Z.of_N a0) = AInt (Z.of_N a) <-> a0 = a) by (split; [intros Q; injection Q; apply N2Z.inj|congruence]).
    rewrite E, N.eqb_eq. split; [tauto|]. split; [tauto|]. split; [intros ->; auto|eauto].
  - inversion Ha; subst. inversion Hb; subst. unfold good. cbn [eqop eqt den KeyModel.hashv]. rewrite eq_bytes_ok. assert (E : AStr s = AStr s0 <-> s = s0) by (split; congruence). rewrite E.
    split; [tauto|]. split; [tauto|]. split; [intros ->; auto|eauto].
  - inversion Ha as [| | | |l ? Hl| | | | | | | |]; subst. inversion Hb as [| | | |k ? Hk| | | | | | | |]; subst. unfold good. cbn [den]. rewrite den_list. apply (all_good t IH l k Hl Hk).
  - inversion Ha as [| | | | |l ? Hl| | | | | | |]; subst. inversion Hb as [| | | | |k ? Hk| | | | | | |]; subst. unfold good. cbn [den]. rewrite den_list. apply (each_good ts IH l k Hl Hk).
  - inversion Ha as [| | | | | |a1 a2 ? ? H1 H2| | | | | |]; subst. inversion Hb as [| | | | | |b1 b2 ? ? H3 H4| | | | | |]; subst.
    destruct (IHa _ _ H1 H3) as (A1 & A2 & A3 & A4). destruct (IHb _ _ H2 H4) as (B1 & B2 & B3 & B4). unfold good. cbn [eqop eqt den KeyModel.hashv].
    assert (E : AList [den a1; den a2] = AList [den b1; den b2] <-> den a1 = den b1 /\ den a2 = den b2) by (split; [intros Q; injection Q; auto|intros (-> & ->); auto]).
    rewrite E, andb_true_iff. split; [tauto|]. split; [tauto|]. split.
    + intros (E1 & E2) seed. rewrite (A3 E1). destruct (hashv b1 seed); auto. cbn [bind]. auto.
    + intros seed. destruct (A4 seed) as (h & ->). cbn [bind]. auto.
  - inversion Ha as [| | | | | | |l ? Hl| | | | |]; subst. inversion Hb as [| | | | | | |k ? Hk| | | | |]; subst. unfold good. cbn [den]. rewrite den_list.
    destruct (each_good ts IH l k Hl Hk) as (A1 & A2 & A3 & A4). split; [exact A1|]. split; [exact A1|]. split; [exact A3|exact A4].
  - inversion Ha as [| | | | | | | |? i v ? t1 Hi Hv| | | |]; subst. inversion Hb as [| | | | | | | |? j w ? t2 Hj Hw| | | |]; subst. rewrite Forall_forall in IH.
    assert (Tv : forall seed, exists h, hashv v seed = Ok h) by (destruct (IH t1 (nth_error_In _ _ Hi) v v Hv Hv) as (_ & _ & _ & X); auto).
    assert (Tot : forall seed, exists h, hashv (VVar s i v) seed = Ok h).
    { intros seed. cbn [KeyModel.hashv]. destruct s; [apply Tv|]. destruct (Tv (hash_combine BASE_HASH (N.of_nat i))) as (h & ->). cbn [bind]. eauto. }
    unfold good. cbn [eqop eqt den]. rewrite Bool.eqb_reflx. cbn [andb]. destruct (Nat.eqb_spec i j) as [<-|Nij]; cbn [andb].
    + rewrite Hi in Hj. injection Hj as <-. destruct (IH t1 (nth_error_In _ _ Hi) v w Hv Hw) as (A1 & A2 & A3 & A4).
      assert (E : AAlt i (den v) = AAlt i (den w) <-> den v = den w) by (split; [intros Q; injection Q; auto|intros ->; auto]). rewrite E. split; [tauto|]. split; [tauto|]. split; auto.
      intros Q seed. cbn [KeyModel.hashv]. rewrite !(A3 Q). auto.
    + assert (E : AAlt i (den v) <> AAlt j (den w)) by congruence. split; [split; [discriminate|tauto]|]. split; [split; [discriminate|tauto]|]. split; [tauto|auto].
  - inversion Ha as [| | | | | | | | |v ? Hv| | |]; subst. inversion Hb as [| | | | | | | | |w ? Hw| | |]; subst. destruct (IH v w Hv Hw) as (A1 & A2 & A3 & A4). unfold good. cbn [eqop eqt den KeyModel.hashv].
    split; [tauto|]. split; [tauto|]. split; [|eauto]. intros E seed. rewrite (SH t v w Hv Hw E). auto.
  - assert (St : forall a b, has_ty a (TOpt s t) -> has_ty b (TOpt s t) -> den a = den b -> std_hash a = std_hash b) by (intros; eapply SH; eauto).
    inversion Ha as [| | | | | | | | | | |? v ? Hv|]; subst; inversion Hb as [| | | | | | | | | | |? w ? Hw|]; subst; unfold good; cbn [eqop eqt den]; rewrite ?Bool.eqb_reflx; cbn [andb].
    + split; [tauto|]. split; [tauto|]. split; [auto|]. intros seed. cbn [KeyModel.hashv]. destruct s; eauto.
    + split; [split; discriminate|]. split; [split; discriminate|]. split; [discriminate|]. intros seed. cbn [KeyModel.hashv]. destruct s; eauto.
    + split; [split; discriminate|]. split; [split; discriminate|]. split; [discriminate|]. intros seed. cbn [KeyModel.hashv]. destruct s; eauto. destruct (IH v v Hv Hv) as (_ & _ & _ & X). auto.
    + destruct (IH v w Hv Hw) as (A1 & A2 & A3 & A4). assert (E : AAlt 0 (den v) = AAlt 0 (den w) <-> den v = den w) by (split; [intros Q; injection Q; auto|intros ->; auto]). rewrite E.
      split; [tauto|]. split; [tauto|]. split.
      * intros Q seed. cbn [KeyModel.hashv]. destruct s; auto. rewrite (St _ _ Ha Hb); auto. cbn [den]. congruence.
      * intros seed. cbn [KeyModel.hashv]. destruct s; eauto.
  - inversion Ha as [| | | | | | | | | | | |? bl L1 S1]; subst. inversion Hb as [| | | | | | | | | | | |? bk L2 S2]; subst. unfold good. cbn [eqop eqt den KeyModel.hashv]. rewrite S1, S2, Nat.eqb_refl. cbn [andb]. rewrite eq_bytes_ok.
    assert (E : AList (map (fun b => AInt (Z.of_N b)) bl) = AList (map (fun b => AInt (Z.of_N b)) bk) <-> bl = bk).
    { split; [|intros ->; auto]. intros Q. injection Q. clear. revert bk. induction bl as [|x bl IH]; intros [|y bk] E; try discriminate; auto. cbn [map] in E. injection E as E1 E2. apply N2Z.inj in E1. rewrite E1, (IH _ E2). auto. }
    rewrite E. split; [tauto|]. split; [tauto|]. split; [intros ->; auto|eauto].
Qed.
End Sh.
Lemma upto_in bs : In 0%N bs -> exists s, upto_nul bs = Some s.
Proof. induction bs as [|b bs IH]; intros []; cbn [upto_nul]; [subst; cbn; eauto|]. destruct (b =? 0)%N; eauto. destruct (IH H) as (s & ->). cbn. eauto. Qed.
Lemma upto_end s : ~ In 0%N s -> upto_nul (s ++ [0%N]) = Some s.
Proof. induction s as [|b s IH]; intros H; cbn [upto_nul app]; [auto|]. destruct (N.eqb_spec b 0); [subst; cbn in H; tauto|]. rewrite IH; [auto|cbn in H; tauto]. Qed.
Lemma hash_empty s seed : match s with [] => seed | _ => hash s seed end = hash s seed.
Proof. destruct s; auto. Qed.
Theorem looks_good std_hash : std_hash_ok std_hash -> forall t a k, has_ty a t -> looks k t ->
  (eqt a k = true <-> den a = den k) /\ (eqt a k = true -> forall seed, hashv std_hash a seed = hashv std_hash k seed).
Proof.
  intros SH t a k Ha Hk. inversion Hk as [v ? Hv|bs Hz|s Hz|s w w' z Hw Hw' R]; subst.
  - destruct (keys_good std_hash SH t a k Ha Hv) as (_ & A & B & _). split; [auto|]. intros E. apply B, A, E.
  - inversion Ha; subst. destruct (upto_in _ Hz) as (s' & E). cbn [eqt eqop den hashv]. rewrite E, eq_bytes_ok. split; [split; congruence|]. intros -> seed. rewrite hash_empty. auto.
  - inversion Ha; subst. cbn [eqt eqop den hashv]. rewrite (upto_end _ Hz), eq_bytes_ok. split; [split; congruence|]. intros -> seed. rewrite hash_empty, app_length. cbn [length].
    replace (length s + 1 - 1) with (length s) by lia. rewrite firstn_app, Nat.sub_diag, firstn_all. cbn [firstn]. rewrite app_nil_r. auto.
  - inversion Ha; subst. cbn [eqt eqop den hashv]. rewrite eq_int_ok by (auto; lia). rewrite Z.eqb_eq. split; [split; congruence|]. intros ->; auto.
Qed.
Theorem key_laws_ok std_hash t : std_hash_ok std_hash ->
  HashSpec.key_laws (key t) (fun a b => eqt (proj1_sig a) (proj1_sig b)) (fun a => hash_of std_hash (proj1_sig a)).
Proof.
  intros SH. assert (E : forall a b : key t, eqt (proj1_sig a) (proj1_sig b) = true <-> den (proj1_sig a) = den (proj1_sig b)).
  { intros (a & Ha) (b & Hb). apply (keys_good std_hash SH t a b Ha Hb). }
  split; [intros a; apply E; auto|]. split; [intros a b; rewrite !E; auto|]. split; [intros a b c; rewrite !E; congruence|].
  intros a b H. apply E in H. destruct a as (a & Ha), b as (b & Hb). destruct (keys_good std_hash SH t a b Ha Hb) as (_ & _ & B & _). unfold hash_of. cbn [proj1_sig] in *. rewrite (B H). auto.
Qed.
Theorem equal_hash std_hash : std_hash_ok std_hash -> forall t a b, has_ty a t -> has_ty b t ->
  (eqt a b = true <-> den a = den b) /\ (eqop a b = true <-> den a = den b) /\
  (eqt a b = true -> forall seed, exists h, hashv std_hash a seed = Ok h /\ hashv std_hash b seed = Ok h).
Proof.
  intros SH t a b Ha Hb. destruct (keys_good std_hash SH t a b Ha Hb) as (A & B & C & D). split; [auto|]. split; [auto|].
  intros E seed. apply B in E. destruct (D seed) as (h & H). exists h. split; [auto|]. rewrite <- (C E); auto.
Qed.
Theorem map_default std_hash t V dv max_cap : std_hash_ok std_hash -> HashSpec.cap_bounded max_cap ->
  forall ops, 3 * HashSpec.inserts (key t) V ops + 2 <= max_cap ->
  exists tb xs, HashModel.run (key t) V (fun k => hash_of std_hash (proj1_sig k)) (fun a b => eqt (proj1_sig a) (proj1_sig b)) dv max_cap (HashModel.empty_tbl (key t) V) ops = Ok (tb, xs) /\
    Forall2 (HashSpec.same_out (key t) V) xs (snd (HashSpec.spec_run (key t) V (fun a b => eqt (proj1_sig a) (proj1_sig b)) dv [] ops)).
Proof. intros SH C ops L. apply HashRefine.refines; auto. apply key_laws_ok; auto. Qed.
