From Verif Require Import Base ArithModel ArithSpec ArithProofs FlatModel FlatSpec FlatProofs MmModel MmSpec.

(* ---- bit lemmas ---- *)
Lemma tz_pow2 o : (o < 32)%N -> trailing_zeros 32 (2 ^ o) = o.
Proof.
  intros H. assert (L : (2 ^ o < 2 ^ 32)%N) by (apply N.pow_lt_mono_r; lia).
  destruct (trailing_zeros_spec 32 _ L) as (T1 & T2 & T3).
  destruct (N.lt_trichotomy (trailing_zeros 32 (2 ^ o)) o) as [Q|[Q|Q]]; auto.
  - destruct (N.eq_dec (trailing_zeros 32 (2 ^ o)) 32) as [E|E]; [lia|].
    specialize (T3 ltac:(lia)). rewrite N.pow2_bits_eqb in T3. apply N.eqb_eq in T3. lia.
  - specialize (T2 o Q). rewrite N.pow2_bits_eqb, N.eqb_refl in T2. discriminate.
Qed.
Lemma pow2_of_nat o : N.of_nat (2 ^ o) = (2 ^ N.of_nat o)%N.
Proof. rewrite Nat2N.inj_pow. auto. Qed.
Lemma order_pow2 o : o < 32 -> order_of (2 ^ o) = o.
Proof. intros H. unfold order_of. rewrite pow2_of_nat, tz_pow2 by lia. lia. Qed.
Lemma cap_for_spec lmax req : lmax < 32 -> 0 < req -> (N.of_nat req < W32)%N ->
  (req <= 2 ^ lmax -> exists o, o <= lmax /\ cap_for req = 2 ^ o /\ order_of (cap_for req) = o /\ req <= 2 ^ o) /\
  (2 ^ lmax < req -> lmax < order_of (cap_for req)).
Proof.
  intros HL H0 HW. unfold cap_for.
  assert (Hw : npo2_width 32) by (unfold npo2_width; auto).
  destruct (N.le_gt_cases (N.of_nat req) (2 ^ 31)) as [Hs|Hs].
  - destruct (next_power_of_two_spec 32 (N.of_nat req) Hw ltac:(split; [lia|exact Hs])) as ((k & Hk) & Hge & Hmin).
    assert (Hk31 : (k <= 31)%N).
    { assert (Q : (next_power_of_two 32 (N.of_nat req) <= 2 ^ 31)%N) by (apply Hmin; [eexists; reflexivity|exact Hs]).
      rewrite Hk in Q. apply N.pow_le_mono_r_iff in Q; lia. }
    assert (E : N.to_nat (next_power_of_two 32 (N.of_nat req)) = 2 ^ N.to_nat k).
    { rewrite Hk, N2Nat.inj_pow. auto. }
    rewrite E. assert (O : order_of (2 ^ N.to_nat k) = N.to_nat k) by (apply order_pow2; lia). rewrite O. split; intros Q.
    + exists (N.to_nat k). split.
      * assert (Q2 : (next_power_of_two 32 (N.of_nat req) <= 2 ^ N.of_nat lmax)%N).
        { apply Hmin; [eexists; reflexivity|]. rewrite <- pow2_of_nat. lia. }
        rewrite Hk in Q2. apply N.pow_le_mono_r_iff in Q2; lia.
      * repeat split; auto. rewrite Hk in Hge. rewrite <- (N2Nat.id k), <- pow2_of_nat in Hge. lia.
    + destruct (le_lt_dec (N.to_nat k) lmax) as [L|L]; auto.
      apply (Nat.pow_le_mono_r 2) in L; [|lia]. rewrite Hk in Hge. rewrite <- (N2Nat.id k), <- pow2_of_nat in Hge. lia.
  - rewrite (next_power_of_two_wraps 32 (N.of_nat req) Hw (or_introl (conj Hs HW))). split; intros Q.
    + exfalso. assert (L : (N.of_nat req <= N.of_nat (2 ^ lmax))%N) by lia. rewrite pow2_of_nat in L.
      assert (2 ^ N.of_nat lmax <= 2 ^ 31)%N by (apply N.pow_le_mono_r; lia). lia.
    + unfold order_of. cbn. lia.
Qed.

(* ---- moving elements ---- *)
Lemma bmove_ok {B} (d : list B) dst src n : dst + n <= length d -> src + n <= length d ->
  exists d', bmove d dst src n = Ok d' /\ length d' = length d /\
    forall p, nth_error d' p = if (dst <=? p) && (p <? dst + n) then nth_error d (src + (p - dst)) else nth_error d p.
Proof.
  intros H1 H2. unfold bmove. destruct (Nat.eqb_spec n 0) as [->|Hn].
  { exists d. split; auto. split; auto. intros p. destruct (Nat.leb_spec dst p), (Nat.ltb_spec p (dst + 0)); auto; lia. }
  destruct (Nat.leb_spec (dst + n) (length d)); [|lia]. destruct (Nat.leb_spec (src + n) (length d)); [|lia]. cbn [andb].
  eexists. split; [reflexivity|].
  assert (L1 : length (firstn dst d) = dst) by (rewrite firstn_length; lia).
  assert (L2 : length (firstn n (skipn src d)) = n) by (rewrite firstn_length, skipn_length; lia). split.
  { rewrite !app_length, L1, L2, skipn_length. lia. }
  intros p. destruct (Nat.leb_spec dst p) as [G|G].
  - rewrite nth_error_app2 by lia. rewrite L1. destruct (Nat.ltb_spec p (dst + n)) as [G2|G2]; cbn [andb].
    + rewrite nth_error_app1 by lia. rewrite nth_error_firstn_lt by lia.
      rewrite <- (firstn_skipn src d) at 2. rewrite nth_error_app2; rewrite firstn_length; [f_equal|]; lia.
    + rewrite nth_error_app2 by lia. rewrite L2.
      rewrite <- (firstn_skipn (dst + n) d) at 2. rewrite nth_error_app2; rewrite firstn_length; [f_equal|]; lia.
  - cbn [andb]. rewrite nth_error_app1 by lia. rewrite nth_error_firstn_lt by lia. auto.
Qed.
Lemma bcopy_bmove {B} (d : list B) dst src n : (0 < n -> dst + n <= src \/ src + n <= dst) -> bcopy d dst src n = bmove d dst src n.
Proof.
  intros H. unfold bcopy. destruct (Nat.eqb_spec n 0); auto. destruct (Nat.leb_spec (dst + n) src); auto.
  destruct (Nat.leb_spec (src + n) dst); auto. lia.
Qed.
Lemma put_ok {B} (d : list B) p v : p < length d -> put d p v = Ok (upd p v d).
Proof. intros H. unfold put. destruct (Nat.ltb_spec p (length d)); auto. lia. Qed.

Section MmP.
Variable A : Type.
Variable dflt : A.
Variable lmax : nat.
Hypothesis lmax_ok : lmax < 32.

Definition cov (p : nat) (x : ix) : nat := if (ib x <=? p) && (p <? ib x + ic x) then 1 else 0.
Fixpoint cnt (p : nat) (l : list ix) : nat := match l with [] => 0 | x :: l => cov p x + cnt p l end.

Lemma cov_spec p x : cov p x = 1 /\ ib x <= p < ib x + ic x \/ cov p x = 0 /\ ~ (ib x <= p < ib x + ic x).
Proof. unfold cov. destruct (Nat.leb_spec (ib x) p), (Nat.ltb_spec p (ib x + ic x)); cbn [andb]; [left|right..]; lia. Qed.
Lemma cnt_app p a b : cnt p (a ++ b) = cnt p a + cnt p b.
Proof. induction a; cbn; auto. lia. Qed.
Lemma cnt_upd p l : forall k x y, nth_error l k = Some x -> cnt p (upd k y l) + cov p x = cnt p l + cov p y.
Proof. induction l as [|z l IH]; intros [|k] x y H; cbn in *; try discriminate. { injection H as ->. lia. } specialize (IH k x y H). lia. Qed.
Lemma cnt_two p l : forall i j x y, nth_error l i = Some x -> nth_error l j = Some y -> i <> j -> cov p x + cov p y <= cnt p l.
Proof.
  assert (K : forall l i x, nth_error l i = Some x -> cov p x <= cnt p l).
  { clear l. induction l as [|z l IH]; intros [|i] x H; cbn in *; try discriminate; [injection H as ->; lia|].
    specialize (IH i x H). lia. }
  induction l as [|z l IH]; intros [|i] [|j] x y Hi Hj Hn; cbn in *; try discriminate; try lia.
  - injection Hi as ->. specialize (K l j y Hj). lia.
  - injection Hj as ->. specialize (K l i x Hi). lia.
  - specialize (IH i j x y Hi Hj ltac:(lia)). lia.
Qed.
Lemma cnt_out p (l : list ix) n : (forall x, In x l -> ib x + ic x <= n) -> n <= p -> cnt p l = 0.
Proof.
  intros H Hp. induction l as [|x l IH]; auto. cbn. rewrite IH by (intros y Hy; apply H; right; auto).
  specialize (H x (or_introl eq_refl)). destruct (cov_spec p x) as [(_ & Q)|(-> & _)]; lia.
Qed.
Lemma cnt_concat_upd p (f : list (list ix)) : forall o v w, nth_error f o = Some v -> cnt p (concat (upd o w f)) + cnt p v = cnt p (concat f) + cnt p w.
Proof.
  induction f as [|z l IH]; intros [|k] x y H; cbn in *; try discriminate; rewrite !cnt_app.
  - injection H as ->. lia.
  - specialize (IH k x y H). lia.
Qed.

Definition okcap (c : nat) : Prop := c = 0 \/ exists o, o <= lmax /\ c = 2 ^ o.
Definition okix (d : list A) (b : list A) (x : ix) : Prop :=
  isz x = length b /\ isz x <= ic x /\ okcap (ic x) /\ ib x + ic x <= length d /\
  forall i, i < isz x -> nth_error d (ib x + i) = nth_error b i.
Definition okfree (n : nat) (f : list (list ix)) : Prop :=
  length f = lmax + 1 /\ forall o v x, nth_error f o = Some v -> In x v -> ic x = 2 ^ o /\ ib x + ic x <= n.
Record Inv (m : mm A) (l : list (list A)) : Prop := {
  inv_len : length (mm_index m) = length l;
  inv_ix : forall k x, nth_error (mm_index m) k = Some x -> okix (mm_data m) (nth k l []) x;
  inv_free : okfree (length (mm_data m)) (mm_free m);
  inv_cnt : forall p, cnt p (mm_index m) + cnt p (concat (mm_free m)) <= 1
}.

Lemma okfree_in n f x : okfree n f -> In x (concat f) -> ib x + ic x <= n.
Proof.
  intros (_ & H) Hx. apply in_concat in Hx as (v & Hv & Hx). apply In_nth_error in Hv as (o & Ho).
  apply (H o v x); auto.
Qed.
Lemma inv_lookup m l k : Inv m l -> k < length l -> exists x, nth_error (mm_index m) k = Some x /\ okix (mm_data m) (nth k l []) x.
Proof.
  intros I H. rewrite <- (inv_len _ _ I) in H. destruct (nth_error (mm_index m) k) as [x|] eqn:E.
  - exists x. split; auto. apply (inv_ix _ _ I); auto.
  - apply nth_error_None in E. lia.
Qed.
Lemma nth_upd_list {B} k j (b d : B) l : k < length l -> nth j (upd k b l) d = if k =? j then b else nth j l d.
Proof.
  intros H. destruct (Nat.eqb_spec k j) as [<-|Hn].
  - apply nth_error_nth. rewrite nth_error_upd, Nat.eqb_refl. destruct (Nat.ltb_spec k (length l)); auto. lia.
  - destruct (lt_dec j (length l)) as [L|L].
    + destruct (nth_error l j) as [y|] eqn:E; [|apply nth_error_None in E; lia].
      rewrite (nth_error_nth _ _ d E). apply nth_error_nth. rewrite nth_error_upd.
      destruct (Nat.eqb_spec k j); [congruence|]. auto.
    + rewrite !nth_overflow; auto; try rewrite upd_length; lia.
Qed.

(* changing one bucket inside its block *)
Lemma inv_change m l k x s' b' d' c' : Inv m l -> nth_error (mm_index m) k = Some x ->
  s' = length b' -> s' <= ic x -> length d' = length (mm_data m) ->
  (forall p, ~ (ib x <= p < ib x + ic x) -> nth_error d' p = nth_error (mm_data m) p) ->
  (forall i, i < s' -> nth_error d' (ib x + i) = nth_error b' i) ->
  Inv (MM (upd k (Ix (ib x) s' (ic x)) (mm_index m)) d' (mm_free m) c') (upd k b' l).
Proof.
  intros I Hk Hs Hc Hd Hout Hin.
  assert (Kl : k < length l) by (rewrite <- (inv_len _ _ I); apply nth_error_Some; congruence).
  split; cbn [mm_index mm_data mm_free].
  - rewrite !upd_length. apply inv_len; auto.
  - intros j y Hj. rewrite nth_error_upd in Hj. rewrite nth_upd_list by auto.
    destruct (Nat.eqb_spec k j) as [<-|Hn]; cbn [andb] in Hj.
    + destruct (Nat.ltb_spec k (length (mm_index m))) as [L|L]; [|rewrite (inv_len _ _ I) in L; lia].
      injection Hj as <-. destruct (inv_ix _ _ I k x Hk) as (Q1 & Q2 & Q3 & Q4 & Q5).
      unfold okix. cbn [ib isz ic]. repeat split; auto. lia.
    + destruct (inv_ix _ _ I j y Hj) as (Q1 & Q2 & Q3 & Q4 & Q5). unfold okix. repeat split; auto; try lia.
      intros i Hi. rewrite <- Q5 by auto. apply Hout. intros Hp.
      pose proof (cnt_two (ib y + i) _ k j x y Hk Hj Hn) as C2. pose proof (inv_cnt _ _ I (ib y + i)) as C1.
      destruct (cov_spec (ib y + i) x) as [(E1 & _)|(_ & E1)]; [|lia].
      destruct (cov_spec (ib y + i) y) as [(E2 & _)|(_ & E2)]; lia.
  - rewrite Hd. apply (inv_free _ _ I).
  - intros p. pose proof (cnt_upd p _ k x (Ix (ib x) s' (ic x)) Hk) as U. pose proof (inv_cnt _ _ I p).
    change (cov p (Ix (ib x) s' (ic x))) with (cov p x) in U. lia.
Qed.

(* giving one bucket another block *)
Lemma inv_relocate m l k x nb nc d' f' c' : Inv m l -> nth_error (mm_index m) k = Some x ->
  okcap nc -> isz x <= nc -> nb + nc <= length d' -> length (mm_data m) <= length d' ->
  okfree (length d') f' ->
  (forall p, p < length (mm_data m) -> cov p (Ix nb (isz x) nc) + cnt p (concat f') <= cov p x + cnt p (concat (mm_free m))) ->
  (forall p, length (mm_data m) <= p -> cov p (Ix nb (isz x) nc) + cnt p (concat f') <= 1) ->
  (forall p, p < length (mm_data m) -> ~ (nb <= p < nb + nc) -> nth_error d' p = nth_error (mm_data m) p) ->
  (forall i, i < isz x -> nth_error d' (nb + i) = nth_error (mm_data m) (ib x + i)) ->
  Inv (MM (upd k (Ix nb (isz x) nc) (mm_index m)) d' f' c') l.
Proof.
  intros I Hk Hcap Hs Hend Hd Hf C1 C2 Hout Hin.
  assert (Kl : k < length (mm_index m)) by (apply nth_error_Some; congruence).
  assert (IX : forall y, In y (mm_index m) -> ib y + ic y <= length (mm_data m)).
  { intros y Hy. apply In_nth_error in Hy as (j & Hj). apply (inv_ix _ _ I j y Hj). }
  split; cbn [mm_index mm_data mm_free]; auto.
  - rewrite upd_length. apply inv_len; auto.
  - intros j y Hj. rewrite nth_error_upd in Hj. destruct (Nat.eqb_spec k j) as [<-|Hn]; cbn [andb] in Hj.
    + destruct (Nat.ltb_spec k (length (mm_index m))) as [L|L]; [|lia]. injection Hj as <-.
      destruct (inv_ix _ _ I k x Hk) as (Q1 & Q2 & Q3 & Q4 & Q5). unfold okix. cbn [ib isz ic]. repeat split; auto.
      intros i Hi. rewrite Hin by auto. auto.
    + destruct (inv_ix _ _ I j y Hj) as (Q1 & Q2 & Q3 & Q4 & Q5). unfold okix. repeat split; auto; try lia.
      intros i Hi. rewrite <- Q5 by auto. apply Hout; [lia|]. intros Hp.
      pose proof (cnt_two (ib y + i) _ k j x y Hk Hj Hn) as T2. pose proof (inv_cnt _ _ I (ib y + i)) as T1.
      specialize (C1 (ib y + i) ltac:(lia)).
      destruct (cov_spec (ib y + i) (Ix nb (isz x) nc)) as [(E1 & _)|(_ & E1)]; [|cbn [ib ic] in E1; lia].
      destruct (cov_spec (ib y + i) y) as [(E2 & _)|(_ & E2)]; lia.
  - intros p. pose proof (cnt_upd p _ k x (Ix nb (isz x) nc) Hk) as U. pose proof (inv_cnt _ _ I p).
    destruct (lt_dec p (length (mm_data m))) as [L|L].
    + specialize (C1 p L). lia.
    + specialize (C2 p ltac:(lia)). rewrite (cnt_out p _ _ IX) in U by lia. lia.
Qed.

Lemma release_ok n f x : okfree n f -> okcap (ic x) -> ib x + ic x <= n ->
  exists f', mm_release f x = Ok f' /\ okfree n f' /\ forall p, cnt p (concat f') = cnt p (concat f) + cov p x.
Proof.
  intros Hf Hc He. unfold mm_release. destruct (Nat.eqb_spec (ic x) 0) as [E|E].
  { exists f. split; auto. split; auto. intros p. destruct (cov_spec p x) as [(_ & Q)|(-> & _)]; lia. }
  destruct Hc as [Hc|(o & Ho & Hc)]; [congruence|]. rewrite Hc, order_pow2 by lia.
  destruct Hf as (Hl & Hf). destruct (nth_error f o) as [v|] eqn:Ev; [|apply nth_error_None in Ev; lia].
  unfold idx. rewrite Ev. cbn [bind]. eexists. split; [reflexivity|]. split.
  - split; [rewrite upd_length; auto|]. intros o' v' y Hv Hy. rewrite nth_error_upd in Hv.
    destruct (Nat.eqb_spec o o') as [<-|Hn]; cbn [andb] in Hv; [|eapply Hf; eauto].
    destruct (Nat.ltb_spec o (length f)); [|lia]. injection Hv as <-. apply in_app_or in Hy as [Hy|[<-|[]]]; [eapply Hf; eauto|].
    cbn. lia.
  - intros p. pose proof (cnt_concat_upd p f o v (v ++ [Ix (ib x) 0 (2 ^ o)]) Ev) as U. rewrite cnt_app in U. cbn [cnt] in U.
    assert (Q : cov p (Ix (ib x) 0 (2 ^ o)) = cov p x) by (unfold cov; cbn [ib ic]; rewrite Hc; auto). lia.
Qed.
Lemma pop_some n f o x f' : okfree n f -> mm_pop f o = Some (x, f') ->
  ic x = 2 ^ o /\ ib x + ic x <= n /\ okfree n f' /\ forall p, cnt p (concat f') + cov p x = cnt p (concat f).
Proof.
  intros (Hl & Hf) E. unfold mm_pop in E. destruct (nth_error f o) as [v|] eqn:Ev; [|discriminate].
  destruct (rev v) as [|y r] eqn:R; [discriminate|]. injection E as <- <-.
  apply (f_equal (@rev _)) in R. rewrite rev_involutive in R. cbn [rev] in R.
  destruct (Hf o v y Ev) as (Q1 & Q2); [rewrite R; apply in_or_app; right; left; auto|].
  split; auto. split; auto. split.
  - split; [rewrite upd_length; auto|]. intros o' v' z Hv Hz. rewrite nth_error_upd in Hv.
    destruct (Nat.eqb_spec o o') as [<-|Hn]; cbn [andb] in Hv; [|eapply Hf; eauto].
    destruct (Nat.ltb_spec o (length f)); [|eapply Hf; eauto]. injection Hv as <-. apply (Hf o v z Ev). rewrite R.
    apply in_or_app. auto.
  - intros p. pose proof (cnt_concat_upd p f o v (rev r) Ev) as U. rewrite R, cnt_app in U. cbn [cnt] in U. lia.
Qed.
Lemma okfree_mono n n' f : n <= n' -> okfree n f -> okfree n' f.
Proof. intros H (Hl & Hf). split; auto. intros o v x Hv Hx. destruct (Hf o v x Hv Hx). lia. Qed.

Lemma grow_ok m l k x req : Inv m l -> nth_error (mm_index m) k = Some x -> ic x < req -> (N.of_nat req < W32)%N ->
  (req <= 2 ^ lmax -> exists m' x', mm_grow A dflt lmax m k req = Ok m' /\ Inv m' l /\ mm_count m' = mm_count m /\
     nth_error (mm_index m') k = Some x' /\ isz x' = isz x /\ req <= ic x') /\
  (2 ^ lmax < req -> mm_grow A dflt lmax m k req = Throw).
Proof.
  intros I Hk Hreq HW. unfold mm_grow. rewrite (idx_some _ _ _ Hk). cbn [bind].
  destruct (cap_for_spec lmax req lmax_ok ltac:(lia) HW) as (S1 & S2). split; intros Q.
  2: { specialize (S2 Q). destruct (Nat.leb_spec (order_of (cap_for req)) lmax); [lia|]. auto. }
  destruct (S1 Q) as (o & Ho & -> & -> & Hr). clear S1 S2. destruct (Nat.leb_spec o lmax); [|lia]. cbn [verify bind].
  assert (Kl : k < length (mm_index m)) by (apply nth_error_Some; congruence).
  destruct (inv_ix _ _ I k x Hk) as (Q1 & Q2 & Q3 & Q4 & Q5).
  pose proof (inv_free _ _ I) as HF.
  assert (UP : forall y, nth_error (upd k y (mm_index m)) k = Some y).
  { intros y. rewrite nth_error_upd, Nat.eqb_refl. destruct (Nat.ltb_spec k (length (mm_index m))); auto. lia. }
  assert (CX : forall p, cov p x <= cnt p (mm_index m)).
  { intros p. pose proof (cnt_upd p _ k x (Ix 0 0 0) Hk). destruct (cov_spec p (Ix 0 0 0)) as [(_ & Z)|(Z & _)]; cbn [ib ic] in Z; lia. }
  assert (OC : okcap (2 ^ o)) by (right; eauto).
  destruct (mm_pop (mm_free m) o) as [(f, f0)|] eqn:P.
  - destruct (pop_some _ _ _ _ _ HF P) as (F1 & F2 & F3 & F4).
    assert (DJ : 0 < isz x -> ib f + isz x <= ib x \/ ib x + isz x <= ib f).
    { intros Hp. pose proof (inv_cnt _ _ I (max (ib x) (ib f))) as C. specialize (F4 (max (ib x) (ib f))).
      specialize (CX (max (ib x) (ib f))).
      destruct (cov_spec (max (ib x) (ib f)) x) as [(? & _)|(_ & E1)];
      destruct (cov_spec (max (ib x) (ib f)) f) as [(? & _)|(_ & E2)]; lia. }
    assert (K : exists d f', (if ic x =? 0 then Ok (mm_data m, f0)
        else let* d := bcopy (mm_data m) (ib f) (ib x) (isz x) in let* free := mm_release f0 x in Ok (d, free)) = Ok (d, f') /\
        length d = length (mm_data m) /\ okfree (length (mm_data m)) f' /\ (forall p, cnt p (concat f') = cnt p (concat f0) + cov p x) /\
        (forall p, ~ (ib f <= p < ib f + 2 ^ o) -> nth_error d p = nth_error (mm_data m) p) /\
        (forall i, i < isz x -> nth_error d (ib f + i) = nth_error (mm_data m) (ib x + i))).
    { destruct (Nat.eqb_spec (ic x) 0) as [E|E].
      - exists (mm_data m), f0. split; [auto|]. split; [auto|]. split; [exact F3|]. split; [|split; [auto|]].
        + intros p. destruct (cov_spec p x) as [(_ & ?)|(-> & _)]; lia.
        + intros i Hi. lia.
      - rewrite bcopy_bmove by auto. destruct (bmove_ok (mm_data m) (ib f) (ib x) (isz x)) as (d & -> & Ld & Hd); [lia|lia|].
        destruct (release_ok _ f0 x F3 Q3 Q4) as (f' & -> & R1 & R2). cbn [bind]. exists d, f'. split; [auto|]. split; [auto|]. split; [exact R1|]. split; [auto|]. split.
        + intros p Hp. rewrite Hd. destruct (Nat.leb_spec (ib f) p), (Nat.ltb_spec p (ib f + isz x)); auto. exfalso. lia.
        + intros i Hi. rewrite Hd. destruct (Nat.leb_spec (ib f) (ib f + i)), (Nat.ltb_spec (ib f + i) (ib f + isz x)); try lia.
          cbn [andb]. f_equal. lia. }
    destruct K as (d & f' & -> & Ld & Kf & Kc & Ko & Ki). cbn [bind].
    eexists. eexists. split; [reflexivity|]. split; [|cbn [mm_count mm_index]; split; [reflexivity|]; split; [apply UP|cbn [isz ic]; lia]].
    rewrite F1. apply (inv_relocate m l k x); auto; try lia; try congruence.
    + intros p Hp. rewrite Kc, <- F4. unfold cov at 1 4. cbn [ib ic]. rewrite F1. lia.
    + intros p Hp. rewrite Kc. specialize (F4 p). rewrite (cnt_out p (concat (mm_free m)) (length (mm_data m))) in F4; auto.
      2: { intros y Hy. exact (okfree_in _ _ y HF Hy). }
      destruct (cov_spec p x) as [(_ & ?)|(? & _)]; [lia|]. destruct (cov_spec p (Ix (ib f) (isz x) (2 ^ o))) as [(_ & Z)|(Z & _)]; cbn [ib ic] in Z; lia.
  - destruct (Nat.eqb_spec (ib x + ic x) (length (mm_data m))) as [E|E].
    + eexists. eexists. split; [reflexivity|]. split; [|cbn [mm_count mm_index]; split; [reflexivity|]; split; [apply UP|cbn [isz ic]; lia]].
      apply (inv_relocate m l k x); auto; rewrite ?app_length, ?repeat_length; try lia.
      * eapply okfree_mono; [|exact HF]. lia.
      * intros p Hp. destruct (cov_spec p x) as [(? & ?)|(? & ?)], (cov_spec p (Ix (ib x) (isz x) (2 ^ o))) as [(? & Z)|(? & Z)]; cbn [ib ic] in Z; lia.
      * intros p Hp. rewrite (cnt_out p (concat (mm_free m)) (length (mm_data m))); auto.
        2: { intros y Hy. exact (okfree_in _ _ y HF Hy). }
        destruct (cov_spec p (Ix (ib x) (isz x) (2 ^ o))) as [(? & Z)|(? & Z)]; lia.
      * intros p Hp _. apply nth_error_app1. auto.
      * intros i Hi. apply nth_error_app1. lia.
    + rewrite bcopy_bmove by lia.
      destruct (bmove_ok (mm_data m ++ repeat dflt (2 ^ o)) (length (mm_data m)) (ib x) (isz x)) as (d & -> & Ld & Hd);
        rewrite ?app_length, ?repeat_length in *; [lia|lia|].
      destruct (release_ok _ _ x HF Q3 Q4) as (f' & -> & R1 & R2). cbn [bind].
      eexists. eexists. split; [reflexivity|]. split; [|cbn [mm_count mm_index]; split; [reflexivity|]; split; [apply UP|cbn [isz ic]; lia]].
      apply (inv_relocate m l k x); auto; try lia.
      * eapply okfree_mono; [|exact R1]. lia.
      * intros p Hp. rewrite R2. destruct (cov_spec p (Ix (length (mm_data m)) (isz x) (2 ^ o))) as [(? & Z)|(? & Z)]; cbn [ib ic] in Z; lia.
      * intros p Hp. rewrite R2, (cnt_out p (concat (mm_free m)) (length (mm_data m))); auto.
        2: { intros y Hy. exact (okfree_in _ _ y HF Hy). }
        destruct (cov_spec p x) as [(_ & ?)|(? & _)]; [lia|].
        destruct (cov_spec p (Ix (length (mm_data m)) (isz x) (2 ^ o))) as [(? & Z)|(? & Z)]; lia.
      * intros p Hp _. rewrite Hd. destruct (Nat.leb_spec (length (mm_data m)) p); [lia|]. cbn [andb]. apply nth_error_app1. auto.
      * intros i Hi. rewrite Hd. destruct (Nat.leb_spec (length (mm_data m)) (length (mm_data m) + i)); [|lia].
        destruct (Nat.ltb_spec (length (mm_data m) + i) (length (mm_data m) + isz x)); [|lia]. cbn [andb].
        rewrite nth_error_app1 by lia. f_equal. lia.
Qed.

Lemma okcap_le c : okcap c -> c <= 2 ^ lmax.
Proof. intros [->|(o & Ho & ->)]; [lia|]. apply Nat.pow_le_mono_r; lia. Qed.
Lemma pow_small : (N.of_nat (2 ^ lmax + 1) < W32)%N.
Proof.
  rewrite Nat2N.inj_add, pow2_of_nat. assert (2 ^ N.of_nat lmax <= 2 ^ 31)%N by (apply N.pow_le_mono_r; lia).
  change W32 with (2 ^ 31 + 2 ^ 31)%N. lia.
Qed.
Lemma concat_upd (l : list (list A)) : forall k b, k < length l ->
  length (concat (upd k b l)) + length (nth k l []) = length (concat l) + length b.
Proof.
  induction l as [|y l IH]; intros [|k] b H; cbn in *; try lia; rewrite !app_length; [lia|].
  specialize (IH k b ltac:(lia)). lia.
Qed.
Lemma nth_len_le (l : list (list A)) k : length (nth k l []) <= length (concat l).
Proof. revert k; induction l as [|y l IH]; intros [|k]; cbn; rewrite ?app_length; try lia. specialize (IH k). lia. Qed.

Lemma reserve_ok m l k n : Inv m l -> k < length l -> (N.of_nat n < W32)%N ->
  (n <= 2 ^ lmax -> exists m' x', mm_reserve A dflt lmax m k n = Ok m' /\ Inv m' l /\ mm_count m' = mm_count m /\
     nth_error (mm_index m') k = Some x' /\ n <= ic x') /\
  (2 ^ lmax < n -> mm_reserve A dflt lmax m k n = Throw).
Proof.
  intros I Hk HW. destruct (inv_lookup m l k I Hk) as (x & Hx & Q). unfold mm_reserve. rewrite (idx_some _ _ _ Hx). cbn [bind].
  destruct (Nat.ltb_spec (ic x) n) as [L|L].
  - destruct (grow_ok m l k x n I Hx L HW) as (G1 & G2). split; auto. intros F.
    destruct (G1 F) as (m' & x' & E1 & E2 & E3 & E4 & E5 & E6). eauto 10.
  - destruct Q as (_ & _ & Q & _). apply okcap_le in Q. split; [|lia]. intros _. exists m, x. auto.
Qed.

Definition BR (m : mm A) (s : bstate A) : Prop := Inv m (fst s) /\ mm_count m = length (concat (fst s)) + snd s.

Lemma change_ok m l e k x s' b' d' : BR m (l, e) -> nth_error (mm_index m) k = Some x ->
  s' = length b' -> s' <= ic x -> length d' = length (mm_data m) ->
  (forall p, ~ (ib x <= p < ib x + ic x) -> nth_error d' p = nth_error (mm_data m) p) ->
  (forall i, i < s' -> nth_error d' (ib x + i) = nth_error b' i) ->
  forall c', c' + length (nth k l []) = mm_count m + length b' ->
  BR (MM (upd k (Ix (ib x) s' (ic x)) (mm_index m)) d' (mm_free m) c') (upd k b' l, e).
Proof.
  intros (I & C) Hk H1 H2 H3 H4 H5 c' Hc. cbn [fst snd] in *. split; cbn [fst snd].
  - eapply inv_change; eauto.
  - cbn [mm_count]. assert (k < length l) by (rewrite <- (inv_len _ _ I); apply nth_error_Some; congruence).
    pose proof (concat_upd l k b' H). lia.
Qed.

Lemma nth_error_upd' {B} (l : list B) p v q : p < length l -> nth_error (upd p v l) q = if p =? q then Some v else nth_error l q.
Proof. intros H. rewrite nth_error_upd. destruct (Nat.eqb_spec p q) as [<-|]; cbn [andb]; auto. destruct (Nat.ltb_spec p (length l)); auto. lia. Qed.
Lemma fill_ok n : forall (d : list A) p v, p + n <= length d -> exists d', mm_fill A d p n v = Ok d' /\ length d' = length d /\
  forall q, nth_error d' q = if (p <=? q) && (q <? p + n) then Some v else nth_error d q.
Proof.
  induction n as [|n IH]; intros d p v H; cbn [mm_fill].
  - exists d. split; auto. split; auto. intros q. destruct (Nat.leb_spec p q), (Nat.ltb_spec q (p + 0)); auto; lia.
  - rewrite put_ok by lia. cbn [bind]. destruct (IH (upd p v d) (S p) v) as (d' & -> & L & Hd); [rewrite upd_length; lia|].
    rewrite upd_length in L. exists d'. split; auto. split; auto. intros q. rewrite Hd, nth_error_upd' by lia.
    destruct (Nat.leb_spec (S p) q), (Nat.ltb_spec q (S p + n)), (Nat.leb_spec p q), (Nat.ltb_spec q (p + S n)), (Nat.eqb_spec p q); cbn [andb]; auto; lia.
Qed.
Lemma okix_get d b x i : okix d b x -> i < length b -> idx d (ib x + i) = idx b i.
Proof. intros (Q1 & Q2 & Q3 & Q4 & Q5) H. unfold idx. rewrite Q5 by lia. auto. Qed.

Lemma push_ok m l e k v : BR m (l, e) -> k < length l ->
  if fits lmax (length (nth k l []) + 1) then exists m', mm_push A dflt lmax m k v = Ok m' /\ BR m' (upd k (nth k l [] ++ [v]) l, e)
  else mm_push A dflt lmax m k v = Throw.
Proof.
  intros (I & C) Hk. destruct (inv_lookup m l k I Hk) as (x & Hx & Q). unfold mm_push. rewrite (idx_some _ _ _ Hx). cbn [bind].
  pose proof pow_small as PS. cbn [fst snd] in *.
  assert (K : exists r, (if isz x =? ic x then mm_grow A dflt lmax m k (ic x + 1) else Ok m) = r /\
     if fits lmax (length (nth k l []) + 1) then exists m' x', r = Ok m' /\ Inv m' l /\ mm_count m' = mm_count m /\
        nth_error (mm_index m') k = Some x' /\ isz x' < ic x' else r = Throw).
  { eexists. split; [reflexivity|]. unfold fits. destruct Q as (Q1 & Q2 & Q3 & _). pose proof (okcap_le _ Q3). rewrite <- Q1.
    destruct (Nat.eqb_spec (isz x) (ic x)) as [E|E].
    - destruct (grow_ok m l k x (ic x + 1) I Hx ltac:(lia) ltac:(lia)) as (G1 & G2).
      destruct (Nat.leb_spec (isz x + 1) (2 ^ lmax)).
      + destruct (G1 ltac:(lia)) as (m' & x' & E1 & E2 & E3 & E4 & E5 & E6). exists m', x'. split; [auto|]. split; [auto|]. split; [auto|]. split; [auto|lia].
      + apply G2. lia.
    - destruct (Nat.leb_spec (isz x + 1) (2 ^ lmax)); [|lia]. exists m, x. split; [auto|]. split; [auto|]. split; [auto|]. split; [auto|lia]. }
  destruct K as (r & -> & K). destruct (fits lmax _); [|subst r; auto].
  destruct K as (m1 & x1 & -> & I1 & C1 & Hx1 & L1). cbn [bind]. rewrite (idx_some _ _ _ Hx1). cbn [bind].
  destruct (inv_ix _ _ I1 k x1 Hx1) as (R1 & R2 & R3 & R4 & R5).
  rewrite put_ok by lia. cbn [bind]. eexists. split; [reflexivity|].
  apply (change_ok m1 l e k x1); auto; rewrite ?app_length, ?upd_length; cbn [length]; try lia.
  - split; auto. cbn. lia.
  - intros p Hp. rewrite nth_error_upd' by lia. destruct (Nat.eqb_spec (ib x1 + isz x1) p); auto. lia.
  - intros i Hi. rewrite nth_error_upd' by lia. destruct (Nat.eqb_spec (ib x1 + isz x1) (ib x1 + i)) as [E|E].
    + replace i with (length (nth k l [])) by lia. rewrite nth_error_app2, Nat.sub_diag; auto.
    + rewrite R5 by lia. rewrite nth_error_app1; auto. lia.
Qed.

Lemma nth_error_insert {B} (b : list B) i v j : i <= length b ->
  nth_error (firstn i b ++ v :: skipn i b) j = if j <? i then nth_error b j else if j =? i then Some v else nth_error b (j - 1).
Proof.
  intros H. assert (L : length (firstn i b) = i) by (rewrite firstn_length; lia).
  destruct (Nat.ltb_spec j i).
  - rewrite nth_error_app1 by lia. apply nth_error_firstn_lt. auto.
  - rewrite nth_error_app2, L by lia. destruct (Nat.eqb_spec j i) as [->|].
    + rewrite Nat.sub_diag. auto.
    + destruct (j - i) as [|n'] eqn:E; [lia|]. cbn [nth_error].
      rewrite <- (firstn_skipn i b) at 2. rewrite nth_error_app2, L by lia. f_equal. lia.
Qed.
Lemma nth_error_skip {B} (b : list B) i j : nth_error (skipn i b) j = nth_error b (i + j).
Proof. revert b; induction i as [|i IH]; intros [|x b]; cbn; auto. destruct j; auto. Qed.
Lemma nth_error_cut {B} (b : list B) i j p : i <= j -> j <= length b ->
  nth_error (firstn i b ++ skipn j b) p = if p <? i then nth_error b p else nth_error b (p + (j - i)).
Proof.
  intros H1 H2. assert (L : length (firstn i b) = i) by (rewrite firstn_length; lia).
  destruct (Nat.ltb_spec p i).
  - rewrite nth_error_app1 by lia. apply nth_error_firstn_lt. auto.
  - rewrite nth_error_app2, L by lia. rewrite nth_error_skip. f_equal. lia.
Qed.

Lemma insert_ok m l e k i v : BR m (l, e) -> k < length l -> i <= length (nth k l []) ->
  if fits lmax (length (nth k l []) + 1)
  then exists m', mm_insert A dflt lmax m k i v = Ok m' /\ BR m' (upd k (firstn i (nth k l []) ++ v :: skipn i (nth k l [])) l, e)
  else mm_insert A dflt lmax m k i v = Throw.
Proof.
  intros (I & C) Hk Hi. destruct (inv_lookup m l k I Hk) as (x & Hx & Q). unfold mm_insert. rewrite (idx_some _ _ _ Hx). cbn [bind].
  pose proof pow_small as PS. cbn [fst snd] in *. destruct Q as (Q1 & Q2 & Q3 & _). pose proof (okcap_le _ Q3).
  destruct (reserve_ok m l k (isz x + 1) I Hk ltac:(lia)) as (G1 & G2). rewrite <- Q1. unfold fits.
  destruct (Nat.leb_spec (isz x + 1) (2 ^ lmax)) as [F|F]; [|rewrite (G2 F); auto].
  destruct (G1 F) as (m1 & x1 & -> & I1 & C1 & Hx1 & L1). cbn [bind]. rewrite (idx_some _ _ _ Hx1). cbn [bind].
  destruct (inv_ix _ _ I1 k x1 Hx1) as (R1 & R2 & R3 & R4 & R5).
  destruct (Nat.leb_spec i (isz x1)); [|lia].
  destruct (bmove_ok (mm_data m1) (ib x1 + i + 1) (ib x1 + i) (isz x1 - i)) as (d & -> & Ld & Hd); [lia|lia|]. cbn [bind].
  rewrite put_ok by lia. cbn [bind]. eexists. split; [reflexivity|].
  assert (LL : length (firstn i (nth k l []) ++ v :: skipn i (nth k l [])) = isz x1 + 1).
  { rewrite app_length, firstn_length. cbn [length]. rewrite skipn_length. lia. }
  apply (change_ok m1 l e k x1); auto; rewrite ?LL, ?upd_length; try lia.
  - split; auto. cbn. lia.
  - intros p Hp. rewrite nth_error_upd' by lia. rewrite Hd.
    destruct (Nat.eqb_spec (ib x1 + i) p); [lia|]. destruct (Nat.leb_spec (ib x1 + i + 1) p), (Nat.ltb_spec p (ib x1 + i + 1 + (isz x1 - i))); auto. lia.
  - intros j Hj. rewrite nth_error_upd', nth_error_insert, Hd by lia.
    destruct (Nat.eqb_spec (ib x1 + i) (ib x1 + j)), (Nat.ltb_spec j i), (Nat.eqb_spec j i); auto; try lia.
    + destruct (Nat.leb_spec (ib x1 + i + 1) (ib x1 + j)); [lia|]. cbn [andb]. apply R5. lia.
    + destruct (Nat.leb_spec (ib x1 + i + 1) (ib x1 + j)), (Nat.ltb_spec (ib x1 + j) (ib x1 + i + 1 + (isz x1 - i))); try lia.
      cbn [andb]. rewrite <- R5 by lia. f_equal. lia.
Qed.

Lemma resize_bucket_ok m l e k n v : BR m (l, e) -> k < length l -> (N.of_nat n < W32)%N ->
  if fits lmax n
  then exists m', mm_resize A dflt lmax m k n v = Ok m' /\ BR m' (upd k (firstn n (nth k l []) ++ repeat v (n - length (nth k l []))) l, e)
  else mm_resize A dflt lmax m k n v = Throw.
Proof.
  intros (I & C) Hk HW. destruct (inv_lookup m l k I Hk) as (x & Hx & Q). unfold mm_resize. rewrite (idx_some _ _ _ Hx). cbn [bind].
  cbn [fst snd] in *. destruct Q as (Q1 & Q2 & Q3 & _).
  destruct (reserve_ok m l k n I Hk HW) as (G1 & G2). unfold fits.
  destruct (Nat.leb_spec n (2 ^ lmax)) as [F|F]; [|rewrite (G2 F); auto].
  destruct (G1 F) as (m1 & x1 & -> & I1 & C1 & Hx1 & L1). cbn [bind]. rewrite (idx_some _ _ _ Hx1). cbn [bind].
  destruct (inv_ix _ _ I1 k x1 Hx1) as (R1 & R2 & R3 & R4 & R5).
  assert (LL : length (firstn n (nth k l []) ++ repeat v (n - length (nth k l []))) = n).
  { rewrite app_length, firstn_length, repeat_length. lia. }
  destruct (Nat.ltb_spec n (isz x)) as [L|L].
  - eexists. split; [reflexivity|]. pose proof (nth_len_le l k).
    apply (change_ok m1 l e k x1); auto; rewrite ?LL; try lia.
    + split; auto. cbn. lia.
    + intros i Hi. rewrite R5 by lia. rewrite nth_error_app1 by (rewrite firstn_length; lia). rewrite nth_error_firstn_lt; auto.
  - destruct (fill_ok (n - isz x) (mm_data m1) (ib x1 + isz x) v) as (d & -> & Ld & Hd); [lia|]. cbn [bind].
    eexists. split; [reflexivity|].
    apply (change_ok m1 l e k x1); auto; rewrite ?LL; try lia.
    + split; auto. cbn. lia.
    + intros p Hp. rewrite Hd. destruct (Nat.leb_spec (ib x1 + isz x) p), (Nat.ltb_spec p (ib x1 + isz x + (n - isz x))); auto. lia.
    + intros i Hi. rewrite Hd. rewrite firstn_all2 by lia. destruct (lt_dec i (isz x)) as [Li|Li].
      * destruct (Nat.leb_spec (ib x1 + isz x) (ib x1 + i)); [lia|]. cbn [andb]. rewrite R5 by lia. rewrite nth_error_app1; auto. lia.
      * destruct (Nat.leb_spec (ib x1 + isz x) (ib x1 + i)), (Nat.ltb_spec (ib x1 + i) (ib x1 + isz x + (n - isz x))); try lia. cbn [andb].
        rewrite nth_error_app2 by lia. symmetry. rewrite (nth_error_nth' _ v) by (rewrite repeat_length; lia). rewrite nth_repeat. auto.
Qed.

Lemma erase_range_ok m l e k i j : BR m (l, e) -> k < length l -> i <= j -> j <= length (nth k l []) ->
  exists m', mm_erase_range A m k i j = Ok (m', length (nth k l []) - (j - i)) /\
    BR m' (upd k (firstn i (nth k l []) ++ skipn j (nth k l [])) l, e).
Proof.
  intros B Hk Hij Hj. pose proof B as (I & C). destruct (inv_lookup m l k I Hk) as (x & Hx & Q). unfold mm_erase_range.
  rewrite (idx_some _ _ _ Hx). cbn [bind]. pose proof Q as (Q1 & Q2 & Q3 & Q4 & Q5). cbn [fst snd] in *.
  destruct (Nat.leb_spec i j); [|lia]. destruct (Nat.leb_spec j (isz x)); [|lia]. cbn [andb].
  destruct (Nat.eqb_spec i j) as [<-|Hn].
  - exists m. rewrite Nat.sub_diag, Nat.sub_0_r, firstn_skipn. split; [congruence|].
    replace (upd k (nth k l []) l) with l; auto. apply list_ext. intros p. rewrite nth_error_upd' by auto.
    destruct (Nat.eqb_spec k p) as [<-|]; auto. apply nth_error_nth'. auto.
  - destruct (bmove_ok (mm_data m) (ib x + i) (ib x + j) (isz x - j)) as (d & -> & Ld & Hd); [lia|lia|]. cbn [bind].
    eexists. split; [rewrite <- Q1; reflexivity|].
    assert (LL : length (firstn i (nth k l []) ++ skipn j (nth k l [])) = isz x - (j - i)) by (rewrite app_length, firstn_length, skipn_length; lia).
    pose proof (nth_len_le l k).
    apply (change_ok m l e k x); auto; rewrite ?LL; try lia.
    + intros p Hp. rewrite Hd. destruct (Nat.leb_spec (ib x + i) p), (Nat.ltb_spec p (ib x + i + (isz x - j))); auto. lia.
    + intros p Hp. rewrite Hd, nth_error_cut by lia.
      destruct (Nat.leb_spec (ib x + i) (ib x + p)), (Nat.ltb_spec (ib x + p) (ib x + i + (isz x - j))), (Nat.ltb_spec p i); try lia; cbn [andb].
      * rewrite <- Q5 by lia. f_equal. lia.
      * apply Q5. lia.
Qed.
Lemma erase_ok m l e k i : BR m (l, e) -> i < length (nth k l []) ->
  exists m', mm_erase A m k i = Ok (m', length (nth k l []) - 1) /\
    BR m' (upd k (firstn i (nth k l []) ++ skipn (i + 1) (nth k l [])) l, e).
Proof.
  intros B Hi. assert (Hk : k < length l).
  { destruct (le_lt_dec (length l) k); auto. rewrite nth_overflow in Hi by auto. cbn in Hi. lia. }
  pose proof B as (I & C). destruct (inv_lookup m l k I Hk) as (x & Hx & Q). unfold mm_erase.
  rewrite (idx_some _ _ _ Hx). cbn [bind]. pose proof Q as (Q1 & Q2 & Q3 & Q4 & Q5). cbn [fst snd] in *.
  destruct (Nat.ltb_spec i (isz x)); [|lia].
  rewrite (okix_get _ _ _ _ Q Hi). destruct (nth_error (nth k l []) i) as [v|] eqn:Ev; [|apply nth_error_None in Ev; lia].
  rewrite (idx_some _ _ _ Ev). cbn [bind].
  destruct (bmove_ok (mm_data m) (ib x + i) (ib x + i + 1) (isz x - 1 - i)) as (d & -> & Ld & Hd); [lia|lia|]. cbn [bind].
  rewrite put_ok by lia. cbn [bind]. eexists. split; [rewrite <- Q1; reflexivity|].
  assert (LL : length (firstn i (nth k l []) ++ skipn (i + 1) (nth k l [])) = isz x - 1) by (rewrite app_length, firstn_length, skipn_length; lia).
  pose proof (nth_len_le l k).
  apply (change_ok m l e k x); auto; rewrite ?LL, ?upd_length; try lia.
  + intros p Hp. rewrite nth_error_upd', Hd by lia. destruct (Nat.eqb_spec (ib x + isz x - 1) p); [lia|].
    destruct (Nat.leb_spec (ib x + i) p), (Nat.ltb_spec p (ib x + i + (isz x - 1 - i))); auto. lia.
  + intros p Hp. rewrite nth_error_upd', Hd, nth_error_cut by lia. destruct (Nat.eqb_spec (ib x + isz x - 1) (ib x + p)); [lia|].
    destruct (Nat.leb_spec (ib x + i) (ib x + p)), (Nat.ltb_spec (ib x + p) (ib x + i + (isz x - 1 - i))), (Nat.ltb_spec p i); try lia; cbn [andb].
    * rewrite <- Q5 by lia. f_equal. lia.
    * apply Q5. lia.
Qed.

Lemma bucket_ok m l k : Inv m l -> k < length l -> mm_bucket A m k = Ok (nth k l []).
Proof.
  intros I Hk. destruct (inv_lookup m l k I Hk) as (x & Hx & Q). unfold mm_bucket. rewrite (idx_some _ _ _ Hx). cbn [bind].
  destruct Q as (Q1 & Q2 & Q3 & Q4 & Q5). unfold range.
  destruct (Nat.leb_spec (ib x) (ib x + isz x)); [|lia]. destruct (Nat.leb_spec (ib x + isz x) (length (mm_data m))); [|lia]. cbn [andb].
  f_equal. replace (ib x + isz x - ib x) with (isz x) by lia. apply list_ext. intros i. destruct (lt_dec i (isz x)).
  - rewrite nth_error_firstn_lt, nth_error_skip by auto. apply Q5. auto.
  - rewrite !(proj2 (nth_error_None _ _)); auto; rewrite ?firstn_length; lia.
Qed.
Lemma at_ok m l k : Inv m l -> mm_at A m k = match nth_error l k with Some b => Ok b | None => Throw end.
Proof.
  intros I. unfold mm_at. rewrite (inv_len _ _ I). destruct (nth_error l k) as [b|] eqn:E.
  - assert (k < length l) by (apply nth_error_Some; congruence). destruct (Nat.ltb_spec k (length l)); [|lia]. cbn [verify bind].
    rewrite (bucket_ok m l k) by auto. rewrite (nth_error_nth _ _ [] E). auto.
  - apply nth_error_None in E. destruct (Nat.ltb_spec k (length l)); [lia|]. auto.
Qed.
Lemma all_ok m l : Inv m l -> mm_all A m = Ok l.
Proof.
  intros I. unfold mm_all. rewrite (inv_len _ _ I).
  assert (G : forall n k, k + n = length l -> mm_all_from A m k n = Ok (skipn k l)).
  { induction n as [|n IH]; intros k Hk; cbn [mm_all_from].
    - rewrite skipn_all2; auto. lia.
    - rewrite (at_ok m l k I). destruct (nth_error l k) as [b|] eqn:E; [|apply nth_error_None in E; lia]. cbn [bind]. rewrite IH by lia. cbn [bind].
      f_equal. rewrite <- (nth_error_nth _ _ [] E). apply skipn_nth. lia. }
  rewrite G by lia. auto.
Qed.

Lemma inv_extend m l n c : Inv m l -> Inv (MM (mm_index m ++ repeat (Ix 0 0 0) n) (mm_data m) (mm_free m) c) (l ++ repeat [] n).
Proof.
  intros I. split; cbn [mm_index mm_data mm_free].
  - rewrite !app_length, !repeat_length, (inv_len _ _ I). auto.
  - intros k x Hk. destruct (lt_dec k (length l)) as [L|L].
    + rewrite nth_error_app1 in Hk by (rewrite (inv_len _ _ I); auto). rewrite app_nth1 by auto. apply (inv_ix _ _ I); auto.
    + rewrite nth_error_app2 in Hk by (rewrite (inv_len _ _ I); lia). apply nth_error_In, repeat_spec in Hk. subst x.
      rewrite app_nth2, nth_repeat by lia. unfold okix. cbn. repeat split; auto; try lia. left. auto.
  - apply (inv_free _ _ I).
  - intros p. rewrite cnt_app. pose proof (inv_cnt _ _ I p). assert (Z : cnt p (repeat (Ix 0 0 0) n) = 0).
    { clear. induction n; auto. }
    lia.
Qed.
Lemma concat_nils (n : nat) : concat (repeat (@nil A) n) = [].
Proof. induction n; auto. Qed.

Lemma erase_key_ok m l e k : BR m (l, e) -> exists m', mm_erase_key A m k = Ok m' /\ BR m' (upd k [] l, e + length (nth k l [])).
Proof.
  intros (I & C). unfold mm_erase_key. cbn [fst snd] in *. destruct (nth_error (mm_index m) k) as [x|] eqn:Hx.
  2: { apply nth_error_None in Hx. rewrite (inv_len _ _ I) in Hx. exists m. split; auto. rewrite nth_overflow by auto.
       replace (upd k [] l) with l; [split; cbn; auto; lia|]. symmetry. clear -Hx. revert k Hx; induction l as [|y l IH]; intros [|k] H; cbn in *; auto; [lia|]. rewrite IH; auto. lia. }
  assert (Hk : k < length l) by (rewrite <- (inv_len _ _ I); apply nth_error_Some; congruence).
  destruct (inv_ix _ _ I k x Hx) as (Q1 & Q2 & Q3 & Q4 & Q5).
  destruct (Nat.eqb_spec (ic x) 0) as [E|E].
  - assert (E0 : nth k l [] = []) by (destruct (nth k l []); auto; cbn in Q1; lia). rewrite E0.
    exists m. split; auto. replace (upd k [] l) with l; [split; cbn; auto; lia|].
    apply list_ext. intros p. rewrite nth_error_upd' by auto.
    destruct (Nat.eqb_spec k p) as [<-|]; auto. rewrite <- E0. apply nth_error_nth'. auto.
  - destruct (release_ok _ _ x (inv_free _ _ I) Q3 Q4) as (f' & -> & R1 & R2). cbn [bind]. eexists. split; [reflexivity|].
    split; cbn [fst snd mm_count]; [|pose proof (concat_upd l k [] Hk) as CU; cbn [length] in CU; lia].
    pose proof (inv_change m l k x 0 [] (mm_data m) (mm_count m) I Hx eq_refl ltac:(lia) eq_refl ltac:(auto) ltac:(intros i Hi; lia)) as I1.
    pose proof (inv_relocate _ _ k (Ix (ib x) 0 (ic x)) (ib x) 0 (mm_data m) f' (mm_count m) I1) as RL. cbn [mm_index mm_data mm_free isz] in RL.
    assert (UU : upd k (Ix (ib x) 0 0) (upd k (Ix (ib x) 0 (ic x)) (mm_index m)) = upd k (Ix (ib x) 0 0) (mm_index m)).
    { generalize (mm_index m) (Ix (ib x) 0 0) (Ix (ib x) 0 (ic x)). clear. intros L a b. revert k; induction L as [|y L IH]; intros [|k]; cbn; auto. rewrite IH. auto. }
    rewrite UU in RL. apply RL; auto; try lia.
    + rewrite nth_error_upd' by (rewrite (inv_len _ _ I); auto). rewrite Nat.eqb_refl. auto.
    + left; auto.
    + intros p Hp. rewrite R2. change (cov p (Ix (ib x) 0 (ic x))) with (cov p x).
      destruct (cov_spec p (Ix (ib x) 0 0)) as [(_ & Z)|(Z & _)]; cbn [ib ic] in Z; lia.
    + intros p Hp. rewrite (cnt_out p (concat f') (length (mm_data m))); auto.
      2: { intros y Hy. exact (okfree_in _ _ y R1 Hy). }
      destruct (cov_spec p (Ix (ib x) 0 0)) as [(_ & Z)|(Z & _)]; cbn [ib ic] in Z; lia.
Qed.

Lemma new_inv f c : length f = lmax + 1 -> (forall v, In v f -> v = []) -> Inv (MM [] [] f c) [].
Proof.
  intros Hl Hf. assert (Z : concat f = []). { clear Hl. induction f as [|v f IH]; auto. cbn. rewrite (Hf v), IH; auto; [|left; auto]. intros w Hw. apply Hf. right. auto. }
  split; cbn [mm_index mm_data mm_free]; auto.
  - intros [|k] x [=].
  - split; auto. intros o v x Hv Hx. apply nth_error_In, Hf in Hv. subst v. destruct Hx.
  - intros p. rewrite Z. cbn. lia.
Qed.

Lemma mm_step_ok m s o s' r : BR m s -> mm_spec A lmax s o = Some (s', r) ->
  exists m', mm_step A dflt lmax m o = Ok (m', r) /\ BR m' s'.
Proof.
  destruct s as (l, e). intros B E. pose proof B as (I & C). cbn [fst snd] in I, C. destruct o; cbn [mm_spec mm_step] in *.
  - injection E as <- <-. eexists. split; [reflexivity|]. unfold mm_touch, grown. rewrite (inv_len _ _ I).
    assert (Z : length (concat (l ++ repeat [] (k + 1 - length l))) = length (concat l)) by (rewrite concat_app, concat_nils, app_nil_r; auto).
    split; cbn [fst snd mm_count]; [|lia].
    pose proof (inv_extend m l (k + 1 - length l) (mm_count m) I) as IE.
    destruct (Nat.leb_spec (length l) k) as [L|L]; auto. replace (k + 1 - length l) with 0 in * by lia. cbn [repeat] in *.
    rewrite !app_nil_r in *. auto.
  - injection E as <- <-. eexists. split; [reflexivity|]. unfold mm_get_or_create, grown. rewrite (inv_len _ _ I).
    assert (Z : length (concat (l ++ repeat [] (k + 1 - length l))) = length (concat l)) by (rewrite concat_app, concat_nils, app_nil_r; auto).
    split; cbn [fst snd mm_count]; [|lia].
    pose proof (inv_extend m l (k + 1 - length l) (mm_count m) I) as IE. unfold res_resize. rewrite (inv_len _ _ I).
    destruct (Nat.leb_spec (length l) (k + 1)) as [L|L].
    + rewrite firstn_all2 by (rewrite (inv_len _ _ I); auto). auto.
    + replace (k + 1 - length l) with 0 in * by lia. cbn [repeat] in *. rewrite !app_nil_r in *. auto.
  - apply guard_some in E as (Z & E). apply Nat.ltb_lt in Z. pose proof (push_ok m l e k v B Z) as P.
    destruct (fits lmax _); injection E as <- <-.
    + destruct P as (m' & -> & P). cbn. eauto.
    + rewrite P. cbn. eauto.
  - apply guard_some in E as (Z & E). apply andb_true_iff in Z as (Z & Z2). apply Nat.ltb_lt in Z. apply Nat.leb_le in Z2.
    pose proof (insert_ok m l e k i v B Z Z2) as P.
    destruct (fits lmax _); injection E as <- <-.
    + destruct P as (m' & -> & P). cbn. eauto.
    + rewrite P. cbn. eauto.
  - apply guard_some in E as (Z & E). apply andb_true_iff in Z as (Z & Z2). apply Nat.ltb_lt in Z. apply N.ltb_lt in Z2.
    destruct (reserve_ok m l k n I Z Z2) as (G1 & G2). unfold fits in E. destruct (Nat.leb_spec n (2 ^ lmax)) as [F|F]; injection E as <- <-.
    + destruct (G1 F) as (m' & x' & -> & I1 & C1 & _). cbn. exists m'. split; auto. split; auto. cbn. lia.
    + rewrite (G2 F). cbn. eauto.
  - apply guard_some in E as (Z & E). apply andb_true_iff in Z as (Z & Z2). apply Nat.ltb_lt in Z. apply N.ltb_lt in Z2.
    pose proof (resize_bucket_ok m l e k n v B Z Z2) as P.
    destruct (fits lmax _); injection E as <- <-.
    + destruct P as (m' & -> & P). cbn. eauto.
    + rewrite P. cbn. eauto.
  - apply guard_some in E as (Z & [= <- <-]). apply Nat.ltb_lt in Z. destruct (inv_lookup m l k I Z) as (x & Hx & Q).
    unfold mm_popb. rewrite (idx_some _ _ _ Hx). cbn [bind]. destruct Q as (Q1 & Q2 & Q3 & _). pose proof (okcap_le _ Q3). pose proof pow_small.
    destruct (Nat.eqb_spec (isz x) 0) as [E0|E0].
    + cbn. exists m. split; auto. assert (E1 : nth k l [] = []) by (destruct (nth k l []); auto; cbn in Q1; lia). rewrite E1. cbn [length Nat.sub firstn].
      replace (upd k [] l) with l; auto. apply list_ext. intros p. rewrite nth_error_upd' by auto.
      destruct (Nat.eqb_spec k p) as [<-|]; auto. rewrite <- E1. apply nth_error_nth'. auto.
    + pose proof (resize_bucket_ok m l e k (isz x - 1) dflt B Z ltac:(lia)) as P. unfold fits in P.
      destruct (Nat.leb_spec (isz x - 1) (2 ^ lmax)); [|lia]. destruct P as (m' & -> & P). cbn. exists m'. split; auto.
      rewrite <- Q1. replace (isz x - 1 - length (nth k l [])) with 0 in P by lia. cbn [repeat] in P. rewrite app_nil_r in P. auto.
  - apply guard_some in E as (Z & [= <- <-]). apply Nat.ltb_lt in Z. destruct (inv_lookup m l k I Z) as (x & Hx & Q).
    unfold mm_bclear. rewrite (idx_some _ _ _ Hx). cbn [bind become]. eexists. split; [reflexivity|]. destruct Q as (Q1 & Q2 & _).
    pose proof (nth_len_le l k). apply (change_ok m l e k x); auto; cbn [length]; try lia.
  - apply guard_some in E as (Z & [= <- <-]). apply Nat.ltb_lt in Z. destruct (erase_ok m l e k i B Z) as (m' & -> & P). cbn. eauto.
  - apply guard_some in E as (Z & [= <- <-]). apply andb_true_iff in Z as (Z & Z3). apply andb_true_iff in Z as (Z & Z2).
    apply Nat.ltb_lt in Z. apply Nat.leb_le in Z2, Z3. destruct (erase_range_ok m l e k i j B Z Z2 Z3) as (m' & -> & P). cbn. eauto.
  - injection E as <- <-. destruct (erase_key_ok m l e k B) as (m' & -> & P). cbn. eauto.
  - injection E as <- <-. eexists. split; [reflexivity|]. split; cbn; auto. apply new_inv.
    + rewrite map_length. apply (inv_free _ _ I).
    + intros w Hw. apply in_map_iff in Hw as (? & <- & _). auto.
  - apply guard_some in E as (Z & [= <- <-]). apply Nat.ltb_lt in Z.
    assert (Hk : k < length l).
    { destruct (le_lt_dec (length l) k); auto. rewrite nth_overflow in Z by auto. cbn in Z. lia. }
    destruct (inv_lookup m l k I Hk) as (x & Hx & Q). unfold mm_set. rewrite (idx_some _ _ _ Hx). cbn [bind].
    pose proof Q as (Q1 & Q2 & Q3 & Q4 & Q5). destruct (Nat.ltb_spec i (isz x)); [|lia]. rewrite put_ok by lia. cbn [bind become].
    eexists. split; [reflexivity|].
    assert (U : upd k (Ix (ib x) (isz x) (ic x)) (mm_index m) = mm_index m).
    { apply list_ext. intros p. rewrite nth_error_upd' by (rewrite (inv_len _ _ I); auto). destruct (Nat.eqb_spec k p) as [<-|]; auto. rewrite Hx. destruct x; auto. }
    rewrite <- U. apply (change_ok m l e k x); auto; rewrite ?upd_length; try lia.
    + intros p Hp. rewrite nth_error_upd' by lia. destruct (Nat.eqb_spec (ib x + i) p); auto. lia.
    + intros j Hj. rewrite !nth_error_upd' by lia. destruct (Nat.eqb_spec (ib x + i) (ib x + j)), (Nat.eqb_spec i j); try lia; auto.
  - injection E as <- <-. rewrite (at_ok m l k I). destruct (nth_error l k); cbn; eauto.
  - destruct (nth_error (nth k l []) i) as [v|] eqn:Ev; [|discriminate]. injection E as <- <-.
    assert (Z : i < length (nth k l [])) by (apply nth_error_Some; congruence).
    assert (Hk : k < length l).
    { destruct (le_lt_dec (length l) k); auto. rewrite nth_overflow in Z by auto. cbn in Z. lia. }
    destruct (inv_lookup m l k I Hk) as (x & Hx & Q). unfold mm_get. rewrite (idx_some _ _ _ Hx). cbn [bind].
    rewrite (okix_get _ _ _ _ Q Z), (idx_some _ _ _ Ev). destruct Q as (Q1 & _). destruct (Nat.ltb_spec i (isz x)); [|lia]. cbn. eauto.
  - apply guard_some in E as (Hk & [= <- <-]). apply Nat.ltb_lt in Hk.
    destruct (inv_lookup m l k I Hk) as (x & Hx & Q). unfold mm_bucket_at. rewrite (idx_some _ _ _ Hx). cbn [bind].
    destruct (nth_error (nth k l []) i) as [v|] eqn:Ev.
    + assert (Z : i < length (nth k l [])) by (apply nth_error_Some; congruence).
      rewrite (okix_get _ _ _ _ Q Z), (idx_some _ _ _ Ev). destruct Q as (Q1 & _). destruct (Nat.ltb_spec i (isz x)); [|lia]. cbn. eauto.
    + apply nth_error_None in Ev. destruct Q as (Q1 & _). destruct (Nat.ltb_spec i (isz x)); [lia|]. cbn. eauto.
  - apply guard_some in E as (Hk & [= <- <-]). apply Nat.ltb_lt in Hk.
    destruct (inv_lookup m l k I Hk) as (x & Hx & (Q & _)). unfold mm_bucket_size. rewrite (idx_some _ _ _ Hx). cbn. rewrite Q. eauto.
  - injection E as <- <-. rewrite (inv_len _ _ I). eauto.
  - injection E as <- <-. rewrite C. eauto.
  - injection E as <- <-. rewrite (all_ok m l I). cbn. eauto.
Qed.
Theorem mm_history ops s outs : shist A (mm_spec A lmax) ([], 0) ops = Some (s, outs) ->
  exists m, hist A (mm_step A dflt lmax) (mm_new lmax) ops = Ok (m, outs) /\ mm_all A m = Ok (fst s).
Proof.
  intros E. assert (B0 : BR (mm_new lmax) ([], 0)).
  { split; cbn; auto. apply new_inv; [apply repeat_length|]. intros v Hv. apply repeat_spec in Hv. auto. }
  destruct (hist_sim A (mm_step A dflt lmax) _ BR mm_step_ok ops _ _ _ _ B0 E) as (m & E1 & (I & _)).
  exists m. split; auto. apply all_ok; auto.
Qed.
(* live buckets never share storage *)
Theorem mm_disjoint ops s outs m : shist A (mm_spec A lmax) ([], 0) ops = Some (s, outs) ->
  hist A (mm_step A dflt lmax) (mm_new lmax) ops = Ok (m, outs) ->
  forall i j x y, i <> j -> nth_error (mm_index m) i = Some x -> nth_error (mm_index m) j = Some y ->
    isz x <= ic x /\ ib x + ic x <= length (mm_data m) /\
    (ib x + isz x <= ib y \/ ib y + isz y <= ib x \/ isz x = 0 \/ isz y = 0).
Proof.
  intros E E0 i j x y Hn Hx Hy. assert (B0 : BR (mm_new lmax) ([], 0)).
  { split; cbn; auto. apply new_inv; [apply repeat_length|]. intros v Hv. apply repeat_spec in Hv. auto. }
  destruct (hist_sim A (mm_step A dflt lmax) _ BR mm_step_ok ops _ _ _ _ B0 E) as (m' & E1 & (I & _)).
  rewrite E0 in E1. injection E1 as <-. destruct (inv_ix _ _ I i x Hx) as (Q1 & Q2 & Q3 & Q4 & Q5). split; auto. split; auto.
  destruct (inv_ix _ _ I j y Hy) as (_ & R2 & _). set (p := max (ib x) (ib y)).
  pose proof (cnt_two p _ i j x y Hx Hy Hn). pose proof (inv_cnt _ _ I p). unfold p in *.
  destruct (cov_spec (max (ib x) (ib y)) x) as [(? & _)|(_ & E3)]; destruct (cov_spec (max (ib x) (ib y)) y) as [(? & _)|(_ & E4)]; lia.
Qed.
End MmP.
