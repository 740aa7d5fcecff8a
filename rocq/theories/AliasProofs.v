From Verif Require Import Base ArithModel FlatModel FlatSpec MmModel MmSpec PagedModel PagedSpec AliasModel.
From Verif Require FlatProofs MmProofs PagedProofs.
From Coq Require Import Permutation.

Section Vv.
Variable A : Type.
Variable dflt : A.
Variable moved : A -> A.
Import FlatProofs.
Notation VR := (VR A).
Lemma vv_ref_ok m l j i x : VR m l -> nth_error (nth j l []) i = Some x ->
  exists p, vv_ref A m j i = Ok p /\ idx (vv_data m) p = Ok x.
Proof.
  intros H Hx. assert (Hi : i < length (nth j l [])) by (apply nth_error_Some; congruence).
  assert (Hj : j < length l) by (destruct (le_lt_dec (length l) j) as [Q|Q]; auto; rewrite nth_overflow in Hi by auto; cbn in Hi; lia).
  destruct (split_nth A l j Hj) as (a & b & E & La). set (y := nth j l []) in *. clearbody y. subst l j.
  destruct (vv_ends A m a y b H) as (_ & _ & E3 & E4). unfold vv_ref. rewrite E3, E4. cbn [bind].
  destruct (Nat.ltb_spec (len A a + i) (len A a + length y)); [|lia]. eexists. split; [reflexivity|].
  destruct H as (-> & _). rewrite concat_mid. apply idx_some. apply nth_error_split_app. auto.
Qed.
Lemma vv_insert_own_ok cap m k n p x : idx (vv_data m) p = Ok x -> n = 0 \/ length (vv_data m) + n <= cap ->
  vv_insert_own A cap m k n p = vv_insert_end A m k (repeat x n).
Proof.
  intros E H. unfold vv_insert_own, vv_insert_end, vec_insert_own. destruct (vv_end A m k) as [e| | |]; auto. cbn [bind].
  rewrite repeat_length. destruct (Nat.eqb_spec n 0) as [->|Hn]; auto.
  destruct (Nat.leb_spec (length (vv_data m) + n) cap); [|lia]. rewrite E. auto.
Qed.
Lemma vv_push_own_ok cap m l k j i x : VR m l -> nth_error (nth j l []) i = Some x -> length (concat l) + 1 <= cap ->
  vv_push_own A cap m k j i = vv_push A m k x.
Proof.
  intros H Hx Hc. destruct (vv_ref_ok m l j i x H Hx) as (p & E1 & E2). unfold vv_push_own. rewrite E1. cbn [bind].
  apply (vv_insert_own_ok cap m k 1 p x E2). right. destruct H as (-> & _). auto.
Qed.
Lemma vv_grow_own_ok cap m l k n j i x : VR m l -> k < length l -> nth_error (nth j l []) i = Some x ->
  length (concat l) + (n - length (nth k l [])) <= cap ->
  vv_grow_own A cap m k n j i = vv_grow A m k n x.
Proof.
  intros H Hk Hx Hc. destruct (vv_ref_ok m l j i x H Hx) as (p & E1 & E2). unfold vv_grow_own, vv_grow. rewrite E1. cbn [bind].
  destruct (vv_bucket_ok A m l k H Hk) as (_ & _ & ->). cbn [bind]. destruct (verify _); auto. cbn [bind].
  apply (vv_insert_own_ok cap m k _ p x E2). right. destruct H as (-> & _). auto.
Qed.
Lemma move_out_mid cst (p x r : list A) :
  move_out A moved cst (length p) (length x) (p ++ x ++ r) = p ++ (if cst then x else map moved x) ++ r.
Proof.
  unfold move_out. destruct cst; auto.
  assert (S1 : skipn (length p + length x) (p ++ x ++ r) = r).
  { rewrite app_assoc, <- (app_length p x). rewrite skipn_app, Nat.sub_diag, skipn_all, skipn_O. auto. }
  assert (S2 : firstn (length p) (p ++ x ++ r) = p).
  { rewrite firstn_app, Nat.sub_diag, firstn_all, firstn_O, app_nil_r. auto. }
  assert (S3 : skipn (length p) (p ++ x ++ r) = x ++ r).
  { rewrite skipn_app, Nat.sub_diag, skipn_all, skipn_O. auto. }
  rewrite S1, S2, S3. rewrite firstn_app, Nat.sub_diag, firstn_all, firstn_O, app_nil_r. auto.
Qed.
Lemma vv_emplace_own_ok cap cst m l j : VR m l -> j < length l -> length (concat l) + length (nth j l []) <= cap ->
  exists m', vv_emplace_own A moved cap cst m j = Ok m' /\
    VR m' ((if cst then l else upd j (map moved (nth j l [])) l) ++ [nth j l []]).
Proof.
  intros H Hj Hc. pose proof (started_ok A m l H) as ST.
  destruct (split_nth A l j Hj) as (a & b & E & La). set (y := nth j l []) in *. clearbody y. subst l j.
  destruct (vv_ends A m a y b H) as (_ & _ & E3 & E4). unfold vv_emplace_own. rewrite E3, E4, ST. cbn [bind].
  replace (len A a + length y - len A a) with (length y) by lia. destruct H as (-> & _).
  destruct (Nat.leb_spec (length (concat (a ++ y :: b)) + length y) cap); [|lia].
  rewrite concat_mid, range_mid by auto. cbn [bind]. change (len A a) with (length (concat a)). rewrite !move_out_mid.
  eexists. split; [reflexivity|]. rewrite upd_mid.
  assert (EQ : (if cst then a ++ y :: b else a ++ map moved y :: b) = a ++ (if cst then y else map moved y) :: b) by (destruct cst; auto).
  rewrite EQ. assert (LY : length (if cst then y else map moved y) = length y) by (destruct cst; rewrite ?map_length; auto).
  set (z := if cst then y else map moved y) in *. clearbody z. split; cbn [vv_data vv_starts].
  - rewrite concat_app, concat_mid. cbn. rewrite app_nil_r. auto.
  - left. rewrite offs_snoc. f_equal; [rewrite !offs_app; cbn [offs]; rewrite LY; auto|]. f_equal.
    unfold len. rewrite concat_mid, !app_length. lia.
Qed.
Lemma hist_sim_eq {S T O} (step : S -> O -> res (S * vout A)) (spec : T -> O -> option (T * vout A)) (R : S -> T -> Prop) :
  (forall m s o s' x, R m s -> spec s o = Some (s', x) -> exists m', step m o = Ok (m', x) /\ R m' s') ->
  forall ops m0 s0 s outs m, R m0 s0 -> shist A spec s0 ops = Some (s, outs) -> hist A step m0 ops = Ok (m, outs) -> R m s.
Proof.
  intros H ops m0 s0 s outs m R0 E1 E2. destruct (hist_sim A step spec R H ops _ _ _ _ R0 E1) as (m' & E3 & R1).
  congruence.
Qed.
End Vv.

Lemma bcopy_frame {B} (d d' : list B) dst src n : bcopy d dst src n = Ok d' ->
  length d' = length d /\ forall p, ~ (dst <= p < dst + n) -> nth_error d' p = nth_error d p.
Proof.
  unfold bcopy. destruct (_ || _); [|discriminate]. intros E.
  destruct (Nat.eqb_spec n 0) as [->|Hn]. { unfold bmove in E. cbn in E. injection E as <-. auto. }
  assert (Q : dst + n <= length d /\ src + n <= length d).
  { unfold bmove in E. destruct (Nat.eqb_spec n 0); [lia|].
    destruct (Nat.leb_spec (dst + n) (length d)), (Nat.leb_spec (src + n) (length d)); cbn in E; try discriminate. auto. }
  destruct (MmProofs.bmove_ok d dst src n (proj1 Q) (proj2 Q)) as (d1 & E1 & L & Hd). rewrite E in E1. injection E1 as <-. split; auto.
  intros p Hp. rewrite Hd. destruct (Nat.leb_spec dst p), (Nat.ltb_spec p (dst + n)); auto. lia.
Qed.

Section Mm.
Variable A : Type.
Variable dflt : A.
Variable lmax : nat.
Hypothesis lmax_ok : lmax < 32.
Import FlatProofs MmProofs.
Notation Inv := (Inv A lmax).
(* what another element's page holds is left alone when bucket k grows, and also what the bucket's old page holds *)
Lemma grow_keeps m l k x req m' j y p : Inv m l -> nth_error (mm_index m) k = Some x -> ic x < req -> (N.of_nat req < W32)%N ->
  mm_grow A dflt lmax m k req = Ok m' -> nth_error (mm_index m) j = Some y -> ib y <= p < ib y + ic y ->
  nth_error (mm_data m') p = nth_error (mm_data m) p.
Proof.
  intros I Hk Hr HW E Hj Hp. unfold mm_grow in E. rewrite (idx_some _ _ _ Hk) in E. cbn [bind] in E.
  destruct (cap_for_spec lmax req lmax_ok ltac:(lia) HW) as (S1 & S2).
  destruct (le_lt_dec req (2 ^ lmax)) as [Q|Q].
  2: { specialize (S2 Q). destruct (Nat.leb_spec (order_of (cap_for req)) lmax); [lia|]. discriminate. }
  destruct (S1 Q) as (o & Ho & Ec & Eo & Hro). rewrite Eo, Ec in E. destruct (Nat.leb_spec o lmax); [|lia]. cbn [verify bind] in E.
  destruct (inv_ix _ _ _ _ I k x Hk) as (Q1 & Q2 & Q3 & Q4 & Q5).
  destruct (inv_ix _ _ _ _ I j y Hj) as (_ & _ & _ & Y4 & _).
  destruct (mm_pop (mm_free m) o) as [(f, f0)|] eqn:P.
  - destruct (pop_some lmax lmax_ok _ _ _ _ _ (inv_free _ _ _ _ I) P) as (F1 & F2 & F3 & F4).
    assert (NF : ~ (ib f <= p < ib f + isz x)).
    { intros Z. pose proof (inv_cnt _ _ _ _ I p) as C. specialize (F4 p).
      assert (CY : cov p y <= cnt p (mm_index m)).
      { pose proof (cnt_upd lmax lmax_ok p _ j y (Ix 0 0 0) Hj). destruct (cov_spec lmax lmax_ok p (Ix 0 0 0)) as [(_ & W)|(W & _)]; cbn [ib ic] in W; lia. }
      destruct (cov_spec lmax lmax_ok p y) as [(? & _)|(_ & ?)]; [|lia]. destruct (cov_spec lmax lmax_ok p f) as [(? & _)|(_ & ?)]; lia. }
    destruct (Nat.eqb_spec (ic x) 0) as [Z|Z].
    + cbn [bind] in E. injection E as <-. auto.
    + destruct (bcopy (mm_data m) (ib f) (ib x) (isz x)) as [d| | |] eqn:B; try discriminate. cbn [bind] in E.
      destruct (mm_release f0 x); try discriminate. cbn [bind] in E. injection E as <-. cbn [mm_data].
      apply (bcopy_frame _ _ _ _ _ B). auto.
  - destruct (Nat.eqb_spec (ib x + ic x) (length (mm_data m))) as [Z|Z].
    + injection E as <-. cbn [mm_data]. apply nth_error_app1. lia.
    + destruct (bcopy _ _ (ib x) (isz x)) as [d| | |] eqn:B; try discriminate. cbn [bind] in E.
      destruct (mm_release (mm_free m) x); try discriminate. cbn [bind] in E. injection E as <-. cbn [mm_data].
      destruct (bcopy_frame _ _ _ _ _ B) as (_ & F). rewrite F by lia. apply nth_error_app1. lia.
Qed.
Lemma mm_ref_ok m l j i v : Inv m l -> nth_error (nth j l []) i = Some v ->
  exists y, nth_error (mm_index m) j = Some y /\ i < isz y /\ isz y <= ic y /\ mm_ref A m j i = Ok (ib y + i) /\
    nth_error (mm_data m) (ib y + i) = Some v.
Proof.
  intros I Hv. assert (Hi : i < length (nth j l [])) by (apply nth_error_Some; congruence).
  assert (Hj : j < length l) by (destruct (le_lt_dec (length l) j) as [Q|Q]; auto; rewrite nth_overflow in Hi by auto; cbn in Hi; lia).
  destruct (inv_lookup A lmax lmax_ok m l j I Hj) as (y & Ey & Q1 & Q2 & Q3 & Q4 & Q5). exists y. split; auto. split; [lia|]. split; auto.
  unfold mm_ref. rewrite (idx_some _ _ _ Ey). cbn [bind]. destruct (Nat.ltb_spec i (isz y)); [|lia]. split; auto.
  rewrite Q5 by lia. auto.
Qed.
Lemma put_length {B} (d d' : list B) p v : put d p v = Ok d' -> length d' = length d.
Proof. unfold put. destruct (_ <? _); [|discriminate]. intros E. injection E as <-. apply upd_length. Qed.
Lemma mm_push_own_ok cap m l k j i v : Inv m l -> k < length l -> nth_error (nth j l []) i = Some v ->
  (forall m', mm_push A dflt lmax m k v = Ok m' -> length (mm_data m') <= cap) ->
  mm_push_own A dflt lmax cap m k j i = mm_push A dflt lmax m k v.
Proof.
  intros I Hk Hv Hc. destruct (mm_ref_ok m l j i v I Hv) as (y & Ey & Hi & Hs & Er & Ev). unfold mm_push_own. rewrite Er. cbn [bind].
  unfold mm_push in *. destruct (inv_lookup A lmax lmax_ok m l k I Hk) as (x & Ex & Q1 & Q2 & Q3 & Q4 & Q5). rewrite (idx_some _ _ _ Ex) in *. cbn [bind] in *.
  pose proof (pow_small lmax lmax_ok) as PS. pose proof (okcap_le lmax lmax_ok _ Q3).
  destruct (if isz x =? ic x then mm_grow A dflt lmax m k (ic x + 1) else Ok m) as [m1| | |] eqn:E; auto. cbn [bind] in *.
  assert (E1 : nth_error (mm_data m1) (ib y + i) = Some v).
  { destruct (Nat.eqb_spec (isz x) (ic x)) as [Z|Z]; [|injection E as <-; auto].
    rewrite (grow_keeps m l k x (ic x + 1) m1 j y (ib y + i) I Ex ltac:(lia) ltac:(lia) E Ey ltac:(lia)). auto. }
  destruct (idx (mm_index m1) k) as [x1| | |]; auto. cbn [bind] in *.
  unfold deref. rewrite (idx_some _ _ _ E1).
  destruct (put (mm_data m1) (ib x1 + isz x1) v) as [d| | |] eqn:P; cbn [bind] in *; try (destruct (_ <=? cap); cbn [bind]; rewrite ?P; auto; fail).
  - pose proof (put_length _ _ _ _ P) as L. specialize (Hc _ eq_refl). cbn [mm_data] in Hc.
    destruct (Nat.leb_spec (length (mm_data m1)) cap); [|lia]. cbn [bind]. rewrite P. auto.
  - unfold put in P. destruct (_ <? _) in P; discriminate.
  - unfold put in P. destruct (_ <? _) in P; discriminate.
Qed.
Lemma grow_place m l k x req m' p : Inv m l -> nth_error (mm_index m) k = Some x -> ic x < req -> (N.of_nat req < W32)%N ->
  mm_grow A dflt lmax m k req = Ok m' -> ib x <= p < ib x + ic x ->
  exists x', mm_index m' = upd k x' (mm_index m) /\ isz x' = isz x /\ (ib x' = ib x \/ ~ (ib x' <= p < ib x' + ic x')).
Proof.
  intros I Hk Hr HW E Hp. unfold mm_grow in E. rewrite (idx_some _ _ _ Hk) in E. cbn [bind] in E.
  destruct (verify _); try discriminate. cbn [bind] in E.
  destruct (inv_ix _ _ _ _ I k x Hk) as (Q1 & Q2 & Q3 & Q4 & Q5).
  destruct (mm_pop (mm_free m) _) as [(f, f0)|] eqn:P.
  - destruct (pop_some lmax lmax_ok _ _ _ _ _ (inv_free _ _ _ _ I) P) as (F1 & F2 & F3 & F4).
    destruct (if ic x =? 0 then _ else _) as [(d, fr)| | |]; try discriminate. cbn [bind] in E. injection E as <-.
    eexists. split; [reflexivity|]. split; auto. cbn [ib ic]. right. intros Z. pose proof (inv_cnt _ _ _ _ I p) as C. specialize (F4 p).
    assert (CX : cov p x <= cnt p (mm_index m)).
    { pose proof (cnt_upd lmax lmax_ok p _ k x (Ix 0 0 0) Hk). destruct (cov_spec lmax lmax_ok p (Ix 0 0 0)) as [(_ & W)|(W & _)]; cbn [ib ic] in W; lia. }
    destruct (cov_spec lmax lmax_ok p x) as [(? & _)|(_ & ?)]; [|lia]. destruct (cov_spec lmax lmax_ok p f) as [(? & _)|(_ & ?)]; lia.
  - destruct (Nat.eqb_spec (ib x + ic x) (length (mm_data m))) as [Z|Z].
    + injection E as <-. eexists. split; [reflexivity|]. auto.
    + destruct (bcopy _ _ (ib x) (isz x)) as [d| | |] eqn:B; try discriminate. cbn [bind] in E.
      destruct (mm_release (mm_free m) x); try discriminate. cbn [bind] in E. injection E as <-.
      eexists. split; [reflexivity|]. split; auto. cbn [ib ic]. right. lia.
Qed.
Lemma grow_other m k req m' j : mm_grow A dflt lmax m k req = Ok m' -> j <> k -> nth_error (mm_index m') j = nth_error (mm_index m) j.
Proof.
  intros E Hj. unfold mm_grow in E. destruct (idx (mm_index m) k) as [x| | |]; try discriminate. cbn [bind] in E.
  destruct (verify _); try discriminate. cbn [bind] in E.
  assert (U : forall z, nth_error (upd k z (mm_index m)) j = nth_error (mm_index m) j) by (intros z; apply nth_error_upd_neq; auto).
  destruct (mm_pop (mm_free m) _) as [(f, f0)|].
  - destruct (if ic x =? 0 then _ else _) as [(d, fr)| | |]; try discriminate. injection E as <-. apply U.
  - destruct (_ =? length (mm_data m)); [injection E as <-; apply U|].
    destruct (bcopy _ _ (ib x) (isz x)); try discriminate. cbn [bind] in E.
    destruct (mm_release (mm_free m) x); try discriminate. injection E as <-. apply U.
Qed.
Lemma bmove_frame {B} (d d' : list B) dst src n : bmove d dst src n = Ok d' ->
  length d' = length d /\ forall p, ~ (dst <= p < dst + n) -> nth_error d' p = nth_error d p.
Proof.
  intros E. destruct (Nat.eqb_spec n 0) as [->|Hn]. { unfold bmove in E. cbn in E. injection E as <-. auto. }
  assert (Q : dst + n <= length d /\ src + n <= length d).
  { unfold bmove in E. destruct (Nat.eqb_spec n 0); [lia|].
    destruct (Nat.leb_spec (dst + n) (length d)), (Nat.leb_spec (src + n) (length d)); cbn in E; try discriminate. auto. }
  destruct (bmove_ok d dst src n (proj1 Q) (proj2 Q)) as (d1 & E1 & L & Hd). rewrite E in E1. injection E1 as <-. split; auto.
  intros p Hp. rewrite Hd. destruct (Nat.leb_spec dst p), (Nat.ltb_spec p (dst + n)); auto. lia.
Qed.
Lemma index_disjoint m l j k y x p : Inv m l -> nth_error (mm_index m) j = Some y -> nth_error (mm_index m) k = Some x -> j <> k ->
  ib y <= p < ib y + ic y -> ~ (ib x <= p < ib x + ic x).
Proof.
  intros I Hj Hk Hn H1 H2. pose proof (inv_cnt _ _ _ _ I p) as C. pose proof (cnt_two lmax lmax_ok p _ j k y x Hj Hk Hn).
  destruct (cov_spec lmax lmax_ok p x) as [(? & _)|(_ & ?)]; [|lia]. destruct (cov_spec lmax lmax_ok p y) as [(? & _)|(_ & ?)]; lia.
Qed.
Lemma mm_insert_own_ok cap m l k q j i v : Inv m l -> k < length l -> q <= length (nth k l []) -> nth_error (nth j l []) i = Some v ->
  j <> k \/ i <= q ->
  (forall m', mm_insert A dflt lmax m k q v = Ok m' -> length (mm_data m') <= cap) ->
  mm_insert_own A dflt lmax cap m k q j i = mm_insert A dflt lmax m k q v.
Proof.
  intros I Hk Hq Hv Hjk Hc. destruct (mm_ref_ok m l j i v I Hv) as (y & Ey & Hi & Hs & Er & Ev). unfold mm_insert_own. rewrite Er. cbn [bind].
  unfold mm_insert in *. destruct (inv_lookup A lmax lmax_ok m l k I Hk) as (x & Ex & Q1 & Q2 & Q3 & Q4 & Q5). rewrite (idx_some _ _ _ Ex) in *. cbn [bind] in *.
  pose proof (pow_small lmax lmax_ok) as PS. pose proof (okcap_le lmax lmax_ok _ Q3).
  destruct (reserve_ok A dflt lmax lmax_ok m l k (isz x + 1) I Hk ltac:(lia)) as (G1 & G2).
  destruct (le_lt_dec (isz x + 1) (2 ^ lmax)) as [F|F]; [|rewrite (G2 F); auto].
  destruct (G1 F) as (m1 & x1 & E & I1 & _ & Ex1 & L1). rewrite E in *. cbn [bind] in *. rewrite (idx_some _ _ _ Ex1) in *. cbn [bind] in *.
  destruct (inv_ix _ _ _ _ I1 k x1 Ex1) as (R1 & R2 & R3 & R4 & R5).
  assert (P1 : nth_error (mm_data m1) (ib y + i) = Some v /\ ~ (ib x1 + q + 1 <= ib y + i < ib x1 + q + 1 + (isz x1 - q))).
  { unfold mm_reserve in E. rewrite (idx_some _ _ _ Ex) in E. cbn [bind] in E. destruct (Nat.ltb_spec (ic x) (isz x + 1)) as [Z|Z].
    - split.
      + rewrite (grow_keeps m l k x (isz x + 1) m1 j y (ib y + i) I Ex ltac:(lia) ltac:(lia) E Ey ltac:(lia)). auto.
      + destruct (Nat.eq_dec j k) as [Q|Q].
        * subst j. rewrite Ex in Ey. injection Ey as <-. destruct Hjk as [Hjk|Hjk]; [lia|].
          destruct (grow_place m l k x (isz x + 1) m1 (ib x + i) I Ex ltac:(lia) ltac:(lia) E ltac:(lia)) as (x' & U & _ & W).
          rewrite U in Ex1. rewrite nth_error_upd_eq in Ex1 by (apply nth_error_Some; congruence). injection Ex1 as ->. lia.
        * rewrite <- (grow_other _ _ _ _ j E Q) in Ey. pose proof (index_disjoint m1 l j k y x1 (ib y + i) I1 Ey Ex1 Q ltac:(lia)). lia.
    - injection E as <-. rewrite Ex in Ex1. injection Ex1 as <-. split; auto. destruct (Nat.eq_dec j k) as [Q|Q].
      + subst j. rewrite Ex in Ey. injection Ey as <-. destruct Hjk; lia.
      + pose proof (index_disjoint m l j k y x (ib y + i) I Ey Ex Q ltac:(lia)). lia. }
  destruct P1 as (P1 & P2). destruct (Nat.leb_spec q (isz x1)); [|lia].
  destruct (bmove_ok (mm_data m1) (ib x1 + q + 1) (ib x1 + q) (isz x1 - q)) as (d & Ed & Ld & _); [lia|lia|]. rewrite Ed in *. cbn [bind] in *.
  destruct (bmove_frame _ _ _ _ _ Ed) as (_ & Fr). rewrite <- Fr in P1 by auto.
  unfold deref. rewrite (idx_some _ _ _ P1). rewrite put_ok in * by lia. cbn [bind] in *. specialize (Hc _ eq_refl). cbn [mm_data] in Hc.
  rewrite upd_length in Hc. destruct (Nat.leb_spec (length d) cap); [|lia]. cbn [bind]. rewrite put_ok by lia. auto.
Qed.
End Mm.

Section Pv.
Variable A : Type.
Variable dflt : A.
Variable lmin lw : nat.
Hypothesis lmin_ok : 1 <= lmin <= 15.
Hypothesis lw_ok : 1 <= lw <= 2 ^ lmin.
Import FlatProofs PagedProofs.
Notation PR := (PR A lmin).
Notation Own := (Own A lmin).
Lemma slice (b : list A) : forall (d : list (cell A)) s, (forall i v, nth_error b i = Some v -> nth_error d (s + i) = Some (Val v)) ->
  firstn (length b) (skipn s d) = map Val b.
Proof.
  induction b as [|a b IH]; intros d s H; auto. cbn [length map].
  pose proof (H 0 a eq_refl) as H0. rewrite Nat.add_0_r in H0.
  assert (Hs : s < length d) by (apply nth_error_Some; congruence).
  rewrite <- (skipn_nth d s (Val a) Hs). cbn [firstn]. f_equal.
  - apply (nth_error_nth _ _ (Val a)) in H0. auto.
  - apply IH. intros i v Hi. rewrite <- (H (S i) v Hi). f_equal. lia.
Qed.
Lemma pv_ref_ok m l j i v : PR m l -> nth_error (nth j l []) i = Some v ->
  exists y, j < length l /\ nth_error (pv_idx m) j = Some y /\ i < isz y /\ isz y = length (nth j l []) /\ pv_ref A m j i = Ok (ib y + i) /\
    nth_error (pg_data (pv_pg m)) (ib y + i) = Some (Val v).
Proof.
  intros R Hv. assert (Hi : i < length (nth j l [])) by (apply nth_error_Some; congruence).
  assert (Hj : j < length l) by (destruct (le_lt_dec (length l) j) as [Q|Q]; auto; rewrite nth_overflow in Hi by auto; cbn in Hi; lia).
  destruct (edit A lmin lw lmin_ok lw_ok m l j R Hj) as (y & rest & Ey & O & _). destruct (own_ok _ _ _ _ _ O) as (Q1 & Q2 & Q3 & Q4 & Q5). cbn [fst snd] in *.
  exists y. split; auto. split; auto. split; [lia|]. split; auto. unfold pv_ref. rewrite (idx_some _ _ _ Ey). cbn [bind].
  destruct (Nat.ltb_spec i (isz y)); [|lia]. auto.
Qed.
Lemma pv_make_own_ok m l j : PR m l -> j < length l -> pv_make_own A dflt lmin m j = pv_make A dflt lmin m (nth j l []).
Proof.
  intros R Hj. pose proof (bucket_small A lmin lw lmin_ok lw_ok m l j R Hj) as S. unfold page_max in S.
  destruct (edit A lmin lw lmin_ok lw_ok m l j R Hj) as (x & rest & Ex & O & _). unfold pv_make_own, pv_make.
  rewrite (idx_some _ _ _ Ex). cbn [bind]. set (b := nth j l []) in *. destruct (own_ok _ _ _ _ _ O) as (Q1 & _). cbn [fst snd] in *. rewrite Q1.
  rewrite (cut16_small lmin lw lmin_ok lw_ok) by lia.
  destruct (own_create A dflt lmin lw lmin_ok lw_ok _ _ (length b) O ltac:(lia)) as (C1 & C2).
  destruct (pfits (length b)); [|rewrite C2; auto].
  destruct (C1 eq_refl) as (g & y & -> & Y1 & Y2 & Y3 & O1). cbn [bind]. pose proof (own_ok _ _ _ _ _ O1) as (_ & _ & _ & P4 & _). cbn [fst snd ib ic isz] in P4.
  pose proof (Own_perm _ _ _ _ _ (perm_swap _ _ _) O1) as O2. destruct (own_ok _ _ _ _ _ O2) as (_ & R2 & _ & R4 & R5). cbn [fst snd] in *.
  rewrite MmProofs.bcopy_bmove.
  2: { intros Hp. destruct (le_lt_dec (ib y + length b) (ib x)); auto. destruct (le_lt_dec (ib x + length b) (ib y)); auto.
       exfalso. apply (own_disjoint A lmin lw lmin_ok lw_ok _ _ _ _ _ _ (max (ib x) (ib y)) O2). cbn [ib ic]. lia. }
  unfold bmove, pg_fill. destruct (length b =? 0); [destruct g; auto|].
  destruct (Nat.leb_spec (ib y + length b) (length (pg_data g))); [|lia].
  destruct (Nat.leb_spec (ib x + length b) (length (pg_data g))); [|lia]. cbn [andb bind]. rewrite (slice b _ _ R5). auto.
Qed.
Lemma pv_emplace_own_ok m l j : PR m l -> j < length l -> pv_emplace_own A dflt lmin m j = pv_emplace A dflt lmin m (nth j l []).
Proof. intros R Hj. unfold pv_emplace_own, pv_emplace. rewrite (pv_make_own_ok m l j R Hj). auto. Qed.
Lemma pv_insert_own_ok m l k j : PR m l -> j < length l -> pv_insert_own A dflt lmin m k j = pv_insert A dflt lmin m k (nth j l []).
Proof. intros R Hj. unfold pv_insert_own, pv_insert. rewrite (pv_make_own_ok m l j R Hj). auto. Qed.
Lemma pv_binsert_own_ok m l k q j i v : PR m l -> nth_error (nth j l []) i = Some v ->
  pv_binsert_own A dflt lmin lw m k q j i = pv_binsert A dflt lmin lw m k q v.
Proof.
  intros R Hv. destruct (pv_ref_ok m l j i v R Hv) as (y & _ & _ & _ & _ & E1 & E2). unfold pv_binsert_own. rewrite E1. cbn [bind].
  rewrite (idx_some _ _ _ E2). auto.
Qed.
(* the old page of a bucket that moved keeps its elements behind the link *)
Lemma resize_keeps g x b L n g' y i v : Own g ((x, b) :: L) -> length b <= n -> (N.of_nat n < 65536)%N ->
  pg_resize A dflt lmin lw g x n = Ok (g', y) -> n <= ic x \/ lw <= i -> nth_error b i = Some v ->
  nth_error (pg_data g') (ib x + i) = Some (Val v).
Proof.
  intros O Hn HN E Hi Hv. pose proof (own_ok _ _ _ _ _ O) as (Q1 & Q2 & Q3 & Q4 & Q5). cbn [fst snd] in *. unfold pg_resize in E.
  assert (Li : i < length b) by (apply nth_error_Some; congruence).
  destruct (Nat.leb_spec n (ic x)) as [L1|L1]. { injection E as <- <-. auto. }
  destruct Hi as [Hi|Hi]; [lia|].
  destruct (own_create A dflt lmin lw lmin_ok lw_ok g _ n O HN) as (C1 & C2).
  destruct (pfits n); [|rewrite C2 in E; auto; discriminate].
  destruct (C1 eq_refl) as (g1 & z & E1 & Y1 & Y2 & Y3 & O1). rewrite E1 in E. cbn [bind] in E.
  pose proof (Own_perm _ _ _ _ _ (perm_swap _ _ _) O1) as O2. pose proof (own_ok _ _ _ _ _ O2) as (R1 & R2 & R3 & R4 & R5). cbn [fst snd] in *.
  destruct (bcopy (pg_data g1) (ib z) (ib x) (isz x)) as [d| | |] eqn:B; try discriminate. cbn [bind] in E.
  destruct (bcopy_frame _ _ _ _ _ B) as (Ld & Fr).
  assert (E2 : nth_error d (ib x + i) = Some (Val v)).
  { rewrite Fr; auto. intros Z. apply (own_disjoint A lmin lw lmin_ok lw_ok _ _ _ _ _ _ (ib x + i) O2). cbn [ib ic]. lia. }
  unfold pg_free in E. destruct (ic x =? 0). { cbn [bind] in E. injection E as <- <-. auto. }
  destruct (verify _); try discriminate. cbn [bind] in E. unfold pg_push in E. cbn [pg_nodes pg_data] in E.
  destruct (idx (pg_nodes g1) _) as [h| | |]; try discriminate. cbn [bind] in E.
  destruct (junk A d (ib x) lw) as [d1| | |] eqn:J; try discriminate. cbn [bind] in E.
  destruct (put d1 (ib x) (Link h)) as [d2| | |] eqn:P; try discriminate. cbn [bind] in E. injection E as <- <-. cbn [pg_data].
  assert (J2 : nth_error d1 (ib x + i) = Some (Val v)).
  { clear -J E2 Hi. assert (G : forall n d p, junk A d p n = Ok d1 -> forall q, p + n <= q -> nth_error d1 q = nth_error d q).
    { clear. induction n as [|n IH]; intros d p J q Hq; cbn [junk] in J; [injection J as <-; auto|].
      unfold put in J. destruct (p <? length d); [|discriminate]. cbn [bind] in J.
      rewrite (IH _ _ J q) by lia. apply nth_error_upd_neq. lia. }
    rewrite (G lw d (ib x) J) by lia. auto. }
  unfold put in P. destruct (_ <? _) in P; [|discriminate]. injection P as <-. rewrite nth_error_upd_neq by lia. auto.
Qed.
Lemma pv_push_own_ok cap m l k j i v : PR m l -> k < length l -> nth_error (nth j l []) i = Some v ->
  j <> k \/ lw <= i \/ (exists x, nth_error (pv_idx m) k = Some x /\ isz x < ic x) ->
  (forall m', pv_push A dflt lmin lw m k v = Ok m' -> length (pg_data (pv_pg m')) <= cap) ->
  pv_push_own A dflt lmin lw cap m k j i = pv_push A dflt lmin lw m k v.
Proof.
  intros R Hk Hv Hjk Hc. destruct (pv_ref_ok m l j i v R Hv) as (y & Hj & Ey & Hi & Hs & E1 & E2). unfold pv_push_own. rewrite E1. cbn [bind].
  pose proof (bucket_small A lmin lw lmin_ok lw_ok m l k R Hk) as S. unfold page_max in S.
  unfold pv_push in *. destruct R as (HL & OO).
  destruct (nth_error (pv_idx m) k) as [x|] eqn:Ex. 2: { apply nth_error_None in Ex. lia. }
  rewrite (idx_some _ _ _ Ex) in *. cbn [bind] in *.
  assert (Eb : nth_error l k = Some (nth k l [])) by (apply nth_error_nth'; auto).
  assert (Ebj : nth_error l j = Some (nth j l [])) by (apply nth_error_nth'; auto).
  pose proof (combine_nth _ _ _ _ _ Ex Eb) as Ec. pose proof (combine_nth _ _ _ _ _ Ey Ebj) as Ecj.
  destruct (pick _ _ _ Ec) as (rest & P & Q). pose proof (Own_perm _ _ _ _ _ P OO) as O.
  destruct (own_ok _ _ _ _ _ O) as (Q1 & Q2 & _). cbn [fst snd] in *. rewrite Q1 in *.
  rewrite (cut16_small lmin lw lmin_ok lw_ok) in * by lia.
  destruct (pg_resize A dflt lmin lw (pv_pg m) x (length (nth k l []) + 1)) as [(g, z)| | |] eqn:E; auto. cbn [bind] in *.
  assert (E3 : nth_error (pg_data g) (ib y + i) = Some (Val v)).
  { destruct (Nat.eq_dec j k) as [W|W].
    - subst j. assert (x = y) by congruence. subst y.
      apply (resize_keeps (pv_pg m) x (nth k l []) rest (length (nth k l []) + 1) g z i v O ltac:(lia) ltac:(lia) E); auto.
      destruct Hjk as [Hjk|[Hjk|(x0 & X1 & X2)]]; [lia|auto|]. injection X1 as <-. left. lia.
    - assert (IN : In (y, nth j l []) rest).
      { set (e' := (Ix (ib y + 1) 0 0, @nil A)). assert (I1 : In (y, nth j l []) (e' :: rest)).
        { apply (Permutation_in _ (Q e')). apply (nth_error_In _ j). rewrite nth_error_upd_neq by auto. auto. }
        destruct I1 as [I1|I1]; auto. unfold e' in I1. injection I1 as I1 _. apply (f_equal ib) in I1. cbn [ib] in I1. lia. }
      destruct (own_resize A dflt lmin lw lmin_ok lw_ok _ _ _ _ (length (nth k l []) + 1) O ltac:(lia) ltac:(lia)) as (R1 & R2).
      destruct (pfits (length (nth k l []) + 1)); [|rewrite R2 in E; auto; discriminate].
      destruct (R1 eq_refl) as (g0 & z0 & E0 & _ & _ & (F & O0)). rewrite E0 in E. injection E as -> ->.
      destruct (own_pg _ _ _ _ _ O0 (y, nth j l []) (or_intror IN)) as (_ & _ & _ & _ & Z). apply Z. auto. }
  unfold deref. rewrite (idx_some _ _ _ E3).
  destruct (put (pg_data g) (ib z + isz z - 1) (Val v)) as [d| | |] eqn:W; cbn [bind] in *.
  - pose proof (put_length _ _ _ _ W) as L. specialize (Hc _ eq_refl). cbn [pv_pg pg_data] in Hc.
    destruct (Nat.leb_spec (length (pg_data g)) cap); [|lia]. cbn [bind val]. rewrite W. auto.
  - unfold put in W. destruct (_ <? _) in W; discriminate.
  - destruct (_ <=? cap); cbn [bind val]; rewrite ?W; auto.
  - unfold put in W. destruct (_ <? _) in W; discriminate.
Qed.
End Pv.

(* ---- after any history ---- *)
Lemma vv_reached A dflt ops l outs m : shist A (vv_spec A dflt) [] ops = Some (l, outs) ->
  hist A (vv_step A dflt) vv_new ops = Ok (m, outs) -> FlatProofs.VR A m l.
Proof. exact (hist_sim_eq A (vv_step A dflt) _ (FlatProofs.VR A) (FlatProofs.vv_step_ok A dflt) ops _ _ l outs m (FlatProofs.VR_new A)). Qed.
Lemma mm_reached A dflt lmax ops l e outs m : lmax < 32 -> shist A (mm_spec A lmax) ([], 0) ops = Some ((l, e), outs) ->
  hist A (mm_step A dflt lmax) (mm_new lmax) ops = Ok (m, outs) -> MmProofs.Inv A lmax m l.
Proof.
  intros HL E1 E2. assert (B0 : MmProofs.BR A lmax (mm_new lmax) ([], 0)).
  { split; cbn; auto. apply MmProofs.new_inv; auto; [apply repeat_length|]. intros v Hv. apply repeat_spec in Hv. auto. }
  apply (hist_sim_eq A (mm_step A dflt lmax) _ (MmProofs.BR A lmax) (MmProofs.mm_step_ok A dflt lmax HL) ops _ _ _ outs m B0 E1 E2).
Qed.
Lemma pv_reached A dflt lmin lw ops l outs m : 1 <= lmin <= 15 -> 1 <= lw <= 2 ^ lmin -> shist A (pv_spec A) [] ops = Some (l, outs) ->
  hist A (pv_step A dflt lmin lw) (pv_new A lmin) ops = Ok (m, outs) -> PagedProofs.PR A lmin m l.
Proof.
  intros H1 H2. exact (hist_sim_eq A (pv_step A dflt lmin lw) _ (PagedProofs.PR A lmin)
    (PagedProofs.pv_step_ok A dflt lmin lw H1 H2) ops _ _ l outs m (PagedProofs.pv_new_ok A lmin lw H1 H2)).
Qed.

(* ---- without memory left ---- *)
Lemma vv_insert_out A cap m l k n p : FlatProofs.VR A m l -> k < length l -> 0 < n -> cap < length (concat l) + n ->
  vv_insert_own A cap m k n p = UB.
Proof.
  intros H Hk Hn Hc. unfold vv_insert_own. destruct (FlatProofs.vv_bucket_ok A m l k H Hk) as (_ & _ & E).
  unfold vv_bucket_size in E. destruct (vv_begin A m k) as [b| | |]; try discriminate. cbn [bind] in E.
  destruct (vv_end A m k) as [e| | |]; try discriminate. cbn [bind]. unfold vec_insert_own.
  destruct (Nat.eqb_spec n 0); [lia|]. destruct H as (-> & _). destruct (Nat.leb_spec (length (concat l) + n) cap); [lia|reflexivity].
Qed.
Lemma vv_push_out A cap m l k j i x : FlatProofs.VR A m l -> k < length l -> nth_error (nth j l []) i = Some x ->
  cap < length (concat l) + 1 -> vv_push_own A cap m k j i = UB.
Proof.
  intros H Hk Hx Hc. destruct (vv_ref_ok A (fun x => x) m l j i x H Hx) as (p & E & _). unfold vv_push_own. rewrite E. cbn [bind].
  apply (vv_insert_out A cap m l); auto.
Qed.
Lemma vv_grow_out A cap m l k n j i x : FlatProofs.VR A m l -> k < length l -> nth_error (nth j l []) i = Some x ->
  length (nth k l []) < n -> cap < length (concat l) + (n - length (nth k l [])) -> vv_grow_own A cap m k n j i = UB.
Proof.
  intros H Hk Hx Hn Hc. destruct (vv_ref_ok A (fun x => x) m l j i x H Hx) as (p & E & _). unfold vv_grow_own. rewrite E. cbn [bind].
  destruct (FlatProofs.vv_bucket_ok A m l k H Hk) as (_ & _ & ->). cbn [bind]. unfold verify.
  destruct (Nat.leb_spec (length (nth k l [])) n); [|lia]. cbn [bind]. apply (vv_insert_out A cap m l); auto; lia.
Qed.
Lemma vv_emplace_out A moved cap cst m l j : FlatProofs.VR A m l -> j < length l -> length (concat l) <= cap ->
  cap < length (concat l) + length (nth j l []) -> vv_emplace_own A moved cap cst m j = UB.
Proof.
  intros H Hj H1 H2. destruct (FlatProofs.split_nth A l j Hj) as (a & b & E & La). set (y := nth j l []) in *. clearbody y. subst l j.
  destruct (FlatProofs.vv_ends A m a y b H) as (_ & _ & E3 & E4). unfold vv_emplace_own. rewrite E3, E4. cbn [bind].
  replace (FlatProofs.len A a + length y - FlatProofs.len A a) with (length y) by lia. destruct H as (-> & _).
  destruct (Nat.leb_spec (length (concat (a ++ y :: b)) + length y) cap); [lia|]. destruct (Nat.eqb_spec (length y) 0); [lia|reflexivity].
Qed.
Lemma mm_push_out A dflt lmax cap m l k j i v m' : lmax < 32 -> MmProofs.Inv A lmax m l -> nth_error (nth j l []) i = Some v ->
  mm_push A dflt lmax m k v = Ok m' -> cap < length (mm_data m') -> mm_push_own A dflt lmax cap m k j i = UB.
Proof.
  intros HL I Hv E Hc. destruct (mm_ref_ok A lmax HL m l j i v I Hv) as (y & _ & _ & _ & Er & _). unfold mm_push_own. rewrite Er. cbn [bind].
  unfold mm_push in E. destruct (idx (mm_index m) k) as [x| | |]; try discriminate. cbn [bind] in *.
  destruct (if isz x =? ic x then _ else _) as [m1| | |]; try discriminate. cbn [bind] in *.
  destruct (idx (mm_index m1) k) as [x1| | |]; try discriminate. cbn [bind] in *.
  destruct (put _ _ _) as [d| | |] eqn:P; try discriminate. injection E as <-. apply put_length in P. cbn [mm_data] in Hc. unfold deref.
  destruct (Nat.leb_spec (length (mm_data m1)) cap); [lia|reflexivity].
Qed.
Lemma mm_insert_out A dflt lmax cap m l k q j i v m' : lmax < 32 -> MmProofs.Inv A lmax m l -> nth_error (nth j l []) i = Some v ->
  mm_insert A dflt lmax m k q v = Ok m' -> cap < length (mm_data m') -> mm_insert_own A dflt lmax cap m k q j i = UB.
Proof.
  intros HL I Hv E Hc. destruct (mm_ref_ok A lmax HL m l j i v I Hv) as (y & _ & _ & _ & Er & _). unfold mm_insert_own. rewrite Er. cbn [bind].
  unfold mm_insert in E. destruct (idx (mm_index m) k) as [x| | |]; try discriminate. cbn [bind] in *.
  destruct (mm_reserve _ _ _ _ _ _) as [m1| | |]; try discriminate. cbn [bind] in *.
  destruct (idx (mm_index m1) k) as [x1| | |]; try discriminate. cbn [bind] in *. destruct (q <=? isz x1); try discriminate.
  destruct (bmove _ _ _ _) as [d0| | |]; try discriminate. cbn [bind] in *.
  destruct (put _ _ _) as [d| | |] eqn:P; try discriminate. injection E as <-. apply put_length in P. cbn [mm_data] in Hc. unfold deref.
  destruct (Nat.leb_spec (length d0) cap); [lia|reflexivity].
Qed.
Lemma pv_push_out A dflt lmin lw cap m l k j i v m' : 1 <= lmin <= 15 -> 1 <= lw <= 2 ^ lmin -> PagedProofs.PR A lmin m l ->
  nth_error (nth j l []) i = Some v -> pv_push A dflt lmin lw m k v = Ok m' -> cap < length (pg_data (pv_pg m')) ->
  pv_push_own A dflt lmin lw cap m k j i = UB.
Proof.
  intros H1 H2 R Hv E Hc. destruct (pv_ref_ok A lmin lw H1 H2 m l j i v R Hv) as (y & _ & _ & _ & _ & Er & _). unfold pv_push_own. rewrite Er. cbn [bind].
  unfold pv_push in E. destruct (idx (pv_idx m) k) as [x| | |]; try discriminate. cbn [bind] in *.
  destruct (pg_resize _ _ _ _ _ _ _) as [(g, z)| | |]; try discriminate. cbn [bind] in *.
  destruct (put _ _ _) as [d| | |] eqn:P; try discriminate. injection E as <-. apply put_length in P. cbn [pv_pg pg_data] in Hc. unfold deref.
  destruct (Nat.leb_spec (length (pg_data g)) cap); [lia|reflexivity].
Qed.
Lemma mm_insert_shifted A dflt lmax cap m l k q i x v w : lmax < 32 -> MmProofs.Inv A lmax m l -> nth_error (mm_index m) k = Some x -> isz x < ic x ->
  q < i -> nth_error (nth k l []) i = Some v -> nth_error (nth k l []) (i - 1) = Some w -> length (mm_data m) <= cap ->
  mm_insert_own A dflt lmax cap m k q k i = mm_insert A dflt lmax m k q w.
Proof.
  intros HL I Ex Hx Hq Hv Hw Hc. destruct (mm_ref_ok A lmax HL m l k i v I Hv) as (y & Ey & Hi & Hs & Er & _).
  destruct (mm_ref_ok A lmax HL m l k (i - 1) w I Hw) as (y' & Ey' & _ & _ & _ & Ew).
  rewrite Ex in Ey, Ey'. injection Ey as <-. injection Ey' as <-. unfold mm_insert_own, mm_insert. rewrite Er. cbn [bind].
  rewrite (FlatProofs.idx_some _ _ _ Ex). cbn [bind]. unfold mm_reserve. rewrite (FlatProofs.idx_some _ _ _ Ex). cbn [bind].
  destruct (Nat.ltb_spec (ic x) (isz x + 1)); [lia|]. cbn [bind]. rewrite (FlatProofs.idx_some _ _ _ Ex). cbn [bind].
  destruct (Nat.leb_spec q (isz x)); [|lia].
  destruct (MmProofs.inv_ix _ _ _ _ I k x Ex) as (R1 & R2 & R3 & R4 & R5).
  destruct (MmProofs.bmove_ok (mm_data m) (ib x + q + 1) (ib x + q) (isz x - q)) as (d & Ed & Ld & Hd); [lia|lia|]. rewrite Ed. cbn [bind].
  specialize (Hd (ib x + i)). destruct (Nat.leb_spec (ib x + q + 1) (ib x + i)); [|lia].
  destruct (Nat.ltb_spec (ib x + i) (ib x + q + 1 + (isz x - q))); [|lia]. cbn [andb] in Hd.
  replace (ib x + q + (ib x + i - (ib x + q + 1))) with (ib x + (i - 1)) in Hd by lia. rewrite Ew in Hd.
  unfold deref. rewrite Ld. destruct (Nat.leb_spec (length (mm_data m)) cap); [|lia]. rewrite (FlatProofs.idx_some _ _ _ Hd). reflexivity.
Qed.
Lemma vv_push_moved_ok A moved cap m l k j i x : FlatProofs.VR A m l -> k < length l -> nth_error (nth j l []) i = Some x ->
  length (concat l) + 1 <= cap ->
  let l1 := upd j (upd i (moved x) (nth j l [])) l in
  exists m', vv_push_moved A moved cap m k j i = Ok m' /\ FlatProofs.VR A m' (upd k (nth k l1 [] ++ [x]) l1).
Proof.
  intros H Hk Hx Hc l1. assert (Hi : i < length (nth j l [])) by (apply nth_error_Some; congruence).
  assert (Hj : j < length l) by (destruct (le_lt_dec (length l) j) as [Q|Q]; auto; rewrite nth_overflow in Hi by auto; cbn in Hi; lia).
  destruct (FlatProofs.set_ok A m l j i (moved x) H Hi) as (m1 & E1 & R1). fold l1 in R1.
  destruct (FlatProofs.vv_insert_end_ok A m1 l1 k [x] R1 ltac:(unfold l1; rewrite upd_length; auto)) as (m2 & E2 & R2).
  exists m2. split; auto. destruct (vv_ref_ok A moved m l j i x H Hx) as (p & Er & Ex). unfold vv_push_moved. rewrite Er. cbn [bind].
  assert (P : put (vv_data m) p (moved x) = Ok (vv_data m1) /\ vv_starts m1 = vv_starts m).
  { unfold vv_ref, vv_begin in Er. unfold vv_set in E1. destruct (idx (vv_starts m) j) as [b| | |] eqn:Eb; try discriminate. cbn [bind] in E1.
    destruct (put (vv_data m) (b + i) (moved x)) as [d| | |] eqn:P; try discriminate. injection E1 as <-. cbn [vv_data vv_starts].
    destruct (Nat.eqb_spec (length (vv_starts m)) 0) as [Z|Z].
    { unfold idx in Eb. destruct (vv_starts m); [destruct j; discriminate|discriminate]. }
    cbn [bind] in Er. destruct (vv_end A m j) as [e| | |]; try discriminate. cbn [bind] in Er. destruct (_ <? _); try discriminate.
    injection Er as <-. auto. }
  destruct P as (P & S). unfold vv_insert_end, vv_end in *. rewrite S in E2.
  destruct (if length (vv_starts m) =? 0 then Ok 0 else idx (vv_starts m) (k + 1)) as [e| | |]; try discriminate. cbn [bind] in *.
  destruct H as (D & _). rewrite D at 1. destruct (Nat.leb_spec (length (concat l) + 1) cap); [|lia]. rewrite Ex. cbn [bind]. rewrite P. cbn [bind].
  exact E2.
Qed.
