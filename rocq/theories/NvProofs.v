(* Proofs for NvProps.v: programs over an nvec. *)
From Verif Require Import Base FlatModel FlatSpec FlatProofs AliasModel NvModel NvSpec.

Section P.
Variable A : Type.
Notation nest := (nest A).
Notation depth := (depth A).
Notation width := (width A).
Notation sub := (sub A).
Notation down := (down A).
Notation kids := (kids A).
Notation elems := (elems A).

Lemma deep_depth c : forall n, 0 < n -> deep A n c = true -> depth n c.
Proof.
  induction c as [xs|ns IH] using (nest_rec' A); intros n Hn H; cbn [deep] in H.
  - apply Nat.eqb_eq in H as ->. exact I.
  - apply andb_prop in H as (H1 & H2). apply Nat.leb_le in H1. destruct n as [|[|n]]; try lia.
    apply depth_node. exists ns. split; auto. cbn in H2. rewrite forallb_forall in H2.
    rewrite Forall_forall in *. intros c I. apply IH; auto. lia.
Qed.

Lemma concat_upd {B} (f : nest -> list B) l k c c' i y : nth_error l k = Some c -> f c' = upd i y (f c) -> i < length (f c) ->
  concat (map f (upd k c' l)) = upd (length (concat (map f (firstn k l))) + i) y (concat (map f l)).
Proof.
  intros H E Hi. destruct (nth_error_split _ _ H) as (a & b & -> & <-). rewrite upd_mid, firstn_mid, !map_app, !concat_app. cbn [map concat].
  rewrite E, upd_app2, upd_app1; auto.
Qed.
Lemma map_upd {B} (f : nest -> B) l k c c' : nth_error l k = Some c -> f c' = f c -> map f (upd k c' l) = map f l.
Proof. intros H E. destruct (nth_error_split _ _ H) as (a & b & -> & <-). rewrite upd_mid, !map_app. cbn [map]. rewrite E. auto. Qed.

Lemma alter_width f path : forall c xs, sub c path = Some (Leaf xs) -> length (f xs) = length xs -> width (alter A f c path) = width c.
Proof.
  destruct path as [|i path]; intros [ys|ns] xs H L; cbn in *; try discriminate.
  - injection H as ->. auto.
  - destruct (nth_error ns i); auto. apply upd_length.
Qed.
Lemma alter_depth f path : forall n c, depth n c -> depth n (alter A f c path).
Proof.
  induction path as [|i path IH]; intros n [ys|ns] H; cbn [alter]; auto. destruct n as [|[|n]]; try contradiction.
  apply depth_node in H as (ns' & [= <-] & F). apply depth_node. eexists. split; [reflexivity|].
  destruct (nth_error ns i) as [c|] eqn:Q; auto. apply upd_Forall; auto. apply IH. rewrite Forall_forall in F. eapply F, nth_error_In; eauto.
Qed.

Lemma idx_inv {B} (l : list B) i x : idx l i = Ok x -> nth_error l i = Some x.
Proof. unfold idx. destruct (nth_error l i); [intros [= ->]; auto|discriminate]. Qed.

Lemma down_alter : forall path d l k c xs, Forall (depth (S d)) l -> nth_error l k = Some c -> sub c path = Some (Leaf xs) ->
  exists p, nth_error (down d l) p = Some (Leaf xs) /\
    (forall m, (forall e, e <= d -> nth_error (nv_index m) (d - e) = Some (cum 0 (map width (down e l)))) -> nv_pos A m d k path = Ok (0, p)) /\
    forall f, length (f xs) = length xs ->
      down d (upd k (alter A f c path) l) = upd p (Leaf (f xs)) (down d l) /\
      (forall e, e <= d -> map width (down e (upd k (alter A f c path) l)) = map width (down e l)).
Proof.
  induction path as [|i path IH]; intros d l k c xs F H E; cbn [FlatSpec.sub] in E.
  - injection E as ->. pose proof (proj1 (Forall_forall _ _) F _ (nth_error_In _ _ H)) as Hc.
    destruct d as [|d]; [|apply depth_node in Hc as (ns & [=] & _)].
    exists k. split; [exact H|]. split; [reflexivity|]. intros f L. cbn [alter]. split; [reflexivity|].
    intros e He. replace e with 0 by lia. cbn [FlatProofs.down]. eapply map_upd; [exact H|]. cbn. auto.
  - destruct c as [ys|ns]; [discriminate|]. destruct (nth_error ns i) as [c1|] eqn:Q; [|discriminate].
    pose proof (proj1 (Forall_forall _ _) F _ (nth_error_In _ _ H)) as Hc.
    destruct d as [|d]; [contradiction|].
    set (k1 := sum (map width (firstn k l)) + i).
    assert (K : nth_error (concat (map kids l)) k1 = Some c1) by (eapply kid_at; eauto).
    assert (F1 : Forall (depth (S d)) (concat (map kids l))).
    { apply (down_depth A 1 d l). auto. }
    destruct (IH d _ k1 c1 xs F1 K E) as (p & H1 & H2 & H3). exists p. split; [exact H1|]. split.
    + intros m Hm. cbn [nv_pos]. pose proof (Hm 0 ltac:(lia)) as I0. cbn [Nat.sub FlatProofs.down] in I0.
      rewrite (idx_some _ _ _ I0). cbn [bind].
      destruct (idx_cum A (fun _ => l) 0 k _ H) as (-> & _). cbn [bind]. apply H2.
      intros e He. apply (Hm (S e)). lia.
    + intros f L. destruct (H3 f L) as (G1 & G2).
      assert (U : concat (map kids (upd k (alter A f (Node ns) (i :: path)) l)) = upd k1 (alter A f c1 path) (concat (map kids l))).
      { unfold k1. rewrite (concat_upd kids l k (Node ns) _ i (alter A f c1 path)); auto.
        - rewrite <- (widths_kids A d); auto. apply Forall_forall. intros z Hz. rewrite Forall_forall in F. apply F.
          rewrite <- (firstn_skipn k l). apply in_or_app. auto.
        - cbn. rewrite Q. auto.
        - cbn. apply nth_error_Some. congruence. }
      split.
      * cbn [FlatProofs.down]. rewrite U. exact G1.
      * intros [|e] He; cbn [FlatProofs.down].
        { eapply map_upd; [exact H|]. apply (alter_width f (i :: path) _ xs); auto. cbn. rewrite Q. auto. }
        rewrite U. apply G2. lia.
Qed.

Theorem inner_ok n m l k path xs : 0 < n -> NR A n m l -> Forall (depth n) l -> inner A l k path = Some xs ->
  exists p a b, nv_inner A n m k path = Ok p /\ nv_data m = a ++ xs ++ b /\
    (exists s, nth_error (nv_index m) 0 = Some s /\ nth_error s p = Some (length a) /\ nth_error s (p + 1) = Some (length a + length xs)) /\
    forall f, length (f xs) = length xs -> NR A n (NV (a ++ f xs ++ b) (nv_index m)) (replace A f l k path) /\ Forall (depth n) (replace A f l k path).
Proof.
  intros Hn R F E. unfold inner in E. destruct (nth_error l k) as [c|] eqn:H; [|discriminate].
  destruct (sub c path) as [[ys|]|] eqn:Hs; try discriminate. injection E as ->.
  destruct R as [(-> & _)|(R & C)]; [destruct k; discriminate|]. destruct n as [|d]; [lia|].
  pose proof R as (HL & HD & HI & HF). cbn [Nat.sub] in *. rewrite Nat.sub_0_r in *.
  destruct (down_alter path d l k c xs F H Hs) as (p & H1 & H2 & H3).
  assert (P : nv_inner A (S d) m k path = Ok p).
  { unfold nv_inner. cbn [Nat.sub]. rewrite Nat.sub_0_r. rewrite (H2 m); auto.
    intros e He. rewrite HI by lia. do 4 f_equal. lia. }
  destruct (nth_error_split _ _ H1) as (u & v & Q & Lu).
  pose proof (HF 0 ltac:(lia)) as F0. cbn beta in F0. rewrite Nat.sub_0_r in *.
  assert (Fu : Forall (depth 1) u) by (rewrite Q in F0; apply Forall_app in F0; tauto).
  exists p, (concat (map elems u)), (concat (map elems v)). split; [exact P|]. split.
  { rewrite HD, Q, map_app, concat_app. reflexivity. }
  split.
  { exists (cum 0 (map width (down d l))). split; [rewrite (HI 0) by lia; do 4 f_equal; lia|].
    destruct (idx_cum A (fun _ => down d l) 0 p _ H1) as (I1 & I2). apply idx_inv in I1, I2. rewrite I1, I2.
    assert (W : sum (map width (firstn p (down d l))) = length (concat (map elems u))).
    { rewrite Q, <- Lu, firstn_mid. apply widths_elems. auto. }
    rewrite W. auto. }
  intros f L. destruct (H3 f L) as (G1 & G2). unfold replace. rewrite H.
  assert (F' : Forall (depth (S d)) (upd k (alter A f c path) l)).
  { apply upd_Forall; auto. apply alter_depth. rewrite Forall_forall in F. eapply F, nth_error_In; eauto. }
  split; [|exact F']. right. cbn [Nat.sub]. rewrite Nat.sub_0_r. split.
  - split; [exact HL|]. split; [|split].
    + cbn [nv_data]. rewrite Nat.sub_0_r, G1, Q. subst p. rewrite upd_mid, map_app, concat_app. reflexivity.
    + intros j Hj. cbn [nv_index]. rewrite G2 by lia. auto.
    + intros j Hj. apply down_depth. replace (d - j + j) with d by lia. exact F'.
  - intros j Hj. replace (d - j) with (S (d - S j)) by lia. apply down_S.
Qed.

Lemma nth_mid {B} (a xs b : list B) j x : nth_error xs j = Some x -> nth_error (a ++ xs ++ b) (length a + j) = Some x.
Proof.
  intros H. rewrite nth_error_app2 by lia. replace (_ - _) with j by lia. rewrite nth_error_app1; auto. apply nth_error_Some. congruence.
Qed.
Section Bucket.
Variables (m : nv A) (p : nat) (a xs b : list A).
Hypothesis D : nv_data m = a ++ xs ++ b.
Hypothesis I0 : exists s, nth_error (nv_index m) 0 = Some s /\ nth_error s p = Some (length a) /\ nth_error s (p + 1) = Some (length a + length xs).
Lemma b_len : nv_len A m 0 p = Ok (length xs).
Proof.
  destruct I0 as (s & Q0 & Q1 & Q2). unfold nv_len. rewrite (idx_some _ _ _ Q0). cbn [bind]. rewrite (idx_some _ _ _ Q1), (idx_some _ _ _ Q2). cbn [bind].
  destruct (Nat.leb_spec (length a) (length a + length xs)); [|lia]. f_equal. lia.
Qed.
Lemma b_elem j : j < length xs -> nv_elem A m p j = Ok (length a + j).
Proof.
  intros H. destruct I0 as (s & Q0 & Q1 & Q2). unfold nv_elem. rewrite (idx_some _ _ _ Q0). cbn [bind]. rewrite (idx_some _ _ _ Q1), (idx_some _ _ _ Q2). cbn [bind].
  destruct (Nat.leb_spec (length a) (length a + length xs)); [|lia]. destruct (Nat.ltb_spec j (length a + length xs - length a)); [auto|lia].
Qed.
Lemma b_get j x : nth_error xs j = Some x -> nv_get A m p j = Ok x.
Proof.
  intros H. unfold nv_get. rewrite b_elem by (apply nth_error_Some; congruence). cbn [bind]. apply idx_some. rewrite D. apply nth_mid. auto.
Qed.
Lemma b_at j x : nth_error xs j = Some x -> nv_at A m p j = Ok x.
Proof.
  intros H. assert (j < length xs) by (apply nth_error_Some; congruence). unfold nv_at. rewrite b_len. cbn [bind].
  destruct (Nat.ltb_spec j (length xs)); [|lia]. cbn [verify bind]. destruct I0 as (s & Q0 & Q1 & Q2). rewrite (idx_some _ _ _ Q0). cbn [bind].
  rewrite (idx_some _ _ _ Q1). cbn [bind]. apply idx_some. rewrite D. apply nth_mid. auto.
Qed.
Lemma b_set j x : j < length xs -> nv_set A m p j x = Ok (NV (a ++ upd j x xs ++ b) (nv_index m)).
Proof.
  intros H. unfold nv_set. rewrite b_elem by auto. cbn [bind]. unfold put. rewrite D. rewrite !app_length.
  destruct (Nat.ltb_spec (length a + j) (length a + (length xs + length b))); [|lia]. cbn [bind]. rewrite upd_app2, upd_app1; auto.
Qed.
End Bucket.

Lemma b_fill ind p (a : list A) b x n : forall ys zs, length zs = n ->
  (exists s, nth_error ind 0 = Some s /\ nth_error s p = Some (length a) /\ nth_error s (p + 1) = Some (length a + length (ys ++ zs))) ->
  nv_fill A (NV (a ++ (ys ++ zs) ++ b) ind) p (length ys) n x = Ok (NV (a ++ (ys ++ map (fun _ => x) zs) ++ b) ind).
Proof.
  induction n as [|n IH]; intros ys [|z zs] L Q; cbn [length] in L; try discriminate; [reflexivity|].
  cbn [nv_fill]. rewrite (b_set (NV (a ++ (ys ++ z :: zs) ++ b) ind) p a (ys ++ z :: zs) b eq_refl Q) by (rewrite app_length; cbn; lia).
  cbn [bind nv_index]. rewrite upd_mid. replace (S (length ys)) with (length (ys ++ [x])) by (rewrite app_length; cbn; lia).
  replace (ys ++ x :: zs) with ((ys ++ [x]) ++ zs) by (rewrite <- app_assoc; auto).
  replace (ys ++ map (fun _ => x) (z :: zs)) with ((ys ++ [x]) ++ map (fun _ => x) zs) by (rewrite <- app_assoc; auto).
  apply IH; [lia|]. destruct Q as (s & Q0 & Q1 & Q2). exists s. repeat split; auto. rewrite Q2. f_equal. rewrite !app_length. cbn. lia.
Qed.

Definition NI (n : nat) (m : nv A) (l : list nest) : Prop := NR A n m l /\ Forall (depth n) l.
Lemma size_ok n m l : 0 < n -> NR A n m l -> nv_size A n m = Ok (length l).
Proof.
  intros Hn [(-> & ->)|(R & C)].
  - unfold nv_size, idx, nv_new. cbn [nv_index]. rewrite (nth_error_nth' _ []) by (rewrite repeat_length; lia). rewrite nth_repeat. auto.
  - pose proof R as (_ & HD & HI & HF). unfold nv_size. rewrite (idx_some _ _ _ (HI (n - 1) ltac:(lia))). cbn [bind].
    rewrite cum_length, map_length, Nat.sub_diag. cbn [FlatProofs.down]. f_equal. lia.
Qed.
Lemma below_ok n m l k path c : 0 < n -> NR A n m l -> below A l k path = Some c ->
  nv_path A n m (k :: path) = Ok c /\ nv_path_size A n m (k :: path) = Ok (width c).
Proof.
  intros Hn R E. unfold below in E. destruct (nth_error l k) as [c0|] eqn:Hk; [|discriminate].
  destruct R as [(-> & _)|(R & C)]; [destruct k; discriminate|].
  set (lv := fun j => down (n - 1 - j) l) in *. assert (T : lv (n - 1) = l) by (unfold lv; rewrite Nat.sub_diag; auto). rewrite <- T in Hk.
  destruct (nv_pos_ok A m n lv R C path (n - 1) k c0 c ltac:(lia) Hk E) as (L & q & Ep & HL & Hq).
  cbn [nv_path nv_path_size]. rewrite Ep. cbn [bind]. split; [eapply nv_below_ok|eapply nv_len_ok]; eauto.
Qed.

Lemma step_ok n m l o l' x : 0 < n -> NI n m l -> nv_spec A n l o = Some (l', x) ->
  exists m', nv_step A n m o = Ok (m', x) /\ NI n m' l'.
Proof.
  intros Hn (R & F) E.
  assert (IN : forall k path xs, inner A l k path = Some xs -> exists p a b, nv_inner A n m k path = Ok p /\ nv_data m = a ++ xs ++ b /\
    (exists s, nth_error (nv_index m) 0 = Some s /\ nth_error s p = Some (length a) /\ nth_error s (p + 1) = Some (length a + length xs)) /\
    forall f, length (f xs) = length xs -> NI n (NV (a ++ f xs ++ b) (nv_index m)) (replace A f l k path)).
  { intros k path xs H. apply (inner_ok n m l k path xs Hn R F H). }
  unfold nv_step, nv_spec in *. destruct o.
  - destruct (deep A n c) eqn:Q; [|discriminate]. injection E as <- <-. apply deep_depth in Q; auto.
    destruct (nv_emplace_ok A n m l c Hn Q R) as (m' & E & R'). rewrite E. exists m'. split; [reflexivity|]. split; auto. apply Forall_app. auto.
  - injection E as <- <-. rewrite (size_ok n m l Hn R). exists m. split; [reflexivity|]. split; auto.
  - destruct (below A l k path) as [c|] eqn:B; [|discriminate]. injection E as <- <-.
    destruct (below_ok n m l k path c Hn R B) as (_ & ->). exists m. split; [reflexivity|]. split; auto.
  - destruct (below A l k path) as [c|] eqn:B; [|discriminate]. injection E as <- <-.
    destruct (below_ok n m l k path c Hn R B) as (-> & _). exists m. split; [reflexivity|]. split; auto.
  - destruct (rev l) as [|c r] eqn:Q; [discriminate|]. injection E as <- <-. rewrite (size_ok n m l Hn R). cbn [bind].
    assert (G : l = rev r ++ [c]) by (rewrite <- (rev_involutive l), Q; reflexivity).
    assert (L : length l = S (length r)) by (rewrite G, app_length, rev_length; cbn; lia). rewrite L. cbn [Nat.eqb Nat.sub]. rewrite Nat.sub_0_r.
    assert (B : below A l (length r) [] = Some c).
    { unfold below. rewrite G, nth_error_app2, rev_length, Nat.sub_diag by (rewrite rev_length; lia). reflexivity. }
    destruct (below_ok n m l _ _ c Hn R B) as (P & _). cbn [nv_path nv_pos] in P.
    assert (P' : nv_below A m (n - 1) (length r) = Ok c) by (destruct (n - 1); exact P). rewrite P'.
    exists m. split; [reflexivity|]. split; auto.
  - destruct (inner A l k path) as [xs|] eqn:B; [|discriminate]. destruct (nth_error xs j) as [y|] eqn:Q; [|discriminate]. injection E as <- <-.
    destruct (IN _ _ _ B) as (p & a & b & -> & D & I0 & _). cbn [bind]. rewrite (b_get m p a xs b D I0 _ _ Q). exists m. split; [reflexivity|]. split; auto.
  - destruct (inner A l k path) as [xs|] eqn:B; [|discriminate]. injection E as <- <-.
    destruct (IN _ _ _ B) as (p & a & b & -> & D & I0 & _). cbn [bind]. exists m. split; [|split; auto]. destruct (nth_error xs j) as [y|] eqn:Q.
    + rewrite (b_at m p a xs b D I0 _ _ Q). reflexivity.
    + apply nth_error_None in Q. unfold nv_at. rewrite (b_len m p a xs I0). cbn [bind]. destruct (Nat.ltb_spec j (length xs)); [lia|]. reflexivity.
  - destruct (inner A l k path) as [[|y xs]|] eqn:B; try discriminate. injection E as <- <-.
    destruct (IN _ _ _ B) as (p & a & b & -> & D & I0 & _). cbn [bind]. unfold nv_front. rewrite (b_get m p a _ b D I0 0 y eq_refl).
    exists m. split; [reflexivity|]. split; auto.
  - destruct (inner A l k path) as [xs|] eqn:B; try discriminate. destruct (rev xs) as [|y r] eqn:Q; [discriminate|]. injection E as <- <-.
    destruct (IN _ _ _ B) as (p & a & b & -> & D & I0 & _). cbn [bind]. unfold nv_back. rewrite (b_len m p a xs I0). cbn [bind].
    assert (G : xs = rev r ++ [y]) by (rewrite <- (rev_involutive xs), Q; reflexivity).
    assert (L : length xs = S (length r)) by (rewrite G, app_length, rev_length; cbn; lia). rewrite L. cbn [Nat.eqb Nat.sub]. rewrite Nat.sub_0_r.
    rewrite (b_get m p a _ b D I0 (length r) y). { exists m. split; [reflexivity|]. split; auto. }
    rewrite G, nth_error_app2, rev_length, Nat.sub_diag by (rewrite rev_length; lia). reflexivity.
  - destruct (inner A l k path) as [xs|] eqn:B; try discriminate. destruct (Nat.ltb_spec j (length xs)); [|discriminate]. injection E as <- <-.
    destruct (IN _ _ _ B) as (p & a & b & -> & D & I0 & K). cbn [bind]. rewrite (b_set m p a xs b D I0) by auto. eexists. split; [reflexivity|].
    apply (K (upd j x0)). apply upd_length.
  - destruct (inner A l k path) as [xs|] eqn:B; try discriminate. destruct (IN _ _ _ B) as (p & a & b & -> & D & I0 & K). cbn [bind].
    unfold nv_put. rewrite (b_len m p a xs I0). cbn [bind]. destruct (Nat.ltb_spec j (length xs)); injection E as <- <-; cbn [verify bind].
    + rewrite (b_set m p a xs b D I0) by auto. eexists. split; [reflexivity|]. apply (K (upd j x0)). apply upd_length.
    + exists m. split; [reflexivity|]. split; auto.
  - destruct (inner A l k path) as [xs|] eqn:B; try discriminate. injection E as <- <-. destruct (IN _ _ _ B) as (p & a & b & -> & D & I0 & K). cbn [bind].
    rewrite (b_len m p a xs I0). cbn [bind]. pose proof (b_fill (nv_index m) p a b x0 (length xs) [] xs eq_refl I0) as G. cbn [app length] in G.
    destruct m as [d ind]. cbn [nv_data nv_index] in *. subst d. rewrite G. eexists. split; [reflexivity|]. apply (K (map (fun _ => x0))). apply map_length.
Qed.
Theorem run_ok n : 0 < n -> forall ops m l l' xs, NI n m l -> nv_hist A n l ops = Some (l', xs) ->
  exists m', nv_run A n m ops = Ok (m', xs) /\ NI n m' l'.
Proof.
  intros Hn. induction ops as [|o ops IH]; intros m l l' xs R E; cbn [nv_hist nv_run] in *.
  - injection E as <- <-. exists m. auto.
  - destruct (nv_spec A n l o) as [(l1, x)|] eqn:E1; [|discriminate]. destruct (nv_hist A n l1 ops) as [(l2, ys)|] eqn:E2; [|discriminate].
    injection E as <- <-. destruct (step_ok n m l o l1 x Hn R E1) as (m1 & -> & R1). cbn [bind].
    destruct (IH m1 l1 l2 ys R1 E2) as (m2 & -> & R2). exists m2. auto.
Qed.
Lemma NI_new n : NI n (nv_new n) [].
Proof. split; auto. left. auto. Qed.

Lemma sub_alter f path : forall c path' xs, sub c path' = Some (Leaf xs) -> path' <> path -> sub (alter A f c path) path' = Some (Leaf xs).
Proof.
  induction path as [|i path IH]; intros c path' xs H N; destruct c as [ys|ns]; cbn [alter]; auto.
  - destruct path'; [congruence|discriminate].
  - destruct path' as [|i' path']; [discriminate|]. cbn [FlatSpec.sub] in *. destruct (nth_error ns i) as [c|] eqn:Q; auto.
    assert (Hi : i < length ns) by (apply nth_error_Some; congruence). destruct (Nat.eq_dec i' i) as [->|D].
    + rewrite Q in H. rewrite nth_error_upd_eq by auto. apply IH; auto. congruence.
    + rewrite nth_error_upd_neq by auto. auto.
Qed.
Theorem write_apart n ops l outs m k path j x m' :
  0 < n -> nv_hist A n [] ops = Some (l, outs) -> nv_run A n (nv_new n) ops = Ok (m, outs) ->
  inner A l k path <> None -> nv_step A n m (NSet k path j x) = Ok (m', YNone) ->
  forall k' path' xs, inner A l k' path' = Some xs -> (k', path') <> (k, path) ->
    nv_path A n m' (k' :: path') = Ok (Leaf xs).
Proof.
  intros Hn H E HI S k' path' xs H' N. destruct (run_ok n Hn ops (nv_new n) [] l outs (NI_new n) H) as (m0 & E0 & R0).
  rewrite E in E0. injection E0 as <-. destruct (inner A l k path) as [ys|] eqn:B; [|congruence].
  destruct R0 as (R & F). destruct (inner_ok n m l k path ys Hn R F B) as (p & a & b & P & D & I0 & K).
  assert (J : j < length ys).
  { unfold nv_step in S. rewrite P in S. cbn [bind] in S. unfold nv_set, nv_elem in S. destruct I0 as (s & Q0 & Q1 & Q2).
    rewrite (idx_some _ _ _ Q0) in S. cbn [bind] in S. rewrite (idx_some _ _ _ Q1), (idx_some _ _ _ Q2) in S. cbn [bind] in S.
    destruct (_ && _) eqn:Z; [|discriminate]. apply andb_prop in Z as (_ & Z). apply Nat.ltb_lt in Z. lia. }
  destruct (step_ok n m l (NSet k path j x) (replace A (upd j x) l k path) YNone Hn (conj R F)) as (m2 & E2 & R2 & _).
  { cbn [nv_spec]. rewrite B. apply Nat.ltb_lt in J. rewrite J. auto. }
  rewrite S in E2. injection E2 as <-. apply (below_ok n m' _ k' path' (Leaf xs) Hn R2).
  unfold below, inner, replace in *. destruct (nth_error l k) as [c|] eqn:Hk; [|discriminate].
  assert (Lk : k < length l) by (apply nth_error_Some; congruence). destruct (Nat.eq_dec k' k) as [->|Dk].
  - rewrite nth_error_upd_eq by auto. rewrite Hk in H'. apply sub_alter; [|congruence].
    destruct (sub c path') as [[zs|]|]; try discriminate. injection H' as ->. auto.
  - rewrite nth_error_upd_neq by auto. destruct (nth_error l k') as [c'|]; [|discriminate].
    destruct (sub c' path') as [[zs|]|]; try discriminate. injection H' as ->. auto.
Qed.
End P.

Section Own.
Variable A : Type.
Variable moved : A -> A.
Variable cap : nat.
Variable cst : bool.
Notation nest := (nest A).
Notation flat := (flat A).
Definition mv (x : A) : A := if cst then x else moved x.
Definition flats (ns : list nest) : list A := concat (map flat ns).

Lemma move_mid a xs b : move_out A moved cst (length a) (length xs) (a ++ xs ++ b) = a ++ map mv xs ++ b.
Proof.
  unfold move_out, mv. destruct cst; [rewrite map_id; auto|].
  assert (H : skipn (length a + length xs) (a ++ xs ++ b) = b).
  { rewrite app_assoc, <- app_length, skipn_app, Nat.sub_diag, skipn_all, skipn_O. auto. }
  rewrite H, firstn_app, Nat.sub_diag, firstn_O, app_nil_r, firstn_all.
  rewrite skipn_app, Nat.sub_diag, skipn_all, skipn_O, app_nil_l.
  rewrite firstn_app, Nat.sub_diag, firstn_O, app_nil_r, firstn_all. auto.
Qed.

Definition extends (i i' : list (list nat)) : Prop := forall j s, nth_error i j = Some s -> exists t, nth_error i' j = Some (s ++ t).
Lemma ext_refl i : extends i i.
Proof. intros j s H. exists []. rewrite app_nil_r. auto. Qed.
Lemma ext_trans i1 i2 i3 : extends i1 i2 -> extends i2 i3 -> extends i1 i3.
Proof. intros H1 H2 j s H. destruct (H1 j s H) as (t & K). destruct (H2 _ _ K) as (u & Q). exists (t ++ u). rewrite Q, app_assoc. auto. Qed.
Lemma push_ext l L v i : push_at l L v = Ok i -> extends l i.
Proof.
  unfold push_at. destruct (idx l L) as [s| | |] eqn:E; try discriminate. apply idx_inv in E. cbn [bind]. unfold put.
  destruct (Nat.ltb_spec L (length l)); [|discriminate]. intros [= <-] j t Hj. destruct (Nat.eq_dec j L) as [->|D].
  - rewrite nth_error_upd_eq by auto. assert (t = s) as -> by congruence. eauto.
  - rewrite nth_error_upd_neq by auto. exists []. rewrite app_nil_r. auto.
Qed.

Definition addall (L : nat) := fix all (m : nv A) (ns : list nest) : res (nv A) :=
  match ns with [] => Ok m | n :: ns => let* m := nv_add A L m n in all m ns end.
Definition ownall (L : nat) := fix all (n q : nat) (m : nv A) : res (nv A) :=
  match n with O => Ok m | S n => let* m := nv_add_own A moved cap cst L m q in all n (S q) m end.
Lemma nv_add_node L m ns : nv_add A (S L) m (Node ns) =
  let* low := idx (nv_index m) L in
  let* i := push_at (nv_index m) (S L) (length low + length ns - 1) in addall L (NV (nv_data m) i) ns.
Proof. reflexivity. Qed.
Lemma nv_own_node L m p : nv_add_own A moved cap cst (S L) m p =
  let* s := idx (nv_index m) (S L) in let* b := idx s p in let* e := idx s (p + 1) in
  if b <=? e then
    let* low := idx (nv_index m) L in
    let* i := push_at (nv_index m) (S L) (length low + (e - b) - 1) in ownall L (e - b) b (NV (nv_data m) i)
  else UB.
Proof. reflexivity. Qed.

Definition adds (c : nest) : Prop := forall L d i m0, nv_add A L (NV d i) c = Ok m0 ->
  nv_data m0 = d ++ flat c /\ extends i (nv_index m0) /\
  forall d', length d' = length d -> nv_add A L (NV d' i) c = Ok (NV (d' ++ flat c) (nv_index m0)).
Lemma addall_ok ns : Forall adds ns -> forall L d i m0, addall L (NV d i) ns = Ok m0 ->
  nv_data m0 = d ++ flats ns /\ extends i (nv_index m0) /\
  forall d', length d' = length d -> addall L (NV d' i) ns = Ok (NV (d' ++ flats ns) (nv_index m0)).
Proof.
  induction 1 as [|c ns Hc _ IH]; intros L d i m0 E; cbn [addall] in *.
  - injection E as <-. cbn. rewrite app_nil_r. split; auto. split; [apply ext_refl|]. intros d' _. rewrite app_nil_r. auto.
  - destruct (nv_add A L (NV d i) c) as [[d1 i1]| | |] eqn:E1; try discriminate. cbn [bind] in E.
    destruct (Hc L d i _ E1) as (D1 & X1 & S1). cbn [nv_data nv_index] in *. subst d1.
    destruct (IH L _ i1 m0 E) as (D2 & X2 & S2). unfold flats in *. cbn [map concat]. rewrite D2, <- app_assoc. split; auto.
    split; [eapply ext_trans; eauto|]. intros d' L'. rewrite (S1 d' L'). cbn [bind]. rewrite S2 by (rewrite !app_length; lia).
    rewrite <- app_assoc. auto.
Qed.
Lemma add_ok c : adds c.
Proof.
  induction c as [xs|ns IH] using (nest_rec' A); intros L d i m0 E; destruct L as [|L]; try discriminate.
  - cbn [nv_add nv_index nv_data] in *. destruct (push_at i 0 (length d + length xs)) as [i1| | |] eqn:P; try discriminate. injection E as <-.
    cbn [nv_index nv_data NvSpec.flat]. split; auto. split; [eapply push_ext; eauto|]. intros d' L. rewrite L, P. auto.
  - rewrite nv_add_node in E. cbn [nv_index nv_data] in E. destruct (idx i L) as [low| | |] eqn:I; try discriminate. cbn [bind] in E.
    destruct (push_at i (S L) _) as [i1| | |] eqn:P; try discriminate. cbn [bind] in E.
    destruct (addall_ok ns IH L d i1 m0 E) as (D & X & S1). split; [exact D|]. split; [eapply ext_trans; [eapply push_ext; eauto|auto]|].
    intros d' L'. rewrite nv_add_node. cbn [nv_index nv_data]. rewrite I. cbn [bind]. rewrite P. cbn [bind]. apply S1. auto.
Qed.

Fixpoint shape (i : list (list nat)) (L p : nat) (c : nest) (lo : nat) : Prop :=
  match L, c with
  | O, Leaf xs => exists s, nth_error i 0 = Some s /\ nth_error s p = Some lo /\ nth_error s (p + 1) = Some (lo + length xs)
  | S L', Node ns => exists s b, nth_error i L = Some s /\ nth_error s p = Some b /\ nth_error s (p + 1) = Some (b + length ns) /\
      forall t c, nth_error ns t = Some c -> shape i L' (b + t) c (lo + length (flats (firstn t ns)))
  | _, _ => False
  end.
Lemma nth_ext {B} (s t : list B) j x : nth_error s j = Some x -> nth_error (s ++ t) j = Some x.
Proof. intros H. rewrite nth_error_app1; auto. apply nth_error_Some. congruence. Qed.
Lemma shape_mono i i' : extends i i' -> forall L p c lo, shape i L p c lo -> shape i' L p c lo.
Proof.
  intros X. induction L as [|L IH]; intros p [xs|ns] lo H; cbn [shape] in *; auto.
  - destruct H as (s & H0 & H1 & H2). destruct (X _ _ H0) as (t & H3). exists (s ++ t). auto using nth_ext.
  - destruct H as (s & b & H0 & H1 & H2 & H3). destruct (X _ _ H0) as (t & H4). exists (s ++ t), b. repeat split; auto using nth_ext.
Qed.

Definition owns (c : nest) : Prop := forall L p a b i m0, nv_add A L (NV (a ++ flat c ++ b) i) c = Ok m0 -> shape i L p c (length a) ->
  length (a ++ flat c ++ b) + length (flat c) <= cap ->
  nv_add_own A moved cap cst L (NV (a ++ flat c ++ b) i) p = Ok (NV (a ++ map mv (flat c) ++ b ++ flat c) (nv_index m0)).
Lemma ownall_ok ns : Forall owns ns -> forall L q a b i m0, addall L (NV (a ++ flats ns ++ b) i) ns = Ok m0 ->
  (forall t c, nth_error ns t = Some c -> shape i L (q + t) c (length a + length (flats (firstn t ns)))) ->
  length (a ++ flats ns ++ b) + length (flats ns) <= cap ->
  ownall L (length ns) q (NV (a ++ flats ns ++ b) i) = Ok (NV (a ++ map mv (flats ns) ++ b ++ flats ns) (nv_index m0)).
Proof.
  induction 1 as [|c ns Hc _ IH]; intros L q a b i m0 E S C; cbn [addall ownall length] in *.
  - injection E as <-. cbn. rewrite app_nil_r. auto.
  - unfold flats in E, C |- *. cbn [map concat] in E, C |- *. fold (flats ns) in E, C |- *. rewrite <- app_assoc in E, C |- *.
    destruct (nv_add A L _ c) as [[d1 i1]| | |] eqn:E1; try discriminate. cbn [bind] in E.
    rewrite (Hc L q a (flats ns ++ b) i _ E1).
    2:{ specialize (S 0 c eq_refl). cbn in S. rewrite !Nat.add_0_r in S. exact S. }
    2:{ rewrite !app_length in *. lia. }
    cbn [bind nv_index]. destruct (add_ok c L _ i _ E1) as (D1 & X1 & _). cbn [nv_data nv_index] in D1, X1. subst d1.
    replace (a ++ map mv (flat c) ++ (flats ns ++ b) ++ flat c) with ((a ++ map mv (flat c)) ++ flats ns ++ (b ++ flat c)) by (rewrite <- !app_assoc; auto).
    assert (FA : Forall adds ns) by (apply Forall_forall; intros x _; apply add_ok).
    destruct (addall_ok ns FA L _ i1 m0 E) as (_ & _ & S1).
    rewrite (IH L (Datatypes.S q) (a ++ map mv (flat c)) (b ++ flat c) i1 _ (S1 ((a ++ map mv (flat c)) ++ flats ns ++ b ++ flat c) ltac:(rewrite !app_length, map_length; lia))).
    + cbn [nv_index]. rewrite map_app, <- !app_assoc. auto.
    + intros t x Hx. apply (shape_mono i i1 X1). specialize (S (Datatypes.S t) x Hx). rewrite Nat.add_succ_r in S. cbn [firstn] in S.
      unfold flats in S at 1. cbn [map concat] in S. rewrite app_length in S. rewrite app_length, map_length, <- Nat.add_assoc. exact S.
    + rewrite !app_length, !map_length in *. lia.
Qed.
Lemma own_ok c : owns c.
Proof.
  induction c as [xs|ns IH] using (nest_rec' A); intros L p a b i m0 E S C; destruct L as [|L]; try discriminate.
  - cbn [nv_add nv_index nv_data NvSpec.flat] in *. destruct (push_at i 0 _) as [i1| | |] eqn:P; try discriminate. injection E as <-.
    destruct S as (s & H0 & H1 & H2). cbn [nv_add_own nv_index nv_data]. rewrite (idx_some _ _ _ H0). cbn [bind].
    rewrite (idx_some _ _ _ H1), (idx_some _ _ _ H2). cbn [bind]. destruct (Nat.leb_spec (length a) (length a + length xs)); [|lia].
    replace (length a + length xs - length a) with (length xs) by lia. rewrite P. cbn [bind].
    destruct (Nat.leb_spec (length (a ++ xs ++ b) + length xs) cap); [|lia]. rewrite range_mid by auto. cbn [bind nv_index].
    rewrite move_mid, <- !app_assoc. auto.
  - destruct S as (s & b0 & H0 & H1 & H2 & H3). rewrite nv_add_node in E. rewrite nv_own_node. cbn [nv_index nv_data] in *.
    rewrite (idx_some _ _ _ H0). cbn [bind]. rewrite (idx_some _ _ _ H1), (idx_some _ _ _ H2). cbn [bind].
    destruct (Nat.leb_spec b0 (b0 + length ns)); [|lia]. replace (b0 + length ns - b0) with (length ns) by lia.
    destruct (idx i L) as [low| | |]; try discriminate. cbn [bind] in *. destruct (push_at i (Datatypes.S L) _) as [i1| | |] eqn:P; try discriminate.
    cbn [bind] in *. apply (ownall_ok ns IH L b0 a b i1 m0 E); auto.
    intros t c Hc. apply (shape_mono i i1); [eapply push_ext; eauto|]. auto.
Qed.

Definition runs_out (c : nest) : Prop := forall L p a b i m0, nv_add A L (NV (a ++ flat c ++ b) i) c = Ok m0 -> shape i L p c (length a) ->
  length (a ++ flat c ++ b) <= cap < length (a ++ flat c ++ b) + length (flat c) ->
  nv_add_own A moved cap cst L (NV (a ++ flat c ++ b) i) p = UB.
Lemma ownall_out ns : Forall runs_out ns -> forall L q a b i m0, addall L (NV (a ++ flats ns ++ b) i) ns = Ok m0 ->
  (forall t c, nth_error ns t = Some c -> shape i L (q + t) c (length a + length (flats (firstn t ns)))) ->
  length (a ++ flats ns ++ b) <= cap < length (a ++ flats ns ++ b) + length (flats ns) ->
  ownall L (length ns) q (NV (a ++ flats ns ++ b) i) = UB.
Proof.
  induction 1 as [|c ns Hc _ IH]; intros L q a b i m0 E S C; cbn [addall ownall length] in *.
  - cbn in C. lia.
  - unfold flats in E, C |- *. cbn [map concat] in E, C |- *. fold (flats ns) in E, C |- *. rewrite <- app_assoc in E, C |- *.
    destruct (nv_add A L _ c) as [[d1 i1]| | |] eqn:E1; try discriminate. cbn [bind] in E.
    assert (S0 : shape i L q c (length a)).
    { specialize (S 0 c eq_refl). cbn in S. rewrite !Nat.add_0_r in S. exact S. }
    destruct (Nat.le_gt_cases (length (a ++ flat c ++ flats ns ++ b) + length (flat c)) cap) as [G|G].
    2:{ rewrite (Hc L q a (flats ns ++ b) i _ E1); auto. lia. }
    rewrite (own_ok c L q a (flats ns ++ b) i _ E1 S0 G).
    cbn [bind nv_index]. destruct (add_ok c L _ i _ E1) as (D1 & X1 & _). cbn [nv_data nv_index] in D1, X1. subst d1.
    replace (a ++ map mv (flat c) ++ (flats ns ++ b) ++ flat c) with ((a ++ map mv (flat c)) ++ flats ns ++ (b ++ flat c)) by (rewrite <- !app_assoc; auto).
    assert (FA : Forall adds ns) by (apply Forall_forall; intros x _; apply add_ok).
    destruct (addall_ok ns FA L _ i1 m0 E) as (_ & _ & S1).
    apply (IH L (Datatypes.S q) (a ++ map mv (flat c)) (b ++ flat c) i1 _ (S1 ((a ++ map mv (flat c)) ++ flats ns ++ b ++ flat c) ltac:(rewrite !app_length, map_length; lia))).
    + intros t x Hx. apply (shape_mono i i1 X1). specialize (S (Datatypes.S t) x Hx). rewrite Nat.add_succ_r in S. cbn [firstn] in S.
      unfold flats in S at 1. cbn [map concat] in S. rewrite app_length in S. rewrite app_length, map_length, <- Nat.add_assoc. exact S.
    + rewrite !app_length, !map_length in *. lia.
Qed.
Lemma own_out c : runs_out c.
Proof.
  induction c as [xs|ns IH] using (nest_rec' A); intros L p a b i m0 E S C; destruct L as [|L]; try discriminate.
  - cbn [nv_add nv_index nv_data NvSpec.flat] in *. destruct (push_at i 0 _) as [i1| | |] eqn:P; try discriminate.
    destruct S as (s & H0 & H1 & H2). cbn [nv_add_own nv_index nv_data]. rewrite (idx_some _ _ _ H0). cbn [bind].
    rewrite (idx_some _ _ _ H1), (idx_some _ _ _ H2). cbn [bind]. destruct (Nat.leb_spec (length a) (length a + length xs)); [|lia].
    replace (length a + length xs - length a) with (length xs) by lia. rewrite P. cbn [bind].
    destruct (Nat.leb_spec (length (a ++ xs ++ b) + length xs) cap); [lia|reflexivity].
  - destruct S as (s & b0 & H0 & H1 & H2 & H3). rewrite nv_add_node in E. rewrite nv_own_node. cbn [nv_index nv_data] in *.
    rewrite (idx_some _ _ _ H0). cbn [bind]. rewrite (idx_some _ _ _ H1), (idx_some _ _ _ H2). cbn [bind].
    destruct (Nat.leb_spec b0 (b0 + length ns)); [|lia]. replace (b0 + length ns - b0) with (length ns) by lia.
    destruct (idx i L) as [low| | |]; try discriminate. cbn [bind] in *. destruct (push_at i (Datatypes.S L) _) as [i1| | |] eqn:P; try discriminate.
    cbn [bind] in *. apply (ownall_out ns IH L b0 a b i1 m0 E); auto.
    intros t c Hc. apply (shape_mono i i1); [eapply push_ext; eauto|]. auto.
Qed.

Lemma flats_app a b : flats (a ++ b) = flats a ++ flats b.
Proof. unfold flats. rewrite map_app, concat_app. auto. Qed.
Lemma flats_leaves l : Forall (depth A 1) l -> concat (map (elems A) l) = flats l.
Proof. unfold flats. induction 1 as [|c l H _ IH]; cbn; auto. apply (depth_leaf A 0) in H as (xs & ->). cbn. rewrite IH. auto. Qed.
Lemma flats_kids d l : Forall (depth A (S (S d))) l -> flats (concat (map (kids A) l)) = flats l.
Proof.
  induction 1 as [|c l H _ IH]; auto. apply depth_node in H as (ns & -> & _). cbn [map concat]. rewrite flats_app, IH. reflexivity.
Qed.
Lemma down_flat d : forall l, Forall (depth A (S d)) l -> concat (map (elems A) (down A d l)) = flats l.
Proof.
  induction d as [|d IH]; intros l F; cbn [down]; [apply flats_leaves; auto|]. rewrite IH, (flats_kids d); auto.
  apply (down_depth A 1 d l). auto.
Qed.
Lemma shape_ok m n lv : Rep A m n lv -> cons A (n - 1) lv -> forall L p c, L < n -> nth_error (lv L) p = Some c ->
  shape (nv_index m) L p c (length (flats (firstn p (lv L)))).
Proof.
  intros (_ & _ & HI & HF) HC.
  assert (FF : forall j p, j < n -> Forall (depth A (S j)) (firstn p (lv j))).
  { intros j p Hj. pose proof (HF j Hj) as F. rewrite <- (firstn_skipn p (lv j)) in F. apply Forall_app in F. tauto. }
  induction L as [|L IH]; intros p c HL Hp; destruct (idx_cum A lv _ p c Hp) as (I1 & I2); apply idx_inv in I1, I2;
    pose proof (proj1 (Forall_forall _ _) (HF _ HL) c (nth_error_In _ _ Hp)) as Hc.
  - apply (depth_leaf A 0) in Hc as (xs & ->). cbn [shape]. exists (cum 0 (map (width A) (lv 0))). rewrite HI by auto. split; auto.
    rewrite <- flats_leaves, <- widths_elems by auto. auto.
  - apply depth_node in Hc as (ns & -> & Hn). cbn [shape]. eexists. eexists. split; [apply HI; auto|]. split; [exact I1|]. split; [exact I2|].
    intros t c Ht. assert (K : nth_error (lv L) (sum (map (width A) (firstn p (lv (S L)))) + t) = Some c).
    { rewrite HC by lia. eapply kid_at; eauto. }
    specialize (IH _ c ltac:(lia) K). replace (length (flats _) + length (flats (firstn t ns)))
      with (length (flats (firstn (sum (map (width A) (firstn p (lv (S L)))) + t) (lv L)))); [exact IH|].
    rewrite (HC L) by lia. rewrite (widths_kids A L) by auto. rewrite <- app_length, <- (flats_kids L (firstn p (lv (S L)))) by auto. rewrite <- flats_app. do 2 f_equal.
    destruct (nth_error_split _ _ Hp) as (u & v & Q & Lu). rewrite Q. rewrite <- Lu, firstn_mid, map_app, concat_app, firstn_app_2. f_equal.
    cbn [map concat kids]. rewrite firstn_app. assert (t < length ns) by (apply nth_error_Some; congruence).
    replace (t - length ns) with 0 by lia. rewrite firstn_O, app_nil_r. auto.
Qed.
Lemma each_flat f c : flat (each A f c) = map f (flat c).
Proof.
  induction c as [xs|ns IH] using (nest_rec' A); cbn; auto. rewrite map_map, concat_map, map_map. f_equal. apply map_ext_in.
  rewrite Forall_forall in IH. auto.
Qed.
Lemma each_width f c : width A (each A f c) = width A c.
Proof. destruct c; cbn; apply map_length. Qed.
Lemma each_depth f c : forall n, depth A n c -> depth A n (each A f c).
Proof.
  induction c as [xs|ns IH] using (nest_rec' A); intros n H; cbn [each].
  - destruct n as [|[|n]]; auto.
  - destruct n as [|[|n]]; try contradiction. apply depth_node in H as (ns' & [= <-] & F). apply depth_node. eexists. split; [reflexivity|].
    rewrite Forall_forall in *. intros x Hx. apply in_map_iff in Hx as (y & <- & Hy). auto.
Qed.
Lemma each_down f d : forall l, down A d (map (each A f) l) = map (each A f) (down A d l).
Proof.
  induction d as [|d IH]; intros l; cbn [down]; auto. rewrite <- IH. f_equal. rewrite concat_map, !map_map. f_equal. apply map_ext.
  intros [xs|ns]; reflexivity.
Qed.
Lemma each_id c : each A (fun x => x) c = c.
Proof.
  induction c as [xs|ns IH] using (nest_rec' A); cbn [each]; f_equal; [apply map_id|]. induction IH as [|c ns H _ IHn]; cbn; congruence.
Qed.

Theorem emplace_own_ok n m l k c : 0 < n -> NI A n m l -> nth_error l k = Some c -> length (nv_data m) + length (flat c) <= cap ->
  exists m', nv_emplace_own A moved cap cst n m k = Ok m' /\ NI A n m' (upd k (each A mv c) l ++ [c]).
Proof.
  intros Hn (R & F) Hk Hc. destruct R as [(-> & _)|(R & C)]; [destruct k; discriminate|]. destruct n as [|d]; [lia|].
  cbn [Nat.sub] in *. rewrite Nat.sub_0_r in *. pose proof R as (HL & HD & HI & HF). rewrite Nat.sub_0_r, down_flat in HD by auto.
  destruct (nth_error_split _ _ Hk) as (u & v & Q & Lu).
  assert (Fc : depth A (S d) c) by (rewrite Forall_forall in F; eapply F, nth_error_In; eauto).
  assert (D : nv_data m = flats u ++ flat c ++ flats v).
  { rewrite HD, Q, flats_app. reflexivity. }
  set (l1 := upd k (each A mv c) l). assert (Q1 : l1 = u ++ each A mv c :: v) by (unfold l1; rewrite Q, <- Lu; apply upd_mid).
  assert (F1 : Forall (depth A (S d)) l1) by (apply upd_Forall; auto; apply each_depth; auto).
  set (d1 := flats u ++ map mv (flat c) ++ flats v).
  assert (R1 : NR A (S d) (NV d1 (nv_index m)) l1).
  { right. cbn [Nat.sub]. rewrite Nat.sub_0_r. split.
    - split; [exact HL|]. split; [|split].
      + rewrite Nat.sub_0_r, down_flat, Q1, flats_app by auto. change (flats (each A mv c :: v)) with (flat (each A mv c) ++ flats v). rewrite each_flat. reflexivity.
      + intros j Hj. cbn [nv_index]. rewrite HI by auto. do 2 f_equal. rewrite Q1, Q. change (each A mv c :: v) with (map (each A mv) [c] ++ v).
        change (c :: v) with ([c] ++ v). rewrite !down_app, !map_app. f_equal. f_equal. rewrite each_down, map_map. apply map_ext. intros x. rewrite each_width. auto.
      + intros j Hj. apply down_depth. replace (d - j + j) with d by lia. exact F1.
    - intros j Hj. replace (d - j) with (S (d - S j)) by lia. apply down_S. }
  destruct (nv_emplace_ok A (S d) _ l1 c Hn Fc R1) as (m' & E & R'). unfold nv_emplace_back in E. cbn [nv_index nv_data] in E.
  rewrite (idx_some _ _ _ (HI 0 ltac:(lia))) in E. cbn [bind] in E. rewrite cum_length in E.
  replace (length _ + 1 =? 0) with false in E by (symmetry; apply Nat.eqb_neq; lia). cbn [Nat.sub] in E. rewrite Nat.sub_0_r in E.
  destruct (add_ok c d _ _ m' E) as (D' & _ & S1). specialize (S1 (nv_data m)). rewrite D in S1.
  specialize (S1 ltac:(unfold d1; rewrite !app_length, map_length; lia)).
  exists m'. split; [|split; [exact R'|apply Forall_app; auto]].
  unfold nv_emplace_own. cbn [Nat.sub]. rewrite Nat.sub_0_r. destruct m as [dm im]. cbn [nv_data nv_index] in *. subst dm. rewrite D in *.
  rewrite (own_ok c d k (flats u) (flats v) im _ S1).
  - cbn [nv_index]. destruct m' as [dm' im']. cbn [nv_data nv_index] in *. subst dm'. unfold d1. rewrite <- !app_assoc. reflexivity.
  - assert (C' : cons A (S d - 1) (fun j => down A (d - j) l)) by (cbn [Nat.sub]; rewrite Nat.sub_0_r; exact C).
    pose proof (shape_ok _ _ _ R C' d k c ltac:(lia)) as G. cbv beta in G. rewrite Nat.sub_diag in G. specialize (G Hk). cbn [nv_index down] in G.
    rewrite Q, <- Lu, firstn_mid in G. rewrite Lu in G. exact G.
  - exact Hc.
Qed.
Theorem emplace_own_out n m l k c : 0 < n -> NI A n m l -> nth_error l k = Some c ->
  length (nv_data m) <= cap < length (nv_data m) + length (flat c) -> nv_emplace_own A moved cap cst n m k = UB.
Proof.
  intros Hn (R & F) Hk Hc. pose proof R as R0. destruct R as [(-> & _)|(R & C)]; [destruct k; discriminate|]. destruct n as [|d]; [lia|].
  cbn [Nat.sub] in *. rewrite Nat.sub_0_r in *. pose proof R as (HL & HD & HI & HF). rewrite Nat.sub_0_r, down_flat in HD by auto.
  destruct (nth_error_split _ _ Hk) as (u & v & Q & Lu).
  assert (Fc : depth A (S d) c) by (rewrite Forall_forall in F; eapply F, nth_error_In; eauto).
  assert (D : nv_data m = flats u ++ flat c ++ flats v).
  { rewrite HD, Q, flats_app. reflexivity. }
  destruct (nv_emplace_ok A (S d) _ l c Hn Fc R0) as (m' & E & _). unfold nv_emplace_back in E.
  rewrite (idx_some _ _ _ (HI 0 ltac:(lia))) in E. cbn [bind] in E. rewrite cum_length in E.
  replace (length _ + 1 =? 0) with false in E by (symmetry; apply Nat.eqb_neq; lia). cbn [Nat.sub] in E. rewrite Nat.sub_0_r in E.
  unfold nv_emplace_own. cbn [Nat.sub]. rewrite Nat.sub_0_r. destruct m as [dm im]. cbn [nv_data nv_index] in *. subst dm. rewrite D in *.
  apply (own_out c d k (flats u) (flats v) im _ E).
  - assert (C' : cons A (S d - 1) (fun j => down A (d - j) l)) by (cbn [Nat.sub]; rewrite Nat.sub_0_r; exact C).
    pose proof (shape_ok _ _ _ R C' d k c ltac:(lia)) as G. cbv beta in G. rewrite Nat.sub_diag in G. specialize (G Hk). cbn [nv_index down] in G.
    rewrite Q, <- Lu, firstn_mid in G. rewrite Lu in G. exact G.
  - exact Hc.
Qed.
End Own.
