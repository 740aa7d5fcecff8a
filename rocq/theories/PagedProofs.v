From Coq Require Import Permutation.
From Verif Require Import Base ArithModel ArithSpec ArithProofs FlatModel FlatSpec FlatProofs MmModel MmSpec MmProofs PagedModel PagedSpec.

Lemma cov_spec p x : cov p x = 1 /\ ib x <= p < ib x + ic x \/ cov p x = 0 /\ ~ (ib x <= p < ib x + ic x).
Proof. unfold cov. destruct (Nat.leb_spec (ib x) p), (Nat.ltb_spec p (ib x + ic x)); cbn [andb]; [left|right..]; lia. Qed.
Lemma cnt_app p a b : cnt p (a ++ b) = cnt p a + cnt p b.
Proof. induction a; cbn; auto. lia. Qed.
Lemma cnt_out p (l : list ix) n : (forall x, In x l -> ib x + ic x <= n) -> n <= p -> cnt p l = 0.
Proof.
  intros H Hp. induction l as [|x l IH]; auto. cbn. rewrite IH by (intros y Hy; apply H; right; auto).
  specialize (H x (or_introl eq_refl)). destruct (cov_spec p x) as [(_ & Q)|(-> & _)]; lia.
Qed.
Lemma cnt_concat_upd p (f : list (list ix)) : forall o v w, nth_error f o = Some v -> cnt p (concat (upd o w f)) + cnt p v = cnt p (concat f) + cnt p w.
Proof.
  induction f as [|z l IH]; intros [|k] x y H; cbn in *; try discriminate; rewrite !cnt_app.
  - injection H as ->. lia.
  - specialize (IH k x y H). lia.
Qed.
Lemma nth_error_upd' {B} (l : list B) p v q : p < length l -> nth_error (upd p v l) q = if p =? q then Some v else nth_error l q.
Proof. intros H. rewrite nth_error_upd. destruct (Nat.eqb_spec p q) as [<-|N]; cbn [andb]; auto. destruct (Nat.ltb_spec p (length l)); auto. lia. Qed.
Lemma cnt_in p (l : list ix) x : In x l -> cov p x <= cnt p l.
Proof. induction l as [|y l IH]; intros []; cbn [cnt]; [subst; lia|]. specialize (IH H). lia. Qed.
Lemma cnt_perm p (l l' : list ix) : Permutation l l' -> cnt p l = cnt p l'.
Proof. induction 1; cbn [cnt]; lia. Qed.
Lemma ctz_pow2 (w : nat) (o : nat) : o < w -> w = 16 \/ w = 32 -> constexpr_trailing_zeros w (2 ^ N.of_nat o) = N.of_nat o.
Proof.
  intros H [->| ->].
  - assert (Q : In o [0;1;2;3;4;5;6;7;8;9;10;11;12;13;14;15]) by (cbn; lia).
    cbn in Q; repeat (destruct Q as [<-|Q]; [vm_compute; reflexivity|]); destruct Q.
  - assert (Q : In o [0;1;2;3;4;5;6;7;8;9;10;11;12;13;14;15;16;17;18;19;20;21;22;23;24;25;26;27;28;29;30;31]) by (cbn; lia).
    cbn in Q; repeat (destruct Q as [<-|Q]; [vm_compute; reflexivity|]); destruct Q.
Qed.

Lemma one_le_pow n : 1 <= 2 ^ n.
Proof. pose proof (Nat.pow_nonzero 2 n). lia. Qed.

Section P.
Variable A : Type.
Variable dflt : A.
Variable lmin lw : nat.
Hypothesis lmin_ok : 1 <= lmin <= 15.
Hypothesis lw_ok : 1 <= lw <= 2 ^ lmin.
Notation fls := (free_list_size lmin).

Definition okcap (c : nat) : Prop := c = 0 \/ exists o, o < fls /\ c = 2 ^ (lmin + o).
Definition okpg (d : list (cell A)) (e : ix * list A) : Prop :=
  isz (fst e) = length (snd e) /\ isz (fst e) <= ic (fst e) /\ okcap (ic (fst e)) /\ ib (fst e) + ic (fst e) <= length d /\
  forall i v, nth_error (snd e) i = Some v -> nth_error d (ib (fst e) + i) = Some (Val v).
Fixpoint chain (d : list (cell A)) (n : option nat) (l : list ix) : Prop :=
  match l with
  | [] => n = None
  | x :: l => n = Some (ib x) /\ exists n', nth_error d (ib x) = Some (Link n') /\ chain d n' l
  end.
Record own (g : pg A) (F : list (list ix)) (L : list (ix * list A)) : Prop := {
  own_nodes : length (pg_nodes g) = fls;
  own_free : length F = fls;
  own_pg : forall e, In e L -> okpg (pg_data g) e;
  own_chain : forall o v, nth_error F o = Some v -> exists n, nth_error (pg_nodes g) o = Some n /\ chain (pg_data g) n v;
  own_block : forall o v x, nth_error F o = Some v -> In x v -> ic x = 2 ^ (lmin + o) /\ ib x + ic x <= length (pg_data g);
  own_cnt : forall p, cnt p (map fst L) + cnt p (concat F) <= 1
}.
Definition Own (g : pg A) (L : list (ix * list A)) : Prop := exists F, own g F L.

Lemma pow_pos o : 0 < 2 ^ o.
Proof. pose proof (Nat.pow_nonzero 2 o). lia. Qed.
Lemma chain_ext d d' v : forall n, (forall x, In x v -> nth_error d' (ib x) = nth_error d (ib x)) -> chain d n v -> chain d' n v.
Proof.
  induction v as [|x v IH]; intros n H; cbn [chain]; auto. intros (E & n' & E2 & C). split; auto. exists n'. split.
  - rewrite H; [auto|left; auto].
  - apply IH; auto. intros y Hy. apply H. right; auto.
Qed.
Lemma Own_perm g L L' : Permutation L L' -> Own g L -> Own g L'.
Proof.
  intros P (F & [H1 H2 H3 H4 H5 H6]). exists F. split; auto.
  - intros e He. apply H3. apply (Permutation_in _ (Permutation_sym P) He).
  - intros p. rewrite <- (cnt_perm p _ _ (Permutation_map fst P)). auto.
Qed.
Lemma free_in g F L x : own g F L -> In x (concat F) -> ib x + ic x <= length (pg_data g) /\ 0 < ic x.
Proof.
  intros O Hx. apply in_concat in Hx as (v & Hv & Hx). apply In_nth_error in Hv as (o & Ho).
  destruct (own_block _ _ _ O o v x Ho Hx) as (E & ?). split; auto. rewrite E. apply pow_pos.
Qed.
Lemma in_list {B} (F : list (list B)) o v (x : B) : nth_error F o = Some v -> In x v -> In x (concat F).
Proof. intros Ho Hx. apply in_concat. exists v. split; auto. apply (nth_error_In _ _ Ho). Qed.

(* writing inside a page that is owned *)
Lemma own_write d ns F L x b x' b' d' : own (PG d ns) F ((x, b) :: L) -> length d' = length d ->
  (forall p, ~ (ib x <= p < ib x + ic x) -> nth_error d' p = nth_error d p) ->
  ib x' = ib x -> ic x' = ic x -> okpg d' (x', b') -> own (PG d' ns) F ((x', b') :: L).
Proof.
  intros O Hd Hout Eb Ec Hp. pose proof (own_cnt _ _ _ O) as C. cbn [map fst cnt] in C.
  split; cbn [pg_data pg_nodes].
  - apply (own_nodes _ _ _ O).
  - apply (own_free _ _ _ O).
  - intros e [<-|He]; auto. destruct (own_pg _ _ _ O e (or_intror He)) as (Q1 & Q2 & Q3 & Q4 & Q5). cbn [pg_data] in *.
    split; [auto|]. split; [auto|]. split; [auto|]. split; [lia|]. intros i v Hi. rewrite Hout; auto. intros Hin.
    assert (i < length (snd e)) by (apply nth_error_Some; congruence).
    specialize (C (ib (fst e) + i)). pose proof (cnt_in (ib (fst e) + i) (map fst L) (fst e) (in_map fst L e He)) as G.
    destruct (cov_spec (ib (fst e) + i) x) as [(E1 & _)|(_ & E1)]; [|lia].
    destruct (cov_spec (ib (fst e) + i) (fst e)) as [(E2 & _)|(_ & E2)]; lia.
  - intros o v Ho. destruct (own_chain _ _ _ O o v Ho) as (n & En & Hc). exists n. split; auto.
    apply (chain_ext d); auto. intros y Hy. apply Hout. intros Hin.
    destruct (free_in _ _ _ y O (in_list F o v y Ho Hy)) as (_ & Z).
    specialize (C (ib y)). pose proof (cnt_in (ib y) (concat F) y (in_list F o v y Ho Hy)) as G.
    destruct (cov_spec (ib y) x) as [(E1 & _)|(_ & E1)]; [|lia].
    destruct (cov_spec (ib y) y) as [(E2 & _)|(_ & E2)]; lia.
  - intros o v y Ho Hy. rewrite Hd. apply (own_block _ _ _ O o v y Ho Hy).
  - intros p. cbn [map fst cnt]. specialize (C p). replace (cov p x') with (cov p x) by (unfold cov; rewrite Eb, Ec; auto). lia.
Qed.

(* indices *)
Lemma fls_le : fls <= 15.
Proof. unfold free_list_size. lia. Qed.
Lemma index_pow2 o : o < fls -> free_list_index lmin (N.of_nat (2 ^ (lmin + o))) = N.of_nat o.
Proof.
  intros H. unfold free_list_size in H. unfold free_list_index. rewrite pow2_of_nat, !ctz_pow2 by lia. unfold wrap32.
  replace (N.of_nat (lmin + o) + W32 - N.of_nat lmin)%N with (N.of_nat o + 1 * W32)%N by lia.
  rewrite N.mod_add by (unfold W32; lia). apply N.mod_small. unfold W32. lia.
Qed.
Lemma capacity_ok n : (N.of_nat n < 65536)%N ->
  (pfits n = true -> exists o, o < fls /\ page_capacity lmin (N.of_nat n) = N.of_nat (2 ^ (lmin + o)) /\ n <= 2 ^ (lmin + o)) /\
  (pfits n = false -> (free_list_index lmin (page_capacity lmin (N.of_nat n)) <? N.of_nat fls)%N = false).
Proof.
  intros H. unfold page_capacity, pfits, page_max.
  assert (Hw : npo2_width 16) by (unfold npo2_width; auto).
  assert (HM : (2 ^ N.of_nat lmin <= 2 ^ 15)%N) by (apply N.pow_le_mono_r; lia).
  change (2 ^ 15)%N with 32768%N in HM. assert (HP : (0 < 2 ^ N.of_nat lmin)%N) by (pose proof (N.pow_nonzero 2 (N.of_nat lmin)); lia).
  split; intros Q.
  - apply N.leb_le in Q.
    destruct (next_power_of_two_spec 16 (N.max (2 ^ N.of_nat lmin) (N.of_nat n)) Hw) as ((k & Hk) & Hge & Hmin).
    { split; [lia|]. change (2 ^ (16 - 1))%N with 32768%N. lia. }
    assert (K1 : (N.of_nat lmin <= k)%N).
    { rewrite Hk in Hge. apply (N.pow_le_mono_r_iff 2); lia. }
    assert (K2 : (k <= 15)%N).
    { assert (Z : (next_power_of_two 16 (N.max (2 ^ N.of_nat lmin) (N.of_nat n)) <= 2 ^ 15)%N).
      { apply Hmin; [eexists; reflexivity|]. change (2 ^ 15)%N with 32768%N. lia. }
      rewrite Hk in Z. apply N.pow_le_mono_r_iff in Z; lia. }
    exists (N.to_nat k - lmin). unfold free_list_size. split; [lia|].
    replace (lmin + (N.to_nat k - lmin)) with (N.to_nat k) by lia. rewrite pow2_of_nat, N2Nat.id. split; auto.
    rewrite Hk in Hge. rewrite <- (N2Nat.id k), <- pow2_of_nat in Hge. lia.
  - apply N.leb_gt in Q.
    assert (Z : next_power_of_two 16 (N.max (2 ^ N.of_nat lmin) (N.of_nat n)) = 0%N).
    { apply next_power_of_two_wraps; auto. left. change (2 ^ (16 - 1))%N with 32768%N. change (2 ^ 16)%N with 65536%N. lia. }
    rewrite Z. apply N.ltb_ge. unfold free_list_index. rewrite ctz_pow2 by lia.
    change (constexpr_trailing_zeros 32 0) with 0%N. pose proof fls_le. unfold wrap32. rewrite N.mod_small; unfold W32; lia.
Qed.

Lemma own_create g L n : Own g L -> (N.of_nat n < 65536)%N ->
  (pfits n = true -> exists g' y, pg_create A dflt lmin g n = Ok (g', y) /\ isz y = n /\ n <= ic y /\ okcap (ic y) /\
     Own g' ((Ix (ib y) 0 (ic y), []) :: L)) /\
  (pfits n = false -> pg_create A dflt lmin g n = Throw).
Proof.
  intros (F & O) HN. destruct (capacity_ok n HN) as (K1 & K2). unfold pg_create. split; intros Q.
  2: { rewrite (K2 Q). reflexivity. }
  destruct (K1 Q) as (o & Ho & -> & Hn). clear K1 K2. rewrite index_pow2 by auto.
  destruct (N.ltb_spec (N.of_nat o) (N.of_nat fls)); [|lia]. cbn [verify bind]. rewrite !Nat2N.id.
  destruct (nth_error F o) as [v|] eqn:Ev. 2: { apply nth_error_None in Ev. rewrite (own_free _ _ _ O) in Ev. lia. }
  destruct (own_chain _ _ _ O o v Ev) as (h & Hh & Hc). rewrite (idx_some _ _ _ Hh). cbn [bind].
  assert (OC : okcap (2 ^ (lmin + o))) by (right; eauto).
  destruct v as [|z v]; cbn [chain] in Hc.
  - subst h. eexists. eexists. split; [reflexivity|]. cbn [isz ic ib]. split; [auto|]. split; [auto|]. split; [auto|].
    exists F. assert (LEN : length (pg_data g ++ repeat (Val dflt) (2 ^ (lmin + o))) = length (pg_data g) + 2 ^ (lmin + o))
      by (rewrite app_length, repeat_length; auto).
    split; cbn [pg_data pg_nodes].
    + apply (own_nodes _ _ _ O).
    + apply (own_free _ _ _ O).
    + intros e [<-|He].
      * split; [auto|]. split; [cbn; lia|]. split; [auto|]. split; [cbn [fst ib ic]; lia|]. intros [|i] u Hi; discriminate.
      * destruct (own_pg _ _ _ O e He) as (Q1 & Q2 & Q3 & Q4 & Q5).
        split; [auto|]. split; [auto|]. split; [auto|]. split; [lia|]. intros i u Hi. specialize (Q5 i u Hi).
        rewrite nth_error_app1; auto. apply nth_error_Some. congruence.
    + intros o' w Hw. destruct (own_chain _ _ _ O o' w Hw) as (h & E & C). exists h. split; auto. apply (chain_ext (pg_data g)); auto.
      intros y Hy. apply nth_error_app1. destruct (free_in _ _ _ y O (in_list F o' w y Hw Hy)). lia.
    + intros o' w y Hw Hy. destruct (own_block _ _ _ O o' w y Hw Hy). split; auto. lia.
    + intros p. cbn [map fst cnt]. pose proof (own_cnt _ _ _ O p) as C.
      destruct (cov_spec p (Ix (length (pg_data g)) 0 (2 ^ (lmin + o)))) as [(E & Z)|(E & Z)]; [|lia]. cbn [ib ic] in Z.
      rewrite (cnt_out p (map fst L) (length (pg_data g))), (cnt_out p (concat F) (length (pg_data g))); try lia.
      * intros y Hy. apply (free_in _ _ _ y O Hy).
      * intros y Hy. apply in_map_iff in Hy as (e & <- & He). apply (own_pg _ _ _ O e He).
  - destruct Hc as (-> & n' & En & Hc). unfold pg_pop. rewrite (idx_some _ _ _ En). cbn [bind].
    destruct (own_block _ _ _ O o _ z Ev (or_introl eq_refl)) as (B1 & B2).
    eexists. eexists. split; [reflexivity|]. cbn [isz ic ib]. split; [auto|]. split; [auto|]. split; [auto|].
    exists (upd o v F). split; cbn [pg_data pg_nodes].
    + rewrite upd_length. apply (own_nodes _ _ _ O).
    + rewrite upd_length. apply (own_free _ _ _ O).
    + intros e [<-|He]; [|apply (own_pg _ _ _ O e He)].
      split; [auto|]. split; [cbn; lia|]. split; [auto|]. split; [cbn [fst ib ic]; lia|]. intros [|i] u Hi; discriminate.
    + intros o' w Hw. rewrite nth_error_upd' in Hw by (rewrite (own_free _ _ _ O); auto).
      rewrite nth_error_upd' by (rewrite (own_nodes _ _ _ O); auto). destruct (Nat.eqb_spec o o') as [<-|Hne].
      * injection Hw as <-. exists n'. auto.
      * apply (own_chain _ _ _ O o' w Hw).
    + intros o' w y Hw Hy. rewrite nth_error_upd' in Hw by (rewrite (own_free _ _ _ O); auto).
      destruct (Nat.eqb_spec o o') as [<-|Hne].
      * injection Hw as <-. apply (own_block _ _ _ O o _ y Ev). right; auto.
      * apply (own_block _ _ _ O o' w y Hw Hy).
    + intros p. cbn [map fst cnt]. pose proof (own_cnt _ _ _ O p) as C.
      pose proof (cnt_concat_upd p F o (z :: v) v Ev) as U. cbn [cnt] in U.
      replace (cov p (Ix (ib z) 0 (2 ^ (lmin + o)))) with (cov p z) by (unfold cov; cbn [ib ic]; rewrite B1; auto). lia.
Qed.

Lemma own_drop g e L : Own g (e :: L) -> Own g L.
Proof.
  intros (F & [H1 H2 H3 H4 H5 H6]). exists F. split; auto.
  - intros e' He. apply H3. right; auto.
  - intros p. specialize (H6 p). cbn [map cnt] in H6. lia.
Qed.
Lemma junk_ok n : forall d p, p + n <= length d -> exists d', junk A d p n = Ok d' /\ length d' = length d /\
  forall q, ~ (p <= q < p + n) -> nth_error d' q = nth_error d q.
Proof.
  induction n as [|n IH]; intros d p H; cbn [junk].
  - exists d. auto.
  - rewrite put_ok by lia. cbn [bind]. destruct (IH (upd p Junk d) (S p)) as (d' & -> & L & Q); [rewrite upd_length; lia|].
    exists d'. rewrite upd_length in L. split; auto. split; auto. intros q Hq. rewrite Q by lia.
    rewrite nth_error_upd' by lia. destruct (Nat.eqb_spec p q); auto. lia.
Qed.
Lemma own_release g x b L : Own g ((x, b) :: L) -> exists g', pg_free A lmin lw g x = Ok g' /\ Own g' L.
Proof.
  intros (F & O). unfold pg_free. destruct (Nat.eqb_spec (ic x) 0) as [E|E].
  { exists g. split; auto. apply (own_drop g (x, b)). exists F; auto. }
  destruct (own_pg _ _ _ O _ (or_introl eq_refl)) as (Q1 & Q2 & [Q3|(o & Ho & Q3)] & Q4 & Q5); cbn [fst snd] in *; [lia|].
  rewrite Q3, index_pow2 by auto. destruct (N.ltb_spec (N.of_nat o) (N.of_nat fls)); [|lia]. cbn [verify bind]. rewrite Nat2N.id.
  destruct (nth_error F o) as [v|] eqn:Ev. 2: { apply nth_error_None in Ev. rewrite (own_free _ _ _ O) in Ev. lia. }
  destruct (own_chain _ _ _ O o v Ev) as (h & Hh & Hc). unfold pg_push. rewrite (idx_some _ _ _ Hh). cbn [bind].
  assert (LW : lw <= ic x). { rewrite Q3. assert (2 ^ lmin <= 2 ^ (lmin + o)) by (apply Nat.pow_le_mono_r; lia). lia. }
  destruct (junk_ok lw (pg_data g) (ib x)) as (d1 & -> & L1 & N1); [lia|]. cbn [bind]. rewrite put_ok by lia. cbn [bind].
  eexists. split; [reflexivity|].
  set (d := upd (ib x) (Link h) d1).
  assert (LEN : length d = length (pg_data g)) by (unfold d; rewrite upd_length; auto).
  assert (OUT : forall p, ~ (ib x <= p < ib x + ic x) -> nth_error d p = nth_error (pg_data g) p).
  { intros p Hp. unfold d. rewrite nth_error_upd' by lia. destruct (Nat.eqb_spec (ib x) p); [lia|]. apply N1. lia. }
  assert (HD : nth_error d (ib x) = Some (Link h)).
  { unfold d. rewrite nth_error_upd' by lia. rewrite Nat.eqb_refl. auto. }
  pose proof (own_cnt _ _ _ O) as C. cbn [map fst cnt] in C.
  assert (FO : forall y, In y (concat F) -> nth_error d (ib y) = nth_error (pg_data g) (ib y)).
  { intros y Hy. apply OUT. intros Hin. destruct (free_in _ _ _ y O Hy) as (_ & Z). specialize (C (ib y)).
    pose proof (cnt_in (ib y) (concat F) y Hy) as G.
    destruct (cov_spec (ib y) x) as [(E1 & _)|(_ & E1)]; [|lia]. destruct (cov_spec (ib y) y) as [(E2 & _)|(_ & E2)]; lia. }
  exists (upd o (x :: v) F). split; cbn [pg_data pg_nodes].
  - rewrite upd_length. apply (own_nodes _ _ _ O).
  - rewrite upd_length. apply (own_free _ _ _ O).
  - intros e He. destruct (own_pg _ _ _ O e (or_intror He)) as (R1 & R2 & R3 & R4 & R5).
    split; [auto|]. split; [auto|]. split; [auto|]. split; [lia|]. intros i u Hi. rewrite OUT; auto. intros Hin.
    assert (i < length (snd e)) by (apply nth_error_Some; congruence).
    specialize (C (ib (fst e) + i)). pose proof (cnt_in (ib (fst e) + i) (map fst L) (fst e) (in_map fst L e He)) as G.
    destruct (cov_spec (ib (fst e) + i) x) as [(E1 & _)|(_ & E1)]; [|lia].
    destruct (cov_spec (ib (fst e) + i) (fst e)) as [(E2 & _)|(_ & E2)]; lia.
  - intros o' w Hw. rewrite nth_error_upd' in Hw by (rewrite (own_free _ _ _ O); auto).
    rewrite nth_error_upd' by (rewrite (own_nodes _ _ _ O); auto). destruct (Nat.eqb_spec o o') as [<-|Hne].
    + injection Hw as <-. eexists. split; [reflexivity|]. cbn [chain]. split; auto. exists h. split; auto.
      apply (chain_ext (pg_data g)); auto. intros y Hy. apply FO. apply (in_list F o v y Ev Hy).
    + destruct (own_chain _ _ _ O o' w Hw) as (h' & E1 & C1). exists h'. split; auto. apply (chain_ext (pg_data g)); auto.
      intros y Hy. apply FO. apply (in_list F o' w y Hw Hy).
  - intros o' w y Hw Hy. fold d. rewrite LEN. rewrite nth_error_upd' in Hw by (rewrite (own_free _ _ _ O); auto).
    destruct (Nat.eqb_spec o o') as [<-|Hne].
    + injection Hw as <-. destruct Hy as [<-|Hy]; [split; auto|]. apply (own_block _ _ _ O o _ y Ev Hy).
    + apply (own_block _ _ _ O o' w y Hw Hy).
  - intros p. specialize (C p). pose proof (cnt_concat_upd p F o v (x :: v) Ev) as U. cbn [cnt] in U. lia.
Qed.

Lemma own_ok g e L : Own g (e :: L) -> okpg (pg_data g) e.
Proof. intros (F & O). apply (own_pg _ _ _ O). left; auto. Qed.
Lemma Own_write g x b L x' b' d' : Own g ((x, b) :: L) -> length d' = length (pg_data g) ->
  (forall p, ~ (ib x <= p < ib x + ic x) -> nth_error d' p = nth_error (pg_data g) p) ->
  ib x' = ib x -> ic x' = ic x -> isz x' = length b' -> isz x' <= ic x ->
  (forall i v, nth_error b' i = Some v -> nth_error d' (ib x + i) = Some (Val v)) -> Own (PG d' (pg_nodes g)) ((x', b') :: L).
Proof.
  intros H Ld Hout Eb Ec Es Hs Hv. pose proof (own_ok _ _ _ H) as (Q1 & Q2 & Q3 & Q4 & Q5). cbn [fst snd] in *.
  destruct g as [d ns]. destruct H as (F & O). exists F. cbn [pg_data pg_nodes] in *. apply (own_write d ns F L x b); auto.
  split; [auto|]. cbn [fst snd]. split; [lia|]. split; [rewrite Ec; auto|]. split; [lia|]. rewrite Eb. auto.
Qed.
Lemma own_disjoint g x b y c L p : Own g ((x, b) :: (y, c) :: L) -> ~ (ib x <= p < ib x + ic x /\ ib y <= p < ib y + ic y).
Proof.
  intros (F & O) (H1 & H2). pose proof (own_cnt _ _ _ O p) as C. cbn [map fst cnt] in C.
  destruct (cov_spec p x) as [(E1 & _)|(_ & E1)]; [|lia]. destruct (cov_spec p y) as [(E2 & _)|(_ & E2)]; lia.
Qed.

(* resize_page to one more element: the old contents are kept, the new cell is anything *)
Lemma own_resize g x b L n : Own g ((x, b) :: L) -> length b <= n -> (N.of_nat n < 65536)%N ->
  (pfits n = true -> exists g' y, pg_resize A dflt lmin lw g x n = Ok (g', y) /\ isz y = n /\ n <= ic y /\
     Own g' ((Ix (ib y) (length b) (ic y), b) :: L)) /\
  (pfits n = false -> pg_resize A dflt lmin lw g x n = Throw).
Proof.
  intros H Hn HN. pose proof (own_ok _ _ _ H) as (Q1 & Q2 & Q3 & Q4 & Q5). cbn [fst snd] in *. unfold pg_resize.
  destruct (Nat.leb_spec n (ic x)) as [L1|L1].
  { split; intros Hf.
    - eexists. eexists. split; [reflexivity|]. cbn [isz ic ib]. split; auto. split; auto. rewrite <- Q1.
      destruct x as [xb xs xc]. auto.
    - exfalso. unfold pfits, page_max in Hf. apply N.leb_gt in Hf. destruct Q3 as [Q3|(o & Ho & Q3)]; [lia|].
      unfold free_list_size in Ho. assert (2 ^ (lmin + o) <= 2 ^ 15) by (apply Nat.pow_le_mono_r; lia).
      assert (Z : (N.of_nat n <= N.of_nat (2 ^ 15))%N) by lia. rewrite pow2_of_nat in Z. cbn in Z. lia. }
  destruct (own_create g _ n H HN) as (C1 & C2). split; intros Hf; [|rewrite (C2 Hf); auto].
  destruct (C1 Hf) as (g1 & y & -> & Y1 & Y2 & Y3 & O1). cbn [bind].
  pose proof (own_ok _ _ _ O1) as (P1 & P2 & P3 & P4 & P5). cbn [fst snd ib ic isz] in *.
  pose proof (Own_perm _ _ _ (perm_swap _ _ _) O1) as O2. pose proof (own_ok _ _ _ O2) as (R1 & R2 & R3 & R4 & R5). cbn [fst snd] in *.
  rewrite bcopy_bmove.
  2: { intros Hp. destruct (le_lt_dec (ib y + isz x) (ib x)); auto. destruct (le_lt_dec (ib x + isz x) (ib y)); auto.
       exfalso. apply (own_disjoint _ _ _ _ _ _ (max (ib x) (ib y)) O2). cbn [ib ic]. lia. }
  destruct (bmove_ok (pg_data g1) (ib y) (ib x) (isz x)) as (d & -> & Ld & Hd); [lia|lia|]. cbn [bind].
  assert (O3 : Own (PG d (pg_nodes g1)) ((Ix (ib y) (length b) (ic y), b) :: (x, b) :: L)).
  { apply (Own_write g1 (Ix (ib y) 0 (ic y)) [] ((x, b) :: L)); cbn [ib ic isz]; auto; try lia.
    - intros p Hp. rewrite Hd. destruct (Nat.leb_spec (ib y) p), (Nat.ltb_spec p (ib y + isz x)); cbn [andb]; auto. lia.
    - intros i v Hi. assert (i < length b) by (apply nth_error_Some; congruence). rewrite Hd.
      destruct (Nat.leb_spec (ib y) (ib y + i)), (Nat.ltb_spec (ib y + i) (ib y + isz x)); cbn [andb]; try lia.
      rewrite <- (R5 i v Hi). f_equal. lia. }
  apply (Own_perm _ _ _ (perm_swap _ _ _)) in O3. destruct (own_release _ _ _ _ O3) as (g2 & -> & O4). cbn [bind].
  eexists. eexists. split; [reflexivity|]. auto.
Qed.

(* ---- the vector of vectors ---- *)
Definition PR (m : pv A) (l : list (list A)) : Prop := length (pv_idx m) = length l /\ Own (pv_pg m) (combine (pv_idx m) l).

Lemma pick {B} (c : list B) : forall k e, nth_error c k = Some e ->
  exists rest, Permutation c (e :: rest) /\ forall e', Permutation (upd k e' c) (e' :: rest).
Proof.
  induction c as [|z c IH]; intros [|k] e H; cbn in H; try discriminate.
  - injection H as ->. exists c. split; auto.
  - destruct (IH k e H) as (r & P & Q). exists (z :: r). split.
    + rewrite P. apply perm_swap.
    + intros e'. cbn [upd]. rewrite Q. apply perm_swap.
Qed.
Lemma combine_nth {B C} (a : list B) : forall (b : list C) k x y, nth_error a k = Some x -> nth_error b k = Some y -> nth_error (combine a b) k = Some (x, y).
Proof. induction a as [|z a IH]; intros [|w b] [|k] x y H1 H2; cbn in *; try discriminate; [congruence|auto]. Qed.
Lemma combine_upd {B C} (a : list B) : forall (b : list C) k x y, combine (upd k x a) (upd k y b) = upd k (x, y) (combine a b).
Proof. induction a as [|z a IH]; intros [|w b] [|k] x y; cbn; auto; try (destruct (upd k x a); auto; fail). f_equal. apply IH. Qed.
Lemma upd_same {B} (c : list B) : forall k e, nth_error c k = Some e -> upd k e c = c.
Proof. induction c as [|z c IH]; intros [|k] e H; cbn in *; try discriminate; [congruence|f_equal; auto]. Qed.
Lemma combine_app' {B C} (a a' : list B) (b b' : list C) : length a = length b -> combine (a ++ a') (b ++ b') = combine a b ++ combine a' b'.
Proof. revert b; induction a as [|x a IH]; intros [|y b] H; cbn in *; try discriminate; auto. f_equal. auto. Qed.

Lemma edit m l k : PR m l -> k < length l -> exists x rest, nth_error (pv_idx m) k = Some x /\
  Own (pv_pg m) ((x, nth k l []) :: rest) /\
  forall g' x' b', Own g' ((x', b') :: rest) -> PR (PV g' (upd k x' (pv_idx m))) (upd k b' l).
Proof.
  intros (HL & O) Hk. destruct (nth_error (pv_idx m) k) as [x|] eqn:Ex. 2: { apply nth_error_None in Ex. lia. }
  assert (Eb : nth_error l k = Some (nth k l [])) by (apply nth_error_nth'; auto).
  pose proof (combine_nth _ _ _ _ _ Ex Eb) as Ec. destruct (pick _ _ _ Ec) as (rest & P & Q). exists x, rest. split; auto. split.
  - apply (Own_perm _ _ _ P O).
  - intros g' x' b' O'. split; cbn [pv_idx pv_pg]; [rewrite !upd_length; auto|]. rewrite combine_upd.
    apply (Own_perm _ _ _ (Permutation_sym (Q (x', b'))) O').
Qed.

Lemma cut16_small n : (N.of_nat n < 65536)%N -> cut16 n = n.
Proof. intros H. unfold cut16. rewrite N.mod_small by auto. lia. Qed.
Lemma pfits_small n : pfits n = true -> (N.of_nat n < 65536)%N.
Proof. unfold pfits, page_max. intros H. apply N.leb_le in H. lia. Qed.
Lemma pfits_cap g e L : Own g (e :: L) -> pfits (ic (fst e)) = true.
Proof.
  intros O. destruct (own_ok _ _ _ O) as (_ & _ & Q3 & _). unfold pfits, page_max. apply N.leb_le.
  destruct Q3 as [->|(o & Ho & ->)]; [cbn; lia|]. unfold free_list_size in Ho.
  assert (Z : 2 ^ (lmin + o) <= 2 ^ 15) by (apply Nat.pow_le_mono_r; lia).
  assert (Z2 : (N.of_nat (2 ^ (lmin + o)) <= N.of_nat (2 ^ 15))%N) by lia. rewrite (pow2_of_nat 15) in Z2. exact Z2.
Qed.
Lemma bucket_small m l k : PR m l -> k < length l -> (N.of_nat (length (nth k l [])) <= page_max)%N.
Proof.
  intros R Hk. destruct (edit m l k R Hk) as (x & rest & _ & O & _). pose proof (pfits_cap _ _ _ O) as F.
  destruct (own_ok _ _ _ O) as (Q1 & Q2 & _). cbn [fst snd] in *. unfold pfits in F. apply N.leb_le in F. lia.
Qed.

Lemma fill_ok g x b L xs : Own g ((x, b) :: L) -> length xs <= ic x ->
  exists g', pg_fill A g x xs = Ok g' /\ Own g' ((Ix (ib x) (length xs) (ic x), xs) :: L).
Proof.
  intros O Hx. pose proof (own_ok _ _ _ O) as (Q1 & Q2 & Q3 & Q4 & Q5). cbn [fst snd] in *. unfold pg_fill.
  destruct (Nat.eqb_spec (length xs) 0) as [E|E].
  - exists g. split; auto. destruct xs; [|discriminate]. destruct g as [d ns].
    apply (Own_write (PG d ns) x b L (Ix (ib x) 0 (ic x)) [] d); cbn [ib ic isz length]; auto; try lia. intros [|i] v Hi; discriminate.
  - destruct (Nat.leb_spec (ib x + length xs) (length (pg_data g))); [|lia]. eexists. split; [reflexivity|].
    assert (L1 : length (firstn (ib x) (pg_data g)) = ib x) by (rewrite firstn_length; lia).
    assert (L2 : length (map (@Val A) xs) = length xs) by apply map_length.
    apply (Own_write g x b L); cbn [ib ic isz]; auto.
    + rewrite !app_length, L1, L2, skipn_length. lia.
    + intros p Hp. destruct (lt_dec p (ib x)) as [G|G].
      * rewrite nth_error_app1 by lia. apply nth_error_firstn_lt. auto.
      * rewrite nth_error_app2, L1 by lia. rewrite nth_error_app2, L2 by lia.
        rewrite <- (firstn_skipn (ib x + length xs) (pg_data g)) at 2. rewrite nth_error_app2; rewrite firstn_length; [f_equal|]; lia.
    + intros i v Hi. rewrite nth_error_app2, L1 by lia. replace (ib x + i - ib x) with i by lia.
      rewrite nth_error_app1; [|rewrite L2; apply nth_error_Some; congruence]. apply map_nth_error. auto.
Qed.
Lemma make_ok m l xs : PR m l -> (N.of_nat (length xs) < 65536)%N ->
  (pfits (length xs) = true -> exists g x, pv_make A dflt lmin m xs = Ok (g, x) /\ Own g ((x, xs) :: combine (pv_idx m) l)) /\
  (pfits (length xs) = false -> pv_make A dflt lmin m xs = Throw).
Proof.
  intros (HL & O) HN. unfold pv_make. rewrite cut16_small by auto.
  destruct (own_create _ _ (length xs) O HN) as (C1 & C2). split; intros Q; [|rewrite (C2 Q); auto].
  destruct (C1 Q) as (g & y & -> & Y1 & Y2 & Y3 & O1). cbn [bind].
  assert (FX : forall s, pg_fill A g (Ix (ib y) s (ic y)) xs = pg_fill A g y xs) by (intros s; destruct y; reflexivity).
  destruct (fill_ok _ _ _ _ xs O1 Y2) as (g' & E & O2). rewrite FX in E. rewrite E. cbn [bind].
  exists g', y. split; auto. cbn [ib ic] in O2. rewrite <- Y1 in O2. destruct y. exact O2.
Qed.
Lemma push_ok m l k v : PR m l -> k < length l ->
  (pfits (length (nth k l []) + 1) = true -> exists m', pv_push A dflt lmin lw m k v = Ok m' /\ PR m' (upd k (nth k l [] ++ [v]) l) /\
     exists y, nth_error (pv_idx m') k = Some y /\ isz y = length (nth k l []) + 1) /\
  (pfits (length (nth k l []) + 1) = false -> pv_push A dflt lmin lw m k v = Throw).
Proof.
  intros R Hk. pose proof (bucket_small m l k R Hk) as S. destruct (edit m l k R Hk) as (x & rest & Ex & O & K).
  pose proof (own_ok _ _ _ O) as (Q1 & Q2 & Q3 & Q4 & Q5). cbn [fst snd] in *. unfold pv_push. rewrite (idx_some _ _ _ Ex). cbn [bind].
  unfold page_max in S. set (b := nth k l []) in *. rewrite Q1, cut16_small by lia.
  destruct (own_resize _ x b rest (length b + 1) O ltac:(lia) ltac:(lia)) as (R1 & R2). split; intros F; [|rewrite (R2 F); auto].
  destruct (R1 F) as (g & y & -> & Y1 & Y2 & O1). cbn [bind]. pose proof (own_ok _ _ _ O1) as (P1 & P2 & P3 & P4 & P5). cbn [fst snd ib ic isz] in *.
  rewrite Y1. replace (ib y + (length b + 1) - 1) with (ib y + length b) by lia. rewrite put_ok by lia. cbn [bind].
  eexists. split; [reflexivity|]. split.
  - apply K. apply (Own_write g (Ix (ib y) (length b) (ic y)) b rest); cbn [ib ic isz]; auto; try lia.
    + apply upd_length.
    + intros p Hp. rewrite nth_error_upd' by lia. destruct (Nat.eqb_spec (ib y + length b) p); auto. lia.
    + rewrite app_length. cbn. lia.
    + intros i u Hi. rewrite nth_error_upd' by lia. destruct (Nat.eqb_spec (ib y + length b) (ib y + i)) as [E|E].
      * assert (i = length b) by lia. subst i. rewrite nth_error_app2, Nat.sub_diag in Hi by lia. cbn in Hi. congruence.
      * apply P5. assert (i < length (b ++ [v])) by (apply nth_error_Some; congruence). rewrite app_length in H. cbn in H.
        rewrite nth_error_app1 in Hi by lia. auto.
  - exists y. cbn [pv_idx]. split; auto. rewrite nth_error_upd' by (destruct R; lia). rewrite Nat.eqb_refl. auto.
Qed.
Lemma nth_upd_eq {B} (l : list B) k b d : k < length l -> nth k (upd k b l) d = b.
Proof. intros H. apply nth_error_nth. rewrite nth_error_upd' by auto. rewrite Nat.eqb_refl. auto. Qed.
Lemma upd_upd {B} (l : list B) : forall k a b, upd k a (upd k b l) = upd k a l.
Proof. induction l as [|x l IH]; intros [|k] a b; cbn; auto. f_equal. auto. Qed.
Lemma nth_ins {B} (b : list B) i v j : i <= length b ->
  nth_error (firstn i b ++ v :: skipn i b) j = if j <? i then nth_error b j else if j =? i then Some v else nth_error b (j - 1).
Proof.
  intros H. assert (L1 : length (firstn i b) = i) by (rewrite firstn_length; lia). destruct (Nat.ltb_spec j i).
  - rewrite nth_error_app1 by lia. apply nth_error_firstn_lt. auto.
  - rewrite nth_error_app2, L1 by lia. destruct (Nat.eqb_spec j i) as [->|Hn].
    + rewrite Nat.sub_diag. auto.
    + destruct (j - i) as [|q] eqn:Q; [lia|]. cbn [nth_error]. rewrite <- (firstn_skipn i b) at 2.
      rewrite nth_error_app2 by lia. rewrite L1. f_equal. lia.
Qed.
Lemma binsert_ok m l k i v : PR m l -> k < length l -> i <= length (nth k l []) ->
  (pfits (length (nth k l []) + 1) = true -> exists m', pv_binsert A dflt lmin lw m k i v = Ok m' /\
     PR m' (upd k (firstn i (nth k l []) ++ v :: skipn i (nth k l [])) l)) /\
  (pfits (length (nth k l []) + 1) = false -> pv_binsert A dflt lmin lw m k i v = Throw).
Proof.
  intros R Hk Hi. destruct (edit m l k R Hk) as (x & rest & Ex & O & _). pose proof (own_ok _ _ _ O) as (Q1 & _). cbn [fst snd] in *.
  unfold pv_binsert. rewrite (idx_some _ _ _ Ex). cbn [bind]. set (b := nth k l []) in *. rewrite Q1.
  destruct (Nat.leb_spec i (length b)); [|lia]. destruct (push_ok m l k v R Hk) as (P1 & P2). split; intros F; [|rewrite (P2 F); auto].
  destruct (P1 F) as (m1 & -> & R1 & y & Ey & Sy). cbn [bind]. rewrite (idx_some _ _ _ Ey). cbn [bind]. fold b in R1, Sy.
  destruct (edit m1 _ k R1 ltac:(rewrite upd_length; auto)) as (y' & rest' & Ey' & O1 & K). rewrite Ey in Ey'. injection Ey' as <-.
  rewrite nth_upd_eq in O1 by auto. pose proof (own_ok _ _ _ O1) as (T1 & T2 & T3 & T4 & T5). cbn [fst snd] in *.
  assert (TV : nth_error (pg_data (pv_pg m1)) (ib y + length b) = Some (Val v)).
  { apply T5. rewrite nth_error_app2, Nat.sub_diag by lia. auto. }
  rewrite (idx_some _ _ _ TV). cbn [bind]. rewrite app_length in T1. cbn [length] in T1.
  destruct (bmove_ok (pg_data (pv_pg m1)) (ib y + i + 1) (ib y + i) (length b - i)) as (d & -> & Ld & Hd); [lia|lia|]. cbn [bind].
  rewrite put_ok by lia. cbn [bind]. eexists. split; [reflexivity|].
  rewrite <- (upd_same _ _ _ Ey), <- (upd_upd l k _ (b ++ [v])). apply K.
  apply (Own_write _ y (b ++ [v]) rest'); auto.
  - rewrite upd_length. auto.
  - intros p Hp. rewrite nth_error_upd' by lia. destruct (Nat.eqb_spec (ib y + i) p); [lia|]. rewrite Hd.
    destruct (Nat.leb_spec (ib y + i + 1) p), (Nat.ltb_spec p (ib y + i + 1 + (length b - i))); cbn [andb]; auto. lia.
  - rewrite app_length. cbn [length]. rewrite firstn_length, skipn_length. lia.
  - intros j u Hj. assert (JL : j < length b + 1).
    { assert (Z : j < length (firstn i b ++ v :: skipn i b)) by (apply nth_error_Some; congruence).
      rewrite app_length in Z. cbn [length] in Z. rewrite firstn_length, skipn_length in Z. lia. }
    rewrite nth_ins in Hj by auto. rewrite nth_error_upd' by lia.
    destruct (Nat.eqb_spec (ib y + i) (ib y + j)) as [E|E].
    + destruct (Nat.ltb_spec j i); [lia|]. destruct (Nat.eqb_spec j i); [congruence|lia].
    + rewrite Hd. destruct (Nat.ltb_spec j i).
      * destruct (Nat.leb_spec (ib y + i + 1) (ib y + j)); [lia|]. cbn [andb]. apply T5. rewrite nth_error_app1; auto. lia.
      * destruct (Nat.eqb_spec j i); [lia|]. destruct (Nat.leb_spec (ib y + i + 1) (ib y + j)); [|lia].
        destruct (Nat.ltb_spec (ib y + j) (ib y + i + 1 + (length b - i))); [|lia]. cbn [andb].
        replace (ib y + i + (ib y + j - (ib y + i + 1))) with (ib y + (j - 1)) by lia. apply T5. rewrite nth_error_app1 by lia. auto.
Qed.
Lemma set_ok m l k i v : PR m l -> i < length (nth k l []) -> exists m', pv_set A m k i v = Ok m' /\ PR m' (upd k (upd i v (nth k l [])) l).
Proof.
  intros R Hi. destruct (lt_dec k (length l)) as [Hk|Hk]; [|rewrite nth_overflow in Hi by lia; cbn in Hi; lia].
  destruct (edit m l k R Hk) as (x & rest & Ex & O & K). pose proof (own_ok _ _ _ O) as (Q1 & Q2 & Q3 & Q4 & Q5). cbn [fst snd] in *.
  unfold pv_set. rewrite (idx_some _ _ _ Ex). cbn [bind]. set (b := nth k l []) in *. destruct (Nat.ltb_spec i (isz x)); [|lia].
  rewrite put_ok by lia. cbn [bind]. eexists. split; [reflexivity|].
  rewrite <- (upd_same _ _ _ Ex). apply K. apply (Own_write _ x b rest); auto.
  - apply upd_length.
  - intros p Hp. rewrite nth_error_upd' by lia. destruct (Nat.eqb_spec (ib x + i) p); auto. lia.
  - rewrite upd_length. auto.
  - intros j u Hj. rewrite nth_error_upd' in Hj by auto. rewrite nth_error_upd' by lia.
    destruct (Nat.eqb_spec i j) as [E|Hn]; destruct (Nat.eqb_spec (ib x + i) (ib x + j)); try lia; [congruence|apply Q5; auto].
Qed.
Lemma cell_ok m l k x i v : PR m l -> nth_error (pv_idx m) k = Some x -> nth_error (nth k l []) i = Some v ->
  idx (pg_data (pv_pg m)) (ib x + i) = Ok (Val v).
Proof.
  intros R Ex Hv. assert (Hk : k < length l) by (destruct R as (<- & _); apply nth_error_Some; congruence).
  destruct (edit m l k R Hk) as (x' & rest & Ex' & O & _). rewrite Ex in Ex'. injection Ex' as <-.
  destruct (own_ok _ _ _ O) as (_ & _ & _ & _ & Q5). apply idx_some. auto.
Qed.
Lemma size_ok m l k : PR m l -> k < length l -> exists x, nth_error (pv_idx m) k = Some x /\ isz x = length (nth k l []).
Proof. intros R Hk. destruct (edit m l k R Hk) as (x & rest & Ex & O & _). exists x. split; auto. apply (own_ok _ _ _ O). Qed.
Lemma vals_map xs : vals A (map Val xs) = Ok xs.
Proof. induction xs as [|x xs IH]; cbn; auto. rewrite IH. auto. Qed.
Lemma bucket_ok m l k : PR m l -> k < length l -> pv_bucket A m k = Ok (nth k l []).
Proof.
  intros R Hk. destruct (edit m l k R Hk) as (x & rest & Ex & O & _). pose proof (own_ok _ _ _ O) as (Q1 & Q2 & Q3 & Q4 & Q5). cbn [fst snd] in *.
  unfold pv_bucket. rewrite (idx_some _ _ _ Ex). cbn [bind]. set (b := nth k l []) in *. rewrite Q1. destruct (Nat.eqb_spec (length b) 0) as [E|E].
  { destruct b; [auto|discriminate]. }
  unfold range. destruct (Nat.leb_spec (ib x) (ib x + length b)); [|lia]. destruct (Nat.leb_spec (ib x + length b) (length (pg_data (pv_pg m)))); [|lia].
  cbn [andb bind]. replace (firstn (ib x + length b - ib x) (skipn (ib x) (pg_data (pv_pg m)))) with (map (@Val A) b); [apply vals_map|].
  apply nth_ext with (d := Junk) (d' := Junk).
  { rewrite map_length, firstn_length, skipn_length. lia. }
  rewrite map_length. intros i Hi. destruct (nth_error b i) as [v|] eqn:Ev; [|apply nth_error_None in Ev; lia].
  transitivity (@Val A v); [apply nth_error_nth, map_nth_error; auto|]. symmetry. apply nth_error_nth.
  rewrite nth_error_firstn_lt by lia. rewrite <- (Q5 i v Ev).
  rewrite <- (firstn_skipn (ib x) (pg_data (pv_pg m))) at 2. rewrite nth_error_app2; rewrite firstn_length; [f_equal|]; lia.
Qed.
Lemma at_ok m l k : PR m l -> pv_at A m k = match nth_error l k with Some b => Ok b | None => Throw end.
Proof.
  intros R. unfold pv_at. destruct (Nat.ltb_spec k (length (pv_idx m))) as [H|H]; rewrite (proj1 R) in H; cbn [verify bind].
  - rewrite (bucket_ok m l k R H), (nth_error_nth' l [] H). auto.
  - apply nth_error_None in H. rewrite H. auto.
Qed.
Lemma all_ok m l : PR m l -> l <> [] -> pv_all A m = Ok l.
Proof.
  intros R Hl. unfold pv_all. rewrite (proj1 R).
  assert (0 < length l) by (destruct l; [congruence|cbn; lia]). destruct (Nat.ltb_spec 0 (length l)); [|lia]. cbn [verify bind].
  assert (G : forall n k, k + n = length l -> pv_all_from A m k n = Ok (skipn k l)).
  { induction n as [|n IH]; intros k Hn; cbn [pv_all_from].
    - rewrite skipn_all2 by lia. auto.
    - rewrite (bucket_ok m l k R) by lia. cbn [bind]. rewrite IH by lia. cbn [bind]. f_equal.
      apply (skipn_nth l k []). lia. }
  rewrite G by lia. reflexivity.
Qed.
Lemma free_all_ok xs : forall g bs L, length xs = length bs -> Own g (combine xs bs ++ L) -> exists g', free_all A lmin lw g xs = Ok g' /\ Own g' L.
Proof.
  induction xs as [|x xs IH]; intros g [|b bs] L Hl O; cbn in Hl; try discriminate; cbn [free_all].
  - exists g. auto.
  - cbn [combine app] in O. destruct (own_release _ _ _ _ O) as (g1 & -> & O1). cbn [bind]. apply (IH g1 bs L); auto.
Qed.
Lemma Own_empties g L n : Own g L -> Own g (L ++ repeat (Ix 0 0 0, []) n).
Proof.
  intros (F & [H1 H2 H3 H4 H5 H6]). exists F. split; auto.
  - intros e He. apply in_app_or in He as [He|He]; auto. apply repeat_spec in He. subst e.
    split; [auto|]. split; [cbn; lia|]. split; [left; auto|]. split; [cbn; lia|]. intros [|i] v Hi; discriminate.
  - intros p. rewrite map_app, cnt_app. specialize (H6 p).
    assert (Z : cnt p (map fst (repeat (Ix 0 0 0, @nil A) n)) = 0).
    { induction n as [|n IH]; auto. }
    lia.
Qed.
Lemma combine_firstn' {B C} (a : list B) : forall (b : list C) n, combine (firstn n a) (firstn n b) = firstn n (combine a b).
Proof. induction a as [|x a IH]; intros [|y b] [|n]; cbn; auto. f_equal. auto. Qed.
Lemma combine_skipn' {B C} (a : list B) : forall (b : list C) n, length a = length b -> combine (skipn n a) (skipn n b) = skipn n (combine a b).
Proof. induction a as [|x a IH]; intros [|y b] [|n] H; cbn in *; try discriminate; auto. Qed.
Lemma combine_repeat {B C} (x : B) (y : C) n : combine (repeat x n) (repeat y n) = repeat (x, y) n.
Proof. induction n; cbn; congruence. Qed.
Lemma resize_ok m l n : PR m l -> exists m', pv_resize A lmin lw m n = Ok m' /\ PR m' (firstn n l ++ repeat [] (n - length l)).
Proof.
  intros (HL & O). unfold pv_resize. rewrite <- (firstn_skipn n (combine (pv_idx m) l)) in O.
  apply (Own_perm _ _ _ (Permutation_app_comm _ _)) in O. rewrite <- combine_skipn' in O by auto.
  assert (LL : length (skipn n (pv_idx m)) = length (skipn n l)) by (rewrite !skipn_length; lia).
  destruct (free_all_ok _ _ (skipn n l) _ LL O) as (g & -> & O1). cbn [bind].
  eexists. split; [reflexivity|]. unfold PR. cbn [pv_idx pv_pg]. unfold res_resize. rewrite HL. split.
  - rewrite !app_length, !firstn_length, !repeat_length. lia.
  - rewrite combine_app' by (rewrite !firstn_length; lia). rewrite combine_firstn', combine_repeat. apply Own_empties. auto.
Qed.
Lemma new_own ns : length ns = fls -> (forall n, In n ns -> n = None) -> PR (PV (PG [] ns) []) [].
Proof.
  intros H1 H2. split; auto. exists (repeat [] fls). cbn [pv_pg pv_idx combine]. split; cbn [pg_data pg_nodes]; auto.
  - apply repeat_length.
  - intros e [].
  - intros o v Ho. assert (In v (repeat (@nil ix) fls)) as Hi by (apply (nth_error_In _ _ Ho)). apply repeat_spec in Hi. subst v.
    assert (o < fls). { rewrite <- (repeat_length (@nil ix) fls). apply nth_error_Some. congruence. }
    destruct (nth_error ns o) as [n|] eqn:En; [|apply nth_error_None in En; lia]. exists n. split; auto.
    cbn [chain]. apply H2. apply (nth_error_In _ _ En).
  - intros o v x Ho Hx. assert (In v (repeat (@nil ix) fls)) as Hi by (apply (nth_error_In _ _ Ho)). apply repeat_spec in Hi. subst v. destruct Hx.
  - intros p. cbn [map cnt]. assert (Z : forall k, concat (repeat (@nil ix) k) = []) by (induction k; auto). rewrite Z. cbn. lia.
Qed.

Lemma pv_step_ok m l o l' r : PR m l -> pv_spec A l o = Some (l', r) ->
  exists m', pv_step A dflt lmin lw m o = Ok (m', r) /\ PR m' l'.
Proof.
  intros R E. pose proof (proj1 R) as HL. destruct o; cbn [pv_spec pv_step] in *; unfold put_in in *.
  - apply guard_some in E as (H & E). apply N.ltb_lt in H. destruct (make_ok m l xs R H) as (M1 & M2). unfold pv_emplace.
    destruct (pfits (length xs)); injection E as <- <-; [|rewrite (M2 eq_refl); exists m; auto].
    destruct (M1 eq_refl) as (g & x & -> & O). cbn [bind become]. eexists. split; [reflexivity|]. split; cbn [pv_idx pv_pg].
    + rewrite !app_length, HL. auto.
    + rewrite combine_app' by auto. cbn [combine]. apply (Own_perm _ _ _ (Permutation_cons_append _ _) O).
  - injection E as <- <-. unfold pv_emplace_empty. destruct (own_create _ _ 0 (proj2 R) ltac:(cbn; lia)) as (C1 & _).
    destruct (C1 eq_refl) as (g & y & -> & Y1 & Y2 & Y3 & O). cbn [bind become]. eexists. split; [reflexivity|]. split; cbn [pv_idx pv_pg].
    + rewrite !app_length, HL. auto.
    + rewrite combine_app' by auto. cbn [combine]. rewrite <- Y1 in O. destruct y as [yb ys yc]. cbn [isz ib ic] in *.
      apply (Own_perm _ _ _ (Permutation_cons_append _ _) O).
  - destruct (Nat.leb_spec k (length l)) as [Hk|Hk]; [|discriminate].
    apply guard_some in E as (H & E). apply N.ltb_lt in H. destruct (make_ok m l xs R H) as (M1 & M2). unfold pv_insert.
    destruct (pfits (length xs)); injection E as <- <-; [|rewrite (M2 eq_refl); exists m; auto].
    destruct (M1 eq_refl) as (g & x & -> & O). cbn [bind]. unfold ins. rewrite HL. destruct (Nat.leb_spec k (length l)); [|lia]. cbn [bind become].
    eexists. split; [reflexivity|]. split; cbn [pv_idx pv_pg].
    + rewrite !app_length. cbn [length]. rewrite !firstn_length, !skipn_length, HL. auto.
    + rewrite combine_app' by (rewrite !firstn_length; lia). cbn [app combine]. rewrite combine_firstn', combine_skipn' by auto.
      apply (Own_perm _ ((x, xs) :: combine (pv_idx m) l)); auto. rewrite <- (firstn_skipn k (combine (pv_idx m) l)) at 1. apply Permutation_middle.
  - injection E as <- <-. destruct (resize_ok m l n R) as (m' & -> & R'). exists m'. auto.
  - injection E as <- <-. eexists. split; [reflexivity|]. destruct R as (_ & F & O). apply new_own.
    + rewrite map_length. apply (own_nodes _ _ _ O).
    + intros n Hn. apply in_map_iff in Hn as (? & <- & _). auto.
  - apply guard_some in E as (H & E). apply Nat.ltb_lt in H. destruct (push_ok m l k v R H) as (P1 & P2).
    destruct (pfits (length (nth k l []) + 1)); injection E as <- <-; [|rewrite (P2 eq_refl); exists m; auto].
    destruct (P1 eq_refl) as (m' & -> & R' & _). exists m'. auto.
  - apply guard_some in E as (H & E). apply andb_prop in H as (H1 & H2). apply Nat.ltb_lt in H1. apply Nat.leb_le in H2.
    destruct (binsert_ok m l k i v R H1 H2) as (P1 & P2).
    destruct (pfits (length (nth k l []) + 1)); injection E as <- <-; [|rewrite (P2 eq_refl); exists m; auto].
    destruct (P1 eq_refl) as (m' & -> & R'). exists m'. auto.
  - apply guard_some in E as (H & E). apply Nat.ltb_lt in H. injection E as <- <-.
    destruct (set_ok m l k i v R H) as (m' & -> & R'). exists m'. auto.
  - destruct (nth_error (nth k l []) i) as [u|] eqn:Eu; [|discriminate]. injection E as <- <-.
    assert (Hi : i < length (nth k l [])) by (apply nth_error_Some; congruence).
    destruct (lt_dec k (length l)) as [Hk|Hk]; [|rewrite nth_overflow in Hi by lia; cbn in Hi; lia].
    destruct (size_ok m l k R Hk) as (x & Ex & Sx). unfold pv_get. rewrite (idx_some _ _ _ Ex). cbn [bind].
    destruct (Nat.ltb_spec i (isz x)); [|lia]. rewrite (cell_ok m l k x i u R Ex Eu). cbn [bind val answer]. exists m. auto.
  - apply guard_some in E as (H & E). apply Nat.ltb_lt in H. injection E as <- <-.
    destruct (size_ok m l k R H) as (x & Ex & Sx). unfold pv_bucket_at. rewrite (idx_some _ _ _ Ex). cbn [bind].
    destruct (nth_error (nth k l []) i) as [u|] eqn:Eu.
    + assert (Hi : i < length (nth k l [])) by (apply nth_error_Some; congruence). destruct (Nat.ltb_spec i (isz x)); [|lia].
      cbn [verify bind]. rewrite (cell_ok m l k x i u R Ex Eu). exists m. auto.
    + apply nth_error_None in Eu. destruct (Nat.ltb_spec i (isz x)); [lia|]. exists m. auto.
  - injection E as <- <-. rewrite (at_ok m l k R). exists m. destruct (nth_error l k); auto.
  - injection E as <- <-. unfold pv_front. rewrite (at_ok m l 0 R). exists m. destruct l; auto.
  - injection E as <- <-. unfold pv_back. rewrite HL. exists m. split; auto. destruct (Nat.eqb_spec (length l) 0) as [Z|Z].
    { destruct l; [auto|discriminate]. }
    rewrite (at_ok m l _ R). destruct (rev l) as [|b t] eqn:Rv.
    { apply (f_equal (@rev _)) in Rv. rewrite rev_involutive in Rv. subst l. cbn in Z. congruence. }
    apply (f_equal (@rev _)) in Rv. rewrite rev_involutive in Rv. subst l. cbn [rev].
    rewrite app_length, rev_length. cbn [length]. rewrite nth_error_app2; rewrite rev_length; [|lia].
    replace (length t + 1 - 1 - length t) with 0 by lia. auto.
  - injection E as <- <-. rewrite HL. exists m. auto.
  - apply guard_some in E as (H & E). injection E as <- <-. rewrite (all_ok m l R). { exists m. auto. }
    intros ->. discriminate.
Qed.
Lemma pv_new_ok : PR (pv_new A lmin) [].
Proof. apply new_own. { apply repeat_length. } intros n Hn. apply repeat_spec in Hn. auto. Qed.

Theorem pv_history ops l outs : shist A (pv_spec A) [] ops = Some (l, outs) ->
  exists m, hist A (pv_step A dflt lmin lw) (pv_new A lmin) ops = Ok (m, outs) /\
    map (fun k => pv_bucket A m k) (seq 0 (length l)) = map Ok l.
Proof.
  intros E. destruct (hist_sim A (pv_step A dflt lmin lw) (pv_spec A) PR pv_step_ok ops _ _ _ _ pv_new_ok E) as (m & H & R).
  exists m. split; auto. apply nth_ext with (d := UB) (d' := UB). { rewrite !map_length, seq_length. auto. }
  rewrite map_length, seq_length. intros k Hk. transitivity (@Ok (list A) (nth k l [])).
  - rewrite <- (bucket_ok m l k R Hk). apply nth_error_nth. apply map_nth_error. rewrite nth_error_nth' with (d := 0) by (rewrite seq_length; auto).
    rewrite seq_nth by auto. auto.
  - symmetry. apply nth_error_nth. apply map_nth_error. apply nth_error_nth'. auto.
Qed.
(* no two pages in use share a position, and every page lies inside the data *)
Theorem pv_disjoint ops l outs m : shist A (pv_spec A) [] ops = Some (l, outs) ->
  hist A (pv_step A dflt lmin lw) (pv_new A lmin) ops = Ok (m, outs) ->
  (forall k x, nth_error (pv_idx m) k = Some x -> isz x <= ic x /\ ib x + ic x <= length (pg_data (pv_pg m))) /\
  forall j k x y p, nth_error (pv_idx m) j = Some x -> nth_error (pv_idx m) k = Some y -> j <> k ->
    ib x <= p < ib x + ic x -> ib y <= p < ib y + ic y -> False.
Proof.
  intros E H. destruct (hist_sim A (pv_step A dflt lmin lw) (pv_spec A) PR pv_step_ok ops _ _ _ _ pv_new_ok E) as (m' & H' & R).
  rewrite H in H'. injection H' as <-. destruct R as (HL & F & O). split.
  - intros k x Ex. assert (Hk : k < length l) by (rewrite <- HL; apply nth_error_Some; congruence).
    pose proof (combine_nth _ _ _ _ _ Ex (nth_error_nth' l [] Hk)) as Ec. apply nth_error_In in Ec.
    destruct (own_pg _ _ _ O _ Ec) as (? & ? & ? & ? & _). auto.
  - intros j k x y p Ex Ey Hjk Hx Hy. pose proof (own_cnt _ _ _ O p) as C.
    assert (MF : map fst (combine (pv_idx m) l) = pv_idx m).
    { clear -HL. revert l HL. induction (pv_idx m) as [|z i IH]; intros [|w l] HL; cbn in *; try discriminate; auto. f_equal. auto. }
    rewrite MF in C. pose proof (cnt_two 0 ltac:(lia) p (pv_idx m) j k x y Ex Ey Hjk) as T.
    destruct (cov_spec p x) as [(E1 & _)|(_ & E1)]; [|lia]. destruct (cov_spec p y) as [(E2 & _)|(_ & E2)]; lia.
Qed.

(* a container of 2^16 elements or more gets a page for its size modulo 2^16 *)
Lemma emplace_cut xs r : (N.of_nat (length xs) = 65536 + r)%N -> (r <= page_max)%N ->
  pv_emplace A dflt lmin (pv_new A lmin) xs = UB.
Proof.
  intros H Hr. unfold page_max in Hr. unfold pv_emplace, pv_make.
  assert (C : cut16 (length xs) = N.to_nat r).
  { unfold cut16. rewrite H. replace (65536 + r)%N with (r + 1 * 65536)%N by lia. rewrite N.mod_add by lia. rewrite N.mod_small by lia. auto. }
  rewrite C. destruct (own_create _ _ (N.to_nat r) (proj2 pv_new_ok) ltac:(lia)) as (C1 & _).
  destruct C1 as (g & y & E & Y1 & Y2 & Y3 & O). { unfold pfits, page_max. apply N.leb_le. lia. }
  rewrite E. cbn [bind]. pose proof (pfits_cap _ _ _ O) as FC. unfold pfits, page_max in FC. apply N.leb_le in FC. cbn [fst ic] in FC.
  (* the only page is the new one *)
  assert (LD : length (pg_data g) = ic y).
  { unfold pg_create in E. unfold pv_new, pg_new in E. cbn [pv_pg pg_data pg_nodes] in E.
    destruct (free_list_index lmin (page_capacity lmin (N.of_nat (N.to_nat r))) <? N.of_nat fls)%N; [|discriminate]. cbn [verify bind] in E.
    match type of E with context [idx (repeat None fls) ?i] => destruct (idx (repeat (@None nat) fls) i) as [[s|]| | |] eqn:En end;
      cbn [bind] in E; try discriminate.
    - unfold idx in En. destruct (nth_error _ _) as [q|] eqn:Eq in En; [|discriminate]. injection En as ->. apply nth_error_In, repeat_spec in Eq. discriminate.
    - injection E as <- <-. cbn [pg_data ic app]. apply repeat_length. }
  unfold pg_fill. destruct (Nat.eqb_spec (length xs) 0); [lia|]. destruct (Nat.leb_spec (ib y + length xs) (length (pg_data g))); [lia|]. reflexivity.
Qed.
End P.
