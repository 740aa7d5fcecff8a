From Coq Require Import Permutation.
From Verif Require Import Base RtModel RtSpec RtProofs RtTree RtpModel RtpSpec.

Section P.
Variables (C : Type) (lt : C -> C -> bool) (c0 : C).
Variables (D : Type) (diff : C -> C -> D) (mulD subD : D -> D -> D) (oneD infD : D) (ltD : D -> D -> bool).
Variables (V : Type) (Dims MaxItems Hints : nat) (veq : V -> V -> bool).
Hypotheses (O : order_ok lt) (HD : 0 < Dims) (HM : 3 <= MaxItems).
Notation inv := (inv C lt V Dims MaxItems Hints).
Notation pstep := (pstep C lt c0 D diff mulD subD oneD infD ltD V Dims MaxItems Hints veq).
Notation prun := (prun C lt c0 D diff mulD subD oneD infD ltD V Dims MaxItems Hints veq).
Notation limit := (gsum (min_items MaxItems) (S Hints)).

Lemma app_nth {X} (a g : list X) L j : Forall (fun j => j < length a) L -> In j L -> nth_error (a ++ g) j = nth_error a j.
Proof. intros F I. rewrite Forall_forall in F. apply nth_error_app1. auto. Qed.
Lemma own_more (ns g : list (node C V)) L : own C V ns L -> own C V (ns ++ g) L.
Proof. intros (N & F). split; [exact N|]. eapply Forall_impl; [|exact F]. cbn beta. intros j H. rewrite app_length. lia. Qed.
(* unused nodes at the end do no harm *)
Lemma inv_more I t s g : inv I t s -> inv I (load C V (meta_of C V t) (nodes _ _ t ++ g)) s.
Proof.
  intros (Hh & X). unfold RtTree.inv, load, meta_of. cbn [nodes root free m_rect m_count height hints mt_root mt_free mt_rect mt_count mt_height mt_hints]. split; [exact Hh|].
  destruct (root _ _ t) as [id|].
  - destruct X as (lev & T & fl & R0 & R & W & S0 & F & Ho & X). exists lev, T, fl. split; [exact R0|].
    assert (Ho2 := Ho). destruct Ho2 as (_ & B).
    split; [eapply (rep_frame C c0 D diff mulD subD infD ltD V); [exact R|]; intros j Hj; eapply app_nth; [exact B|apply in_or_app; auto]|].
    split; [exact W|]. split; [exact S0|].
    split; [eapply frep_frame; [exact F|]; intros j Hj; eapply app_nth; [exact B|apply in_or_app; auto]|].
    split; [apply own_more; exact Ho|exact X].
  - destruct X as (fl & F & Ho & X). exists fl. assert (Ho2 := Ho). destruct Ho2 as (_ & B).
    split; [eapply frep_frame; [exact F|]; intros j Hj; eapply app_nth; [exact B|exact Hj]|]. split; [apply own_more; exact Ho|exact X].
Qed.
(* saved: the second file has the meta data of the tree *)
Definition good_file (saved : bool) (t : tree C V) (f : mfile C) : Prop := saved = true -> f = MGood (meta_of C V t).
Lemma load_meta t ns : meta_of C V (load C V (meta_of C V t) ns) = meta_of C V t.
Proof. reflexivity. Qed.
Lemma reads_same t o t' x : reads C V o = true -> step C lt c0 D diff mulD subD oneD infD ltD V Dims MaxItems Hints veq t o = Ok (t', x) -> t' = t.
Proof.
  destruct o; cbn [reads]; try discriminate; intros _; cbn [step]; [|congruence].
  destruct (search C lt V t q fn); cbn [bind]; congruence.
Qed.
Lemma inserts_op o ops : inserts C V (tree_ops C V (POp o :: ops)) = inserts C V [o] + inserts C V (tree_ops C V ops).
Proof. unfold tree_ops. cbn [flat_map]. apply inserts_cons. Qed.
Lemma prun_ok : forall ops saved I t f s, inv I t s -> good_file saved t f -> careful C V saved ops = true ->
  Forall (op_ok C V Dims) (tree_ops C V ops) -> I + inserts C V (tree_ops C V ops) < limit ->
  exists t' f' s' xs, prun (t, f) ops = Ok ((t', f'), xs) /\ inv (I + inserts C V (tree_ops C V ops)) t' s' /\ psruns C lt V veq s ops s' xs.
Proof.
  induction ops as [|o ops IH]; intros saved I t f s Hi Hf Hc Ho HI.
  { exists t, f, s, []. split; [reflexivity|]. split; [|constructor]. cbn. rewrite Nat.add_0_r. exact Hi. }
  cbn [careful] in Hc. apply andb_prop in Hc. destruct Hc as (Hc1 & Hc). cbn [RtpModel.prun].
  destruct o as [o| | |g].
  - rewrite inserts_op in *. unfold tree_ops in Ho. cbn [flat_map] in Ho. apply Forall_app in Ho. destruct Ho as (Ho1 & Ho).
    destruct (step_ok C lt c0 D diff mulD subD oneD infD ltD V Dims MaxItems Hints O HD HM veq I t s o Hi (Forall_inv Ho1) ltac:(lia)) as (t1 & s1 & x & E & Hi1 & Sp).
    cbn [RtpModel.pstep saved_after] in *. rewrite E. cbn [bind].
    destruct (IH (saved && reads C V o) _ t1 f s1 Hi1) as (t' & f' & s' & xs & R & Hi' & Sp'); auto.
    { intros Hs. apply andb_prop in Hs. destruct Hs as (Hs & Hr). rewrite (reads_same _ _ _ _ Hr E). auto. }
    { lia. }
    exists t', f', s', (x :: xs). rewrite R. cbn [bind]. split; [reflexivity|]. split; [|econstructor; eauto]. rewrite Nat.add_assoc. exact Hi'.
  - change (tree_ops C V (PSave :: ops)) with (tree_ops C V ops) in *. cbn [RtpModel.pstep bind saved_after] in *.
    destruct (IH true I t (MGood (meta_of C V t)) s Hi ltac:(intros _; reflexivity) Hc Ho HI) as (t' & f' & s' & xs & R & Hi' & Sp').
    exists t', f', s', (OUnit _ _ :: xs). rewrite R. cbn [bind]. split; [reflexivity|]. split; [exact Hi'|constructor; exact Sp'].
  - change (tree_ops C V (PSaveKilled :: ops)) with (tree_ops C V ops) in *. cbn [RtpModel.pstep bind saved_after] in *.
    destruct (IH false I t MBroken s Hi ltac:(intros Z; discriminate Z) Hc Ho HI) as (t' & f' & s' & xs & R & Hi' & Sp').
    exists t', f', s', (OUnit _ _ :: xs). rewrite R. cbn [bind]. split; [reflexivity|]. split; [exact Hi'|constructor; exact Sp'].
  - change (tree_ops C V (PReopen g :: ops)) with (tree_ops C V ops) in *. cbn [saved_after] in *. subst saved.
    cbn [RtpModel.pstep reopen]. rewrite (Hf eq_refl). cbn [bind].
    destruct (IH true I (load C V (meta_of C V t) (nodes _ _ t ++ g)) (MGood (meta_of C V t)) s (inv_more _ _ _ _ Hi) ltac:(intros _; rewrite load_meta; reflexivity) Hc Ho HI) as (t' & f' & s' & xs & R & Hi' & Sp').
    exists t', f', s', (OUnit _ _ :: xs). rewrite R. cbn [bind]. split; [reflexivity|]. split; [exact Hi'|constructor; exact Sp'].
Qed.
Lemma deep_ok I t s r q fn : inv I t s -> nodes _ _ r = nodes _ _ t -> root _ _ r = root _ _ t -> length q = Dims ->
  exists l, (forall n, height _ _ t <= n -> search_deep C lt V n r q fn = Ok (upto C V fn l)) /\ selects C V (fun e => overlap C lt (fst e) q) s l.
Proof.
  intros Hi Hn Hr Hq.
  destruct Hi as (Hh & X). unfold search_deep. rewrite Hr. destruct (root _ _ t) as [id|] eqn:Et.
  - destruct X as (lev & T & fl & <- & R & W & S0 & F & Ho & Hht & Hc & P & Dm & Cm & Cr).
    exists (filter (fun e => intersects C lt (fst e) q) (cont C V T)). split.
    + intros n Hln. rewrite <- Hn in R.
      rewrite (node_search_ok C lt c0 D diff mulD subD oneD infD ltD V Dims MaxItems O HD HM q fn r Hq lev T n R W) by lia. reflexivity.
    + assert (DT : RtProofs.dims C Dims V (cont C V T)) by (eapply wf_dims; eauto). exists (filter (fun e => negb (intersects C lt (fst e) q)) (cont C V T)). split; [|split].
      * rewrite P. clear. induction (cont C V T) as [|e l IH]; auto. cbn [filter]. destruct (intersects C lt (fst e) q); cbn [negb app]; [rewrite <- IH; auto|]. rewrite <- Permutation_middle, <- IH. auto.
      * rewrite Forall_forall. intros e J. apply filter_In in J. destruct J as (J & N). unfold RtProofs.dims in DT. rewrite Forall_forall in DT. apply (intersects_overlap C lt c0 D diff mulD subD infD ltD Dims); auto.
      * rewrite Forall_forall. intros e J. apply filter_In in J. destruct J as (J & N). unfold RtProofs.dims in DT. rewrite Forall_forall in DT. intros G. apply (intersects_overlap C lt c0 D diff mulD subD infD ltD Dims) in G; auto. rewrite G in N. discriminate.
  - exists []. split; [reflexivity|]. destruct X as (_ & _ & _ & _ & _ & ->). exists []. auto.
Qed.

Lemma prun_app ops1 : forall st ops2, prun st (ops1 ++ ops2) = let* '(st1, xs) := prun st ops1 in let* '(st2, ys) := prun st1 ops2 in Ok (st2, xs ++ ys).
Proof.
  induction ops1 as [|o ops1 IH]; intros st ops2; cbn [app RtpModel.prun bind]; [destruct (prun st ops2) as [[]| | |]; reflexivity|].
  destruct (pstep st o) as [[st1 x]| | |]; cbn [bind]; try reflexivity. rewrite IH. destruct (prun st1 ops1) as [[st2 xs]| | |]; cbn [bind]; try reflexivity.
  destruct (prun st2 ops2) as [[]| | |]; reflexivity.
Qed.
Lemma psruns_app ops1 : forall s s1 xs, psruns C lt V veq s ops1 s1 xs -> forall ops2 s2 ys, psruns C lt V veq s1 ops2 s2 ys -> psruns C lt V veq s (ops1 ++ ops2) s2 (xs ++ ys).
Proof. intros s s1 xs H. induction H; intros ops2 s2 ys H2; cbn [app]; [exact H2|econstructor; eauto..]. Qed.
Lemma save_file st ops t f xs : prun st (ops ++ [PSave]) = Ok ((t, f), xs) -> f = MGood (meta_of C V t).
Proof.
  rewrite prun_app. destruct (prun st ops) as [[[t1 f1] x1]| | |]; cbn [bind]; try discriminate. cbn [RtpModel.prun RtpModel.pstep bind]. intros E. inversion E. reflexivity.
Qed.
Lemma ops_file ops : forall t f t' f' xs, prun (t, f) (map POp ops) = Ok ((t', f'), xs) -> f' = f.
Proof.
  induction ops as [|o ops IH]; intros t f t' f' xs; cbn [map RtpModel.prun]; [congruence|]. cbn [RtpModel.pstep].
  destruct (step C lt c0 D diff mulD subD oneD infD ltD V Dims MaxItems Hints veq t o) as [[t1 x]| | |]; cbn [bind]; try discriminate.
  destruct (prun (t1, f) (map POp ops)) as [[[t2 f2] x2]| | |] eqn:E; cbn [bind]; try discriminate. intros H. inversion H. subst. eapply IH; eauto.
Qed.
Lemma careful_ops ops : forall saved, careful C V saved (map POp ops) = true.
Proof. induction ops as [|o ops IH]; intros saved; cbn [map careful andb]; auto. Qed.
Lemma tree_ops_ops ops : tree_ops C V (map POp ops) = ops.
Proof. unfold tree_ops. induction ops as [|o ops IH]; cbn [map flat_map app]; congruence. Qed.
Lemma tree_ops_app a b : tree_ops C V (a ++ b) = tree_ops C V a ++ tree_ops C V b.
Proof. apply flat_map_app. Qed.
Lemma careful_app ops : forall saved o, careful C V saved ops = true -> match o with PReopen _ => false | _ => true end = true -> careful C V saved (ops ++ [o]) = true.
Proof.
  induction ops as [|x ops IH]; intros saved o H Ho; cbn [app careful] in *; [destruct o; auto; discriminate|].
  apply andb_prop in H. destruct H as (-> & H). cbn [andb]. auto.
Qed.
Lemma inserts_app a b : inserts C V (a ++ b) = inserts C V a + inserts C V b.
Proof. unfold inserts. rewrite filter_app, app_length. reflexivity. Qed.
Lemma stale_ok ops0 ops1 : careful C V false ops0 = true ->
  Forall (op_ok C V Dims) (tree_ops C V ops0 ++ ops1) -> inserts C V (tree_ops C V ops0 ++ ops1) < limit ->
  exists t1 f1 xs t2 f2 ys s, prun (empty C c0 V Dims Hints, MNone) (ops0 ++ [PSave]) = Ok ((t1, f1), xs) /\ prun (t1, f1) (map POp ops1) = Ok ((t2, f2), ys) /\
    psruns C lt V veq [] ((ops0 ++ [PSave]) ++ map POp ops1) s (xs ++ ys) /\
    (root _ _ t2 = root _ _ t1 -> forall g, exists r, reopen C V (t2, f2) g = Ok (r, f2) /\
      forall q fn, length q = Dims -> exists l n0, (forall n, n0 <= n -> search_deep C lt V n r q fn = Ok (upto C V fn l)) /\ selects C V (fun e => overlap C lt (fst e) q) s l).
Proof.
  intros Hc Ho HI. rewrite inserts_app in HI. apply Forall_app in Ho. destruct Ho as (Ho0 & Ho1).
  assert (T0 : tree_ops C V (ops0 ++ [PSave]) = tree_ops C V ops0) by (rewrite tree_ops_app; apply app_nil_r).
  destruct (prun_ok (ops0 ++ [PSave]) false 0 (empty C c0 V Dims Hints) MNone [] (inv_empty C lt c0 V Dims MaxItems Hints)) as (t1 & f1 & s1 & xs & R1 & I1 & S1).
  { intros Z; discriminate Z. }
  { apply careful_app; auto. }
  { rewrite T0. exact Ho0. }
  { rewrite T0. cbn [Nat.add]. lia. }
  assert (F1 := save_file _ _ _ _ _ R1). rewrite T0 in I1. cbn [Nat.add] in I1.
  destruct (prun_ok (map POp ops1) true _ t1 f1 s1 I1) as (t2 & f2 & s2 & ys & R2 & I2 & S2).
  { intros _. exact F1. }
  { apply careful_ops. }
  { rewrite tree_ops_ops. exact Ho1. }
  { rewrite tree_ops_ops. exact HI. }
  assert (F2 := ops_file _ _ _ _ _ _ R2).
  exists t1, f1, xs, t2, f2, ys, s2. split; [exact R1|]. split; [exact R2|]. split; [eapply psruns_app; eauto|].
  intros Hr g. subst f2 f1. eexists. split; [reflexivity|]. intros q fn Hq.
  destruct (deep_ok _ _ _ (load C V (meta_of C V t1) (nodes _ _ t2 ++ g)) q fn (inv_more _ _ _ g I2) eq_refl) as (l & H & HS).
  { cbn. congruence. }
  { exact Hq. }
  exists l, (height _ _ t2). split; [|exact HS]. intros n Hn. apply H. exact Hn.
Qed.
End P.
