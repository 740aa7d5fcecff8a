(* The overloads of deserialize agree. *)
From Verif Require Import Base Bytes HeaderModel HeaderSpec HashModel SerialModel SerialSpec ConvModel ConvSpec ConvTop EntryModel.
Local Open Scope Z_scope.

Lemma mode_lor m c fl : N.land c fl = 0%N -> is_mode_enabled (N.lor m c) fl = is_mode_enabled m fl.
Proof. intros H. unfold is_mode_enabled. rewrite N.land_lor_distr_l, H, N.lor_0_r. reflexivity. Qed.
Lemma lor_const m fl : In fl [UNCHECKED; WITH_VERSION; WITH_INTEGRITY; SERIALIZE_BIG_ENDIAN; CAST; WITH_STATIC_VERSION; SKIP_INTEGRITY; SKIP_VERSION] ->
  is_mode_enabled (N.lor m CONST_) fl = is_mode_enabled m fl.
Proof. intros H. apply mode_lor. cbn [In] in H. repeat (destruct H as [<-|H]; [reflexivity|]). destruct H. Qed.

Section S.
Variable env : list ty.
Variables (hb strict : bool) (th : N).

Lemma to_const raw f t B b m to : deserialize_to env hb raw strict th f t B b (N.lor m CONST_) to = deserialize_to env hb raw strict th f t B b m to.
Proof.
  unfold deserialize_to, check, hdr_read, data_start, integrity_start. rewrite !lor_const by (cbn; tauto). reflexivity.
Qed.
Lemma to_convert raw f t B b m : is_mode_enabled m CAST = false ->
  deserialize_to env hb raw strict th f t B b m (B + Z.of_nat (length b)) = convert env hb raw strict m th f t B b.
Proof.
  intros H. unfold deserialize_to, convert. rewrite H.
  replace (B + Z.of_nat (length b) - B) with (Z.of_nat (length b)) by lia.
  rewrite Nat2Z.id, firstn_all. unfold check at 2.
  destruct (Z.ltb_spec (Z.of_nat (data_start m)) (Z.of_nat (length b))) as [L|L].
  - cbn [verify bind]. unfold check. reflexivity.
  - replace (data_start m <? length b)%nat with false by (symmetry; apply Nat.ltb_ge; lia). reflexivity.
Qed.

(* nothing is written if the byte order is the host's and pointers are offsets *)
Lemma swap_nat m a w : swap hb hb m a w = Ok m.
Proof. unfold swap. rewrite Bool.eqb_reflx. reflexivity. Qed.
Section C.
Variables (chk : bool) (from to : Z).
Notation CV := (conv env hb hb false chk strict from to).
Lemma slot_nat m s T m' : conv_slot hb hb false chk strict from to m s T = Ok m' -> m' = m.
Proof.
  unfold conv_slot, conv_ptr. rewrite swap_nat. destruct (when _ _); try discriminate. cbn [bind].
  destruct (when _ _); try discriminate. cbn [bind]. congruence.
Qed.
Lemma foldM_nat {X} (g : X -> mem -> res mem) l : (forall x m m', g x m = Ok m' -> m' = m) ->
  forall m m', foldM g l m = Ok m' -> m' = m.
Proof.
  intros H. induction l as [|x l IH]; cbn [foldM]; intros m m' E; [congruence|].
  destruct (g x m) as [m1| | |] eqn:G; try discriminate. cbn [bind] in E. apply H in G. subst m1. auto.
Qed.
Lemma hloop_nat (g : nat -> mem -> res mem) c cap k : (forall x m m', g x m = Ok m' -> m' = m) ->
  forall i m m', hloop g c cap k i m = Ok m' -> m' = m.
Proof.
  intros H. induction k as [|k IH]; cbn [hloop]; intros i m m' E; [discriminate|].
  destruct (i =? cap)%nat; [congruence|].
  destruct (g i m) as [m1| | |] eqn:G; try discriminate. cbn [bind] in E. apply H in G. subst m1.
  destruct (ctrl_at m c cap); try discriminate. cbn [bind] in E. destruct (next_ _ _ _ _); try discriminate. cbn [bind] in E. eauto.
Qed.
Ltac bnd E := match type of E with bind ?r _ = Ok _ => let G := fresh "G" in destruct r eqn:G; try discriminate E; cbn [bind] in E end.
Ltac mt E := match type of E with (match ?x with _ => _ end) = Ok _ => destruct x end.
Lemma conv_nat f : forall t m a m', CV f t m a = Ok m' -> m' = m.
Proof.
  induction f as [|f IH]; intros t m a m' E; cbn [conv] in E; [discriminate|].
  bnd E. destruct t.
  - rewrite swap_nat in E. congruence.
  - congruence.
  - unfold conv_ptr in E. rewrite swap_nat in E. cbn [bind] in E. bnd E. congruence.
  - eapply foldM_nat; [|exact E]. intros x m1 m2. apply IH.
  - bnd E. mt E; [congruence|]. eauto.
  - bnd E. bnd E. mt E; [eauto|discriminate].
  - bnd E. apply slot_nat in G0. subst. bnd E. bnd E. mt E; [eauto|congruence].
  - bnd E. apply slot_nat in G0. subst. rewrite !swap_nat in E. cbn [bind] in E. rewrite swap_nat in E. cbn [bind] in E.
    bnd E. bnd E. bnd E. mt E.
    + eapply foldM_nat; [|exact E]. intros x m1 m2. apply IH.
    + mt E; congruence.
  - bnd E. match type of E with context [if ?c then _ else _] => destruct c end.
    + destruct (conv_slot hb hb false chk strict from to m (a + 8) (TInt 1)) eqn:G1; try discriminate. apply slot_nat in G1. subst.
      cbn [bind] in E. rewrite swap_nat in E. cbn [bind] in E. bnd E. congruence.
    + cbn [bind] in E. bnd E. congruence.
  - congruence.
  - bnd E. apply slot_nat in G0. subst. bnd E. apply slot_nat in G0. subst. rewrite swap_nat in E. cbn [bind] in E.
    rewrite swap_nat in E. cbn [bind] in E. rewrite swap_nat in E. cbn [bind] in E.
    bnd E. bnd E. bnd E. bnd E. mt E; [|discriminate]. bnd E. bnd E.
    eapply hloop_nat; [|exact E]. intros x m1 m2 E1. cbn beta in E1. mt E1; [eauto|discriminate].
Qed.
End C.
End S.
