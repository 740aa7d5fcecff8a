From Verif Require Import Base OffsetPtrModel OffsetPtrSpec.
Local Open Scope Z_scope.

Lemma i64_ok x : -9223372036854775808 <= x <= 9223372036854775807 -> i64 x = Ok x.
Proof. intros H. unfold i64, in_i64. destruct (_ && _)%bool eqn:E; auto. lia. Qed.

Definition nullable p := 0 <= p <= 9223372036854775807.

Lemma roundtrip this p : user_address this -> nullable p ->
  exists o, ptr_to_offset this p = Ok o /\ get this o = Ok p /\ to_bool o = negb (p =? 0).
Proof.
  unfold user_address, nullable. intros Ht Hp. unfold ptr_to_offset, get, to_bool.
  destruct (Z.eqb_spec p 0) as [->|Hn].
  - eexists. split; [reflexivity|]. split; reflexivity.
  - rewrite i64_ok by lia. eexists. split; [reflexivity|].
    destruct (Z.eqb_spec (p - this) NULLPTR_OFFSET) as [E|_]; [unfold NULLPTR_OFFSET in E; lia|].
    cbn [negb]. split; auto. rewrite i64_ok by lia. f_equal. lia.
Qed.

Section R.
Variable sz : Z.
Variable at_ : nat -> Z.
Hypothesis At : forall i, user_address (at_ i).

Definition R (st raw : list Z) : Prop :=
  length st = length raw /\
  forall i o p, nth_error st i = Some o -> nth_error raw i = Some p ->
    nullable p /\ get (at_ i) o = Ok p /\ to_bool o = negb (p =? 0).

Lemma R_get st raw i p : R st raw -> rd raw i = Ok p ->
  get_cell at_ st i = Ok p /\ nullable p /\ exists o, cell st i = Ok o /\ to_bool o = negb (p =? 0).
Proof.
  intros [HL H] E. unfold rd in E. unfold get_cell, cell.
  destruct (nth_error raw i) eqn:Er; inversion E; subst.
  destruct (nth_error st i) eqn:Es.
  - destruct (H _ _ _ Es Er) as (H1 & H2 & H3). cbn [bind]. eauto.
  - apply nth_error_None in Es. assert (X : nth_error raw i <> None) by congruence.
    apply nth_error_Some in X. lia.
Qed.

Lemma R_set st raw i p raw' : R st raw -> nullable p -> wr raw i p = Ok raw' ->
  exists st', set_cell at_ st i p = Ok st' /\ R st' raw'.
Proof.
  intros HR Hp E. unfold wr in E. destruct (rd raw i) eqn:Er; cbn [bind] in E; try discriminate.
  destruct (R_get _ _ _ _ HR Er) as (_ & _ & o & Ho & _).
  destruct (roundtrip (at_ i) p (At i) Hp) as (o' & H1 & H2 & H3).
  inversion E; subst. unfold set_cell. rewrite Ho, H1. cbn [bind].
  eexists. split; [reflexivity|]. destruct HR as [HL H]. split; [now rewrite !upd_length|].
  intros k o1 p1. rewrite !nth_error_upd.
  unfold cell in Ho. destruct (nth_error st i) eqn:Es; try discriminate.
  assert (X : (i < length st)%nat) by (apply nth_error_Some; congruence).
  destruct (Nat.eqb_spec i k) as [<-|Hk]; cbn [andb].
  - destruct (Nat.ltb_spec i (length st)); [|lia]. destruct (Nat.ltb_spec i (length raw)); [|lia].
    intros Q1 Q2. injection Q1 as <-. injection Q2 as <-. auto.
  - apply H.
Qed.

Lemma ptr_add_nullable p k q : ptr_add sz p k = Ok q -> nullable q.
Proof.
  unfold ptr_add. destruct (p =? 0); [discriminate|].
  destruct (_ && _)%bool eqn:E; [|discriminate]. intros Q; inversion Q; subst. unfold nullable. lia.
Qed.

Ltac inv H := inversion H; subst; clear H.
Ltac brk H := let E := fresh "E" in apply bind_ok in H as (? & E & H).

Lemma step_refines st raw o raw' x : R st raw -> raw_step sz raw o = Ok (raw', x) ->
  exists st', step sz at_ st o = Ok (st', x) /\ R st' raw'.
Proof.
  intros HR H. destruct o; cbn [raw_step step] in *.
  - brk H. inv H. assert (Hn : nullable 0) by (unfold nullable; lia).
    destruct (R_set _ _ _ 0 _ HR Hn E) as (st' & S & HR').
    unfold set_cell in S. destruct (cell st i); cbn [bind] in *; try discriminate.
    cbn in S. inv S. eauto.
  - destruct (user_or_null p) eqn:U; [|discriminate]. brk H. inv H.
    destruct (R_set _ _ _ p _ HR ltac:(unfold nullable, user_or_null in *; lia) E) as (st' & S & HR').
    rewrite S. cbn [bind]. eauto.
  - brk H. brk H. inv H. destruct (R_get _ _ _ _ HR E) as (G & Hn & _).
    destruct (R_set _ _ _ _ _ HR Hn E0) as (st' & S & HR'). rewrite G. cbn [bind]. rewrite S. cbn. eauto.
  - brk H. brk H. inv H. destruct (R_get _ _ _ _ HR E) as (G & Hn & _).
    destruct (R_set _ _ _ _ _ HR Hn E0) as (st' & S & HR'). rewrite G. cbn [bind]. rewrite S. cbn. eauto.
  - brk H. brk H. brk H. inv H. destruct (R_get _ _ _ _ HR E) as (G & Hn & _).
    destruct (R_set _ _ _ _ _ HR (ptr_add_nullable _ _ _ E0) E1) as (st' & S & HR').
    rewrite G. cbn [bind]. rewrite E0. cbn [bind]. rewrite S. cbn. eauto.
  - brk H. brk H. brk H. inv H. destruct (R_get _ _ _ _ HR E) as (G & Hn & _).
    destruct (R_set _ _ _ _ _ HR (ptr_add_nullable _ _ _ E0) E1) as (st' & S & HR').
    rewrite G. cbn [bind]. rewrite E0. cbn [bind]. rewrite S. cbn. eauto.
  - brk H. inv H. destruct (R_get _ _ _ _ HR E) as (G & _). rewrite G. cbn. eauto.
  - brk H. inv H. destruct (R_get _ _ _ _ HR E) as (_ & _ & o & Ho & Hb).
    rewrite Ho. cbn [bind]. rewrite Hb. eauto.
  - brk H. brk H. inv H. destruct (R_get _ _ _ _ HR E) as (G & _). rewrite G. cbn [bind].
    rewrite E0. cbn. eauto.
  - brk H. brk H. inv H. destruct (R_get _ _ _ _ HR E) as (G & _). rewrite G. cbn [bind].
    rewrite E0. cbn. eauto.
  - brk H. brk H. inv H. destruct (R_get _ _ _ _ HR E) as (G & _).
    destruct (R_get _ _ _ _ HR E0) as (G' & _). rewrite G. cbn [bind]. rewrite G'. cbn. eauto.
  - brk H. brk H. inv H. destruct (R_get _ _ _ _ HR E) as (G & _).
    destruct (R_get _ _ _ _ HR E0) as (G' & _). rewrite G. cbn [bind]. rewrite G'. cbn. eauto.
Qed.

Lemma run_refines ops : forall st raw raw' xs, R st raw -> raw_run sz raw ops = Ok (raw', xs) ->
  exists st', run sz at_ st ops = Ok (st', xs) /\ R st' raw'.
Proof.
  induction ops as [|o ops IH]; intros st raw raw' xs HR H; cbn [raw_run run] in *.
  - inv H. eauto.
  - apply bind_ok in H as ([raw1 x] & E1 & H). apply bind_ok in H as ([raw2 xs2] & E2 & H). inv H.
    destruct (step_refines _ _ _ _ _ HR E1) as (st1 & S1 & HR1).
    destruct (IH _ _ _ _ HR1 E2) as (st2 & S2 & HR2).
    rewrite S1. cbn [bind]. rewrite S2. cbn [bind]. eauto.
Qed.

Lemma R_init n : R (repeat NULLPTR_OFFSET n) (repeat 0 n).
Proof.
  split; [now rewrite !repeat_length|]. intros i o p H1 H2.
  apply nth_error_In, repeat_spec in H1. apply nth_error_In, repeat_spec in H2. subst.
  repeat split; unfold nullable; lia.
Qed.
End R.

Lemma like_raw_pointers sz at_ n ops raw' xs : (forall i, user_address (at_ i)) ->
  raw_run sz (repeat 0 n) ops = Ok (raw', xs) ->
  exists st', run sz at_ (repeat NULLPTR_OFFSET n) ops = Ok (st', xs) /\ length st' = length raw' /\
    forall i p, nth_error raw' i = Some p -> get_cell at_ st' i = Ok p.
Proof.
  intros At H. destruct (run_refines sz at_ At ops _ _ _ _ (R_init at_ At n) H) as (st' & S & HR).
  exists st'. repeat split; auto; [apply HR|]. intros i p E.
  assert (E' : rd raw' i = Ok p) by (unfold rd; now rewrite E).
  eapply R_get; eauto.
Qed.

Lemma relocate this off d p : get this off = Ok p -> p <> 0 \/ off = NULLPTR_OFFSET ->
  in_i64 (p + d) = true ->
  get (this + d) off = Ok (if off =? NULLPTR_OFFSET then 0 else p + d).
Proof.
  unfold get. destruct (off =? NULLPTR_OFFSET) eqn:E; auto. intros H _ Hi.
  unfold i64 in *. destruct (in_i64 (this + off)); inversion H; subst.
  replace (this + d + off) with (this + off + d) by lia. now rewrite Hi.
Qed.
