(* The checked deserializer accepts exactly the graphs that can be read inside the buffer. *)
From Verif Require Import Base Bytes FnvProofs ArithModel ArithSpec ArithProofs HeaderModel HashModel HashBits HashInv SerialModel SerialSpec
  SerialMem SerialPost SerialSer.
Local Open Scope Z_scope.

(* ---- hash table control bytes ---- *)
Definition ctrl_tab (size cap growth : N) (ctrl : list N) : bool :=
  match check_ctrl ctrl (Z.of_N size) (Z.of_N cap) (Z.of_N growth) with Ok _ => true | _ => false end.

Lemma land_le a b : (N.land a b <= b)%N.
Proof.
  destruct (N.le_gt_cases (N.land a b) b) as [H|H]; [exact H|].
  pose proof (N.add_nocarry_lxor (N.land a b) (N.ldiff b a)) as K.
  assert (E : N.land (N.land a b) (N.ldiff b a) = 0%N).
  { apply N.bits_inj. intros i. rewrite !N.land_spec, N.ldiff_spec, N.bits_0. now destruct (N.testbit a i), (N.testbit b i). }
  specialize (K E). assert (E2 : N.lxor (N.land a b) (N.ldiff b a) = b).
  { apply N.bits_inj. intros i. rewrite N.lxor_spec, N.land_spec, N.ldiff_spec. now destruct (N.testbit a i), (N.testbit b i). }
  rewrite E2 in K. lia.
Qed.
Lemma before_le i cap : (before i cap <= cap)%nat.
Proof. unfold before. pose proof (land_le (sub64 (N.of_nat i) 8) (N.of_nat cap)). lia. Qed.

Lemma verify_true b : verify b = Ok tt -> b = true.
Proof. now destruct b. Qed.

Lemma count_cons p c l : count p (c :: l) = ((if p c then 1 else 0) + count p l)%N.
Proof. unfold count. cbn [filter]. destruct (p c); cbn [length]; lia. Qed.
Lemma count_all l :
  (count is_empty l + count is_full l + count is_deleted l)%N = N.of_nat (length l) ->
  Forall (fun c => is_empty c || is_full c || is_deleted c = true) l.
Proof.
  assert (P : forall l, (count is_empty l + count is_full l + count is_deleted l <= N.of_nat (length l))%N).
  { clear. induction l as [|c l IH]; [cbn; lia|]. rewrite !count_cons. cbn [length].
    assert (is_empty c = true -> is_full c = false /\ is_deleted c = false).
    { unfold is_empty, is_full, is_deleted, EMPTY, DELETED. intros. lia. }
    assert (is_full c = true -> is_deleted c = false).
    { unfold is_full, is_deleted, DELETED. intros. lia. }
    destruct (is_empty c), (is_full c), (is_deleted c); try lia; intuition discriminate. }
  induction l as [|c l IH]; [constructor|]. rewrite !count_cons. cbn [length]. intros H. specialize (P l).
  assert (is_empty c = true -> is_full c = false /\ is_deleted c = false).
  { unfold is_empty, is_full, is_deleted, EMPTY, DELETED. intros. lia. }
  assert (is_full c = true -> is_deleted c = false).
  { unfold is_full, is_deleted, DELETED. intros. lia. }
  constructor.
  - destruct (is_empty c), (is_full c), (is_deleted c); try reflexivity; lia.
  - apply IH. destruct (is_empty c), (is_full c), (is_deleted c); try lia; intuition discriminate.
Qed.

Section Ctrl.
Variables (ctrl : list N) (cap : nat).
Hypothesis Hlen : length ctrl = (cap + 9)%nat.
Let T := Tbl unit unit [] ctrl 0 cap 0.

Lemma group_ok o : (o + 8 <= cap + 9)%nat -> exists g, group ctrl o = Ok g.
Proof. intros H. unfold group. rewrite get_some by (unfold WIDTH; lia). eauto. Qed.
Lemma count_growth_ok l : Forall (fun i => (i < cap)%nat) l -> exists n, count_growth T l = Ok n.
Proof.
  induction l as [|i l IH]; intros H; [now exists 0%N|]. inversion H; subst. destruct (IH H3) as (n & En).
  cbn [count_growth]. destruct (nth_error (t_ctrl unit unit T) i) as [c|] eqn:E.
  - assert (Hw : exists w, (if is_empty c then was_never_full unit unit T i else Ok false) = Ok w).
    { destruct (is_empty c); [|eauto]. unfold was_never_full. cbn [T t_ctrl t_cap].
      destruct (group_ok i ltac:(lia)) as (g & ->). cbn [bind].
      destruct (group_ok (before i cap)) as (g' & ->); [pose proof (before_le i cap); lia|]. cbn [bind]. eauto. }
    destruct Hw as (w & ->). cbn [bind]. rewrite En. cbn [bind]. eauto.
  - apply nth_error_None in E. cbn in E. lia.
Qed.

Lemma check_ctrl_cases size growth :
  check_ctrl ctrl size (Z.of_nat cap) growth = Ok tt \/ check_ctrl ctrl size (Z.of_nat cap) growth = Throw.
Proof.
  unfold check_ctrl. rewrite Nat2Z.id. destruct (nth_error ctrl cap) as [c|] eqn:E.
  2:{ apply nth_error_None in E. lia. }
  assert (V : forall b, verify b = Ok tt \/ verify b = Throw) by (intros []; auto).
  destruct (V (c =? END)%N) as [->| ->]; cbn [bind]; [|auto].
  match goal with |- context [verify ?b] => destruct (V b) as [->| ->]; cbn [bind]; [|auto] end.
  fold T. destruct (count_growth_ok (seq 0 cap)) as (n & ->).
  { apply Forall_forall. intros i Hi. apply in_seq in Hi. lia. }
  cbn [bind].
  match goal with |- context [verify ?b] => destruct (V b) as [->| ->]; cbn [bind]; [|auto] end.
  match goal with |- context [verify ?b] => destruct (V b) as [->| ->]; cbn [bind]; [|auto] end.
  apply V.
Qed.

Lemma check_ctrl_facts size growth : check_ctrl ctrl size (Z.of_nat cap) growth = Ok tt ->
  Forall ctrl_ok ctrl /\ cb ctrl cap = END /\
  forall i, (i < cap)%nat -> is_empty (cb ctrl i) || is_full (cb ctrl i) || is_deleted (cb ctrl i) = true.
Proof.
  unfold check_ctrl. rewrite Nat2Z.id. destruct (nth_error ctrl cap) as [c|] eqn:E; [|discriminate].
  destruct (verify (c =? END)%N) as [[]| | |] eqn:V1; cbn [bind]; try discriminate.
  match goal with |- context [verify ?b] => destruct (verify b) as [[]| | |] eqn:V2; cbn [bind]; try discriminate end.
  fold T. destruct (count_growth T (seq 0 cap)) as [n| | |]; cbn [bind]; try discriminate.
  match goal with |- context [verify ?b] => destruct (verify b) as [[]| | |] eqn:V3; cbn [bind]; try discriminate end.
  match goal with |- context [verify ?b] => destruct (verify b) as [[]| | |] eqn:V4; cbn [bind]; try discriminate end.
  intros _. apply verify_true in V1, V2, V4. clear V3.
  split; [|split].
  - rewrite forallb_forall in V2. apply Forall_forall. intros x Hx. apply V2 in Hx.
    unfold ctrl_ok. unfold is_full, is_empty, is_deleted in Hx. lia.
  - unfold cb. rewrite (nth_error_nth _ _ _ E). lia.
  - assert (HF : Forall (fun c => is_empty c || is_full c || is_deleted c = true) (firstn cap ctrl)).
    { apply count_all. rewrite firstn_length. lia. }
    intros i Hi. rewrite Forall_forall in HF. apply HF.
    replace (cb ctrl i) with (nth i (firstn cap ctrl) 0%N).
    + apply nth_In. rewrite firstn_length. lia.
    + unfold cb. rewrite <- (firstn_skipn cap ctrl) at 2. rewrite app_nth1 by (rewrite firstn_length; lia). reflexivity.
Qed.

Lemma check_ctrl_size size growth : check_ctrl ctrl size (Z.of_nat cap) growth = Ok tt ->
  size = Z.of_N (count is_full (firstn cap ctrl)).
Proof.
  unfold check_ctrl. rewrite Nat2Z.id. destruct (nth_error ctrl cap) as [c|] eqn:E; [|discriminate].
  destruct (verify (c =? END)%N) as [[]| | |] eqn:V1; cbn [bind]; try discriminate.
  match goal with |- context [verify ?b] => destruct (verify b) as [[]| | |] eqn:V2; cbn [bind]; try discriminate end.
  fold T. destruct (count_growth T (seq 0 cap)) as [n| | |]; cbn [bind]; try discriminate.
  match goal with |- context [verify ?b] => destruct (verify b) as [[]| | |] eqn:V3; cbn [bind]; try discriminate end.
  intros _. apply verify_true in V3. lia.
Qed.

Hypothesis Hok : Forall ctrl_ok ctrl.
Hypothesis Hend : cb ctrl cap = END.
Hypothesis Hfront : forall i, (i < cap)%nat -> is_empty (cb ctrl i) || is_full (cb ctrl i) || is_deleted (cb ctrl i) = true.

Lemma skip_ok fuel : forall i, (i <= cap)%nat -> (cap - i < fuel)%nat ->
  exists j, skip unit unit fuel T i = Ok j /\ (i <= j <= cap)%nat /\
    (forall s, (i <= s < j)%nat -> is_full (cb ctrl s) = false) /\
    (j = cap \/ is_full (cb ctrl j) = true).
Proof.
  induction fuel as [|fuel IH]; intros i Hi HF; [lia|]. cbn [skip].
  assert (Er : rd_ctrl unit unit T i = Ok (cb ctrl i)).
  { unfold rd_ctrl. cbn [T t_ctrl]. destruct (nth_error ctrl i) eqn:E.
    - unfold cb. now rewrite (nth_error_nth _ _ _ E).
    - apply nth_error_None in E. lia. }
  rewrite Er. cbn [bind]. destruct (is_empty_or_deleted (cb ctrl i)) eqn:Q.
  - cbn [T t_ctrl]. rewrite (group_eq ctrl i) by lia. cbn [bind].
    destruct (HashInv.count_spec ctrl i Hok ltac:(lia)) as (A1 & A2 & A3).
    set (n := count_leading_empty_or_deleted _) in *.
    assert (N1 : (1 <= n)%nat).
    { destruct (Nat.eq_dec n 0) as [E|]; [|lia]. specialize (A3 ltac:(lia)). rewrite E, Nat.add_0_r in A3. congruence. }
    assert (N2 : (i + n <= cap)%nat).
    { destruct (Nat.le_gt_cases (i + n) cap) as [|G]; auto. specialize (A2 (cap - i)%nat ltac:(lia)).
      replace (i + (cap - i))%nat with cap in A2 by lia. rewrite Hend in A2. discriminate. }
    destruct (IH (i + n)%nat N2 ltac:(lia)) as (j & E & Hj & P & R). exists j. split; [exact E|]. split; [lia|]. split; [|exact R].
    intros s Hs. destruct (Nat.lt_ge_cases s (i + n)) as [L|L]; [|apply P; lia].
    specialize (A2 (s - i)%nat ltac:(lia)). replace (i + (s - i))%nat with s in A2 by lia.
    unfold is_empty_or_deleted, is_full in *. lia.
  - exists i. split; [reflexivity|]. split; [lia|]. split; [intros; lia|].
    destruct (Nat.eq_dec i cap) as [|Ne]; [now left|right]. specialize (Hfront i ltac:(lia)).
    unfold is_empty_or_deleted, is_empty, is_full, is_deleted, EMPTY, DELETED, END in *. lia.
Qed.

Definition full_at (i : nat) : bool := is_full (nth i ctrl EMPTY).
Lemma full_cb i : (i < cap + 9)%nat -> full_at i = is_full (cb ctrl i).
Proof. intros H. unfold full_at, cb. f_equal. apply nth_indep. lia. Qed.
Lemma filter_none l : (forall s, In s l -> full_at s = false) -> filter full_at l = [].
Proof.
  induction l as [|x l IH]; intros H; [reflexivity|]. cbn. rewrite (H x) by now left. apply IH. intros. apply H. now right.
Qed.
Lemma filter_jump i j : (i <= j <= cap)%nat -> (forall s, (i <= s < j)%nat -> is_full (cb ctrl s) = false) ->
  filter full_at (seq i (cap - i)) = filter full_at (seq j (cap - j)).
Proof.
  intros H P. replace (cap - i)%nat with ((j - i) + (cap - j))%nat by lia. rewrite seq_app, filter_app.
  replace (i + (j - i))%nat with j by lia. rewrite filter_none; [reflexivity|].
  intros s Hs. apply in_seq in Hs. rewrite full_cb by lia. apply P. lia.
Qed.
Lemma slots_from_ok fuel : forall i, (i <= cap)%nat -> (cap - i < fuel)%nat -> (i = cap \/ is_full (cb ctrl i) = true) ->
  slots_from fuel T i = Ok (filter full_at (seq i (cap - i))).
Proof.
  induction fuel as [|fuel IH]; intros i Hi HF Hc; [lia|]. cbn [slots_from T t_cap]. fold T.
  destruct (Nat.eqb_spec i cap) as [->|Ne].
  - rewrite Nat.sub_diag. reflexivity.
  - destruct Hc as [Hc|Hc]; [lia|]. unfold next_. cbn [T t_cap]. fold T.
    destruct (skip_ok (S cap) (i + 1)%nat ltac:(lia) ltac:(lia)) as (j & -> & Hj & P & R). cbn [bind].
    rewrite (IH j ltac:(lia) ltac:(lia) R). cbn [bind].
    replace (cap - i)%nat with (S (cap - (i + 1)))%nat by lia. cbn [seq filter]. rewrite full_cb, Hc by lia.
    do 2 f_equal. replace (S i) with (i + 1)%nat by lia. symmetry. apply filter_jump; [lia|exact P].
Qed.
Lemma slots_ok : slots T = Ok (filter full_at (seq 0 cap)).
Proof.
  unfold slots, begin_. cbn [T t_cap]. fold T.
  destruct (skip_ok (S cap) 0%nat ltac:(lia) ltac:(lia)) as (j & -> & Hj & P & R). cbn [bind].
  rewrite (slots_from_ok (S cap) j ltac:(lia) ltac:(lia) R). f_equal. symmetry.
  replace cap with (cap - 0)%nat at 1 by lia. apply filter_jump; [lia|exact P].
Qed.
End Ctrl.

(* ---- the deserializer ---- *)
Lemma in_i64 z : in_ity ty_i64 z <-> - 2 ^ 63 <= z < 2 ^ 63.
Proof. unfold in_ity. cbn. lia. Qed.
Section D.
Variables (env : list ty) (A : Z).
Hypothesis Hwf : wf_env A env.
Variable B : Z.
Variable b : list N.
Hypothesis HB : 0 < B < 2 ^ 62.
Hypothesis Hlen : Z.of_nat (length b) < 2 ^ 62.
Hypothesis Hbytes : bytes_ok b.
Variables be strict_i64 : bool.
Let m := at_base B b.
Let hi := B + Z.of_nat (length b).
Let R := plain be m true (Some (B, hi)) ctrl_tab.

Lemma rd_ok a n : B <= a -> a + Z.of_nat n <= hi -> exists l, rdn m a n = Some l /\ bytes_ok l /\ length l = n.
Proof.
  revert a. induction n as [|n IH]; intros a H1 H2; [exists []; repeat split; constructor|].
  destruct (IH (a + 1) ltac:(lia) ltac:(lia)) as (l & El & Bl & Ll). cbn [rdn].
  assert (Hm : exists x, m a = Some x /\ (x < 256)%N).
  { unfold m, at_base. replace (a <? B) with false by lia.
    destruct (nth_error b (Z.to_nat (a - B))) as [x|] eqn:E.
    - exists x. split; [reflexivity|]. apply nth_error_In in E. unfold bytes_ok in Hbytes. rewrite Forall_forall in Hbytes. now apply Hbytes.
    - apply nth_error_None in E. unfold hi in H2. lia. }
  destruct Hm as (x & -> & Hx). rewrite El. exists (x :: l). repeat split; [now constructor|cbn; lia].
Qed.
Lemma rint_ok a w : B <= a -> a + Z.of_nat w <= hi ->
  exists x, rint R a w = Some x /\ dint be m a w = Ok (Z.of_N x) /\ (x < 256 ^ N.of_nat w)%N.
Proof.
  intros H1 H2. destruct (rd_ok a w H1 H2) as (l & El & Bl & Ll). exists (to_int be l).
  unfold rint, dint, dbytes. cbn [R plain r_mem r_be]. rewrite El. repeat split. rewrite <- Ll. now apply to_int_bound.
Qed.
Lemma rptr_ok a : B <= a -> a + 8 <= hi -> exists p, rptr R true a = Some p /\
  (dptr be strict_i64 m a = Ok p \/
   dptr be strict_i64 m a = UB /\ strict_i64 = true /\ exists q, p = Some q /\ q < 0) /\
  (forall size al, 0 <= size < 2 ^ 64 -> 0 < al ->
    check_optr be strict_i64 m B hi a size al =
    match dptr be strict_i64 m a with
    | UB => UB
    | _ => if match p with None => true | Some q => inside R q size al end then Ok tt else Throw
    end) /\ match p with Some q => q <> 0 /\ - 2 ^ 63 <= q < 2 ^ 63 | None => True end.
Proof.
  intros H1 H2. destruct (rd_ok a 8 H1 H2) as (l & El & Bl & Ll).
  pose proof (to_int_bound be l Bl) as Hx. rewrite Ll in Hx. change (256 ^ N.of_nat 8)%N with 18446744073709551616%N in Hx.
  set (x := to_int be l) in *.
  exists (ptr_of true a x). unfold rptr, rint. cbn [R plain r_mem r_be]. rewrite El. fold x. split; [reflexivity|].
  assert (Ha : 0 < a < 2 ^ 63). { unfold hi in *. lia. }
  assert (Hoff : - 2 ^ 63 <= z_of_u x < 2 ^ 63).
  { apply z_of_u_range. exact Hx. }
  set (off := z_of_u x) in *.
  assert (Hwrap : forall z, - 2 ^ 63 <= z < 2 ^ 64 -> wrap_i64 z = if z <? 2 ^ 63 then z else z - 2 ^ 64).
  { intros z Hz. unfold wrap_i64, z_of_u, u_of_z, Z64.
    assert (Em : z mod 18446744073709551616 = if z <? 0 then z + 18446744073709551616 else z).
    { destruct (z <? 0) eqn:E0.
      - symmetry. apply Z.mod_unique_pos with (q := -1); lia.
      - apply Z.mod_small. lia. }
    rewrite Em. destruct (z <? 0) eqn:E0; destruct (z <? 2 ^ 63) eqn:E1; try lia;
      match goal with |- (if ?c then _ else _) = _ => destruct c eqn:E2 end; lia. }
  assert (Hp : ptr_of true a x = if off =? NULLPTR_OFFSET then None else
                 if a + off =? 0 then None else Some (if a + off <? 2 ^ 63 then a + off else a + off - 2 ^ 64)).
  { unfold ptr_of. fold off. destruct (off =? NULLPTR_OFFSET); [reflexivity|].
    rewrite Hwrap by lia. destruct (a + off <? 2 ^ 63) eqn:E1.
    - reflexivity.
    - replace (a + off =? 0) with false by lia. now replace (a + off - 2 ^ 64 =? 0) with false by lia. }
  assert (Hd : dptr be strict_i64 m a =
    if strict_i64 && negb (off =? NULLPTR_OFFSET) && negb (a + off <? 2 ^ 63) then UB else Ok (ptr_of true a x)).
  { unfold dptr, dbytes. rewrite El. cbn [bind]. fold x off. unfold NULLPTR_OFFSET.
    replace (-9223372036854775808 <=? a + off) with true by lia. cbn [andb].
    change (- -9223372036854775808) with (2 ^ 63). reflexivity. }
  rewrite Hd. repeat split.
  - destruct (_ && _ && _) eqn:E; [|now left]. right. split; [reflexivity|].
    destruct strict_i64; [|discriminate]. split; [reflexivity|]. rewrite Hp.
    destruct (off =? NULLPTR_OFFSET); [discriminate|]. cbn in E. replace (a + off =? 0) with false by lia.
    replace (a + off <? 2 ^ 63) with false by lia. eexists. split; [reflexivity|]. lia.
  - intros size al Hs Hal. unfold check_optr. rewrite Hd.
    destruct (_ && _ && _) eqn:E; cbn [bind]; [reflexivity|].
    rewrite Hp. destruct (off =? NULLPTR_OFFSET) eqn:En; [reflexivity|]. destruct (a + off =? 0) eqn:E0; [reflexivity|].
    unfold dbytes. rewrite El. cbn [bind]. fold x off.
    assert (Hlast : forall p, - 2 ^ 63 <= p < 2 ^ 63 -> p <> 0 ->
      check_raw B hi p size al = if inside R p size al then Ok tt else Throw).
    { intros p Hp' Hp0. unfold check_raw. replace (p =? 0) with false by lia. replace (hi =? 0) with false by (unfold hi; lia).
      cbn [orb]. unfold inside. cbn [R plain r_ck].
      destruct (B <=? p) eqn:Eb; cbn [verify bind andb]; [|reflexivity].
      assert (Hz : z_of_u (Z.to_N size) = if size <? 2 ^ 63 then size else size - 2 ^ 64).
      { unfold z_of_u, Z64. destruct (size <? 2 ^ 63) eqn:Ez;
        match goal with |- (if ?c then _ else _) = _ => destruct c eqn:E2 end; lia. }
      rewrite Hz. cbn [checked_addition].
      destruct (add_if_ok_spec ty_i64 p (if size <? 2 ^ 63 then size else size - 2 ^ 64)) as [[-> Hi]|[-> Hi]].
      - apply in_i64. lia.
      - apply in_i64. destruct (size <? 2 ^ 63) eqn:Ez; lia.
      - cbn [bind]. destruct (size <? 2 ^ 63) eqn:Ez.
        + destruct (p + size <=? hi) eqn:Eh; cbn [verify bind andb]; [|reflexivity].
          replace (size <? 9223372036854775807) with true by (unfold hi in *; lia). cbn [verify bind].
          destruct (p mod al =? 0); reflexivity.
        + replace (p + size <=? hi) with false by (unfold hi in *; lia). cbn [andb].
          replace (size <? 9223372036854775807) with false by lia.
          destruct (p + (size - 2 ^ 64) <=? hi); reflexivity.
      - cbn [bind]. replace (p + size <=? hi) with false; [reflexivity|].
        rewrite in_i64 in Hi. destruct (size <? 2 ^ 63) eqn:Ez; unfold hi in *; lia. }
    cbn [checked_addition].
    destruct (add_if_ok_spec ty_i64 off a) as [[-> Hi]|[-> Hi]].
    + apply in_i64. lia.
    + apply in_i64. lia.
    + cbn [bind]. rewrite in_i64 in Hi. replace (a + off <? 2 ^ 63) with true by lia. apply Hlast; lia.
    + cbn [bind]. rewrite in_i64 in Hi. replace (a + off <? 2 ^ 63) with false by lia.
      unfold inside. cbn [R plain r_ck]. now replace (B <=? a + off - 2 ^ 64) with false by lia.
  - rewrite Hp. destruct (off =? NULLPTR_OFFSET); [exact I|]. destruct (a + off =? 0) eqn:E0; [exact I|].
    destruct (a + off <? 2 ^ 63) eqn:E1; lia.
Qed.

Lemma check_raw_ok p size al : - 2 ^ 63 <= p < 2 ^ 63 -> p <> 0 -> 0 <= size < 2 ^ 63 -> 0 < al ->
  check_raw B hi p size al = if inside R p size al then Ok tt else Throw.
Proof.
  intros Hp' Hp0 Hs Hal. unfold check_raw. replace (p =? 0) with false by lia. replace (hi =? 0) with false by (unfold hi; lia).
  cbn [orb]. unfold inside. cbn [R plain r_ck].
  destruct (B <=? p) eqn:Eb; cbn [verify bind andb]; [|reflexivity].
  assert (Hz : z_of_u (Z.to_N size) = size).
  { unfold z_of_u, Z64.
    match goal with |- (if ?c then _ else _) = _ => destruct c eqn:E2 end; lia. }
  rewrite Hz. cbn [checked_addition].
  destruct (add_if_ok_spec ty_i64 p size) as [[-> Hi]|[-> Hi]].
  - apply in_i64. lia.
  - apply in_i64. lia.
  - cbn [bind]. destruct (p + size <=? hi) eqn:Eh; cbn [verify bind andb]; [|reflexivity].
    replace (size <? 9223372036854775807) with true by (unfold hi in *; lia). cbn [verify bind].
    destruct (p mod al =? 0); reflexivity.
  - cbn [bind]. replace (p + size <=? hi) with false; [reflexivity|].
    rewrite in_i64 in Hi. unfold hi in *. lia.
Qed.

(* agreement of a check and a reading *)
Definition agrees {X} (cf : Prop) (r : res unit) (d : option X) : Prop :=
  match r with
  | Ok _ => cf -> exists x, d = Some x
  | UB => strict_i64 = true /\ d = None
  | _ => d = None
  end.
Lemma agrees_forM {I X} (cf : I -> Prop) (g : I -> res unit) (h : I -> option (X * list ev)) l :
  (forall i, In i l -> agrees (cf i) (g i) (h i)) -> agrees (Forall cf l) (forM g l) (mapM h l).
Proof.
  induction l as [|i l IH]; intros H; cbn [forM mapM]; [intros _; eauto|].
  pose proof (H i (or_introl eq_refl)) as Hi. specialize (IH (fun j Hj => H j (or_intror Hj))).
  destruct (g i) as [u| | |]; cbn [bind agrees] in *.
  - destruct (forM g l); cbn [agrees] in *.
    + intros Hc. inversion Hc; subst. destruct (Hi ltac:(assumption)) as ([x tx] & ->). destruct (IH ltac:(assumption)) as ([y ty] & ->). eauto.
    + rewrite IH. destruct (h i) as [[? ?]|]; auto.
    + destruct IH as [? ->]. destruct (h i) as [[? ?]|]; auto.
    + rewrite IH. destruct (h i) as [[? ?]|]; auto.
  - now rewrite Hi.
  - destruct Hi as [? ->]. auto.
  - now rewrite Hi.
Qed.
Lemma agrees_slots {I X} (cf : Prop) (p : I -> bool) (g : I -> res unit) (h : I -> option (X * list ev)) l :
  (forall i, In i l -> p i = true -> agrees cf (g i) (h i)) ->
  agrees cf (forM g (filter p l))
    (mapM (fun i => if p i then let? (v, tr) := h i in Some (Some v, tr) else Some (None, [])) l).
Proof.
  induction l as [|i l IH]; intros H; cbn [filter mapM]; [intros _; eauto|].
  pose proof (H i (or_introl eq_refl)) as Hi. specialize (IH (fun j Hj => H j (or_intror Hj))).
  destruct (p i); cbn [forM].
  - specialize (Hi eq_refl). destruct (g i) as [u| | |]; cbn [bind agrees] in *.
    + destruct (forM g (filter p l)); cbn [agrees] in *.
      * intros Hc. destruct (Hi Hc) as ([x tx] & ->). destruct (IH Hc) as ([y ty] & ->). eauto.
      * rewrite IH. destruct (h i) as [[? ?]|]; auto.
      * destruct IH as [? ->]. destruct (h i) as [[? ?]|]; auto.
      * rewrite IH. destruct (h i) as [[? ?]|]; auto.
    + now rewrite Hi.
    + destruct Hi as [? ->]. auto.
    + now rewrite Hi.
  - destruct (forM g (filter p l)); cbn [agrees] in *.
    + intros Hc. destruct (IH Hc) as ([y ty] & ->). eauto.
    + now rewrite IH.
    + destruct IH as [? ->]. auto.
    + now rewrite IH.
Qed.
Lemma agrees_map {X Y} cf r (d : option X) (k : X -> Y) : agrees cf r d -> agrees cf r (let? x := d in Some (k x)).
Proof.
  unfold agrees. destruct r; intros H.
  - intros Hc. destruct (H Hc) as (x & ->). eauto.
  - now rewrite H.
  - destruct H as [? ->]. auto.
  - now rewrite H.
Qed.

Lemma agrees_pair {X Y} (cf cf' : Prop) r (d : option (X * list ev)) (k : X -> list ev -> Y) :
  (cf' -> cf) -> agrees cf r d -> agrees cf' r (match d with Some (x, t) => Some (k x t) | None => None end).
Proof.
  unfold agrees. intros Hc. destruct r; intros H.
  - intros H'. destruct (H (Hc H')) as ([x t] & ->). eauto.
  - now rewrite H.
  - destruct H as [? ->]. auto.
  - now rewrite H.
Qed.
Lemma dec_outside f t q : inside R q (size_of t) (align_of t) = false -> dec env R f t q = None.
Proof. intros H. destruct f; [reflexivity|]. cbn [dec]. rewrite H, andb_false_r. reflexivity. Qed.
Lemma r_ptr_eq a : r_ptr R a = rptr R true a.
Proof. unfold rptr, rint. cbn [R plain r_ptr r_mem r_be]. now destruct (rdn m a 8). Qed.
Lemma inside_iff q n al : inside R q n al = true <-> B <= q /\ q + n <= hi /\ q mod al = 0.
Proof. unfold inside. cbn [R plain r_ck]. lia. Qed.
Lemma outside_iff q n al : inside R q n al = false <-> ~ (B <= q /\ q + n <= hi /\ q mod al = 0).
Proof. rewrite <- inside_iff. now destruct (inside R q n al). Qed.
Lemma zero_at_ok a : B <= a -> a + 1 <= hi -> exists x, dint be m a 1 = Ok (Z.of_N x) /\
  zero_at R a = (if (x =? 0)%N then Some [Rd a 1] else None).
Proof.
  intros H1 H2. destruct (rint_ok a 1 H1 H2) as (x & E1 & E2 & _). exists x. split; [exact E2|].
  unfold zero_at. cbn [R plain r_ck]. fold R. now rewrite E1.
Qed.

Hypothesis Hsz : forall n, size_of (tyof env n) < 2 ^ 62.
Definition addr (a : Z) : Prop := a <> 0 /\ - 2 ^ 63 <= a < 2 ^ 63.
Definition all_free : Prop := forall n, cstr_free (tyof env n).
Lemma in_addr a n : B <= a -> a + n <= hi -> 0 <= n -> addr a.
Proof. unfold addr, hi. lia. Qed.

Notation DS f t a := (deser env be strict_i64 m B hi f t a).
Definition spec f t : Prop := forall a, addr a -> agrees (all_free /\ cstr_free t) (DS f t a) (dec env R f t a).

Lemma bind_throw {X Y} (k : X -> res Y) : bind Throw k = Throw. Proof. reflexivity. Qed.

Section Step.
Variable f : nat.
Hypothesis IH : forall t, wf A t -> size_of t < 2 ^ 62 -> spec f t.

Lemma IHn n : spec f (tyof env n).
Proof. apply IH; [exact (tyof_wf env A Hwf n)|apply Hsz]. Qed.

Lemma d_leaf t a : (t = TStr -> False) ->
  (exists w, t = TInt w \/ t = TRaw w) -> wf A t -> inside R a (size_of t) (align_of t) = true -> a mod align_of t = 0 ->
  exists r, dec env R (S f) t a = Some r.
Proof.
  intros _ (w & Hw) Hwt Hi Hm. cbn [dec]. rewrite Hi. replace (a mod align_of t =? 0) with true by lia. cbn [andb].
  apply inside_iff in Hi. destruct Hw as [-> | ->]; cbn [size_of] in *.
  - destruct (rint_ok a w ltac:(lia) ltac:(lia)) as (x & -> & _). eauto.
  - cbn [R plain r_mem]. destruct (rd_ok a w ltac:(lia) ltac:(lia)) as (l & -> & _). eauto.
Qed.

(* what is known after the bounds check of the object itself *)
Ltac unpack := cbn [deser dec]; intros a Ha.

Lemma step t : wf A t -> size_of t < 2 ^ 62 -> spec (S f) t.
Proof.
  intros Hwt Hst a Ha. pose proof (wf_basic env A Hwf t Hwt) as (Hs0 & Hal0 & _).
  cbn [deser dec]. destruct Ha as [Ha0 Ha1].
  rewrite (check_raw_ok a (size_of t) (align_of t) Ha1 Ha0 ltac:(lia) Hal0).
  destruct (inside R a (size_of t) (align_of t)) eqn:Hin; cbn [bind]; [|rewrite andb_false_r; reflexivity].
  pose proof Hin as Hin'. apply inside_iff in Hin' as (HBa & Hhi & Hmod).
  replace (a mod align_of t =? 0) with true by lia. cbn [andb].
  destruct t; cbn [size_of align_of] in *.
  - (* TInt *) destruct (rint_ok a w ltac:(lia) ltac:(lia)) as (x & -> & _). intros _. eauto.
  - (* TRaw *) cbn [R plain r_mem]. destruct (rd_ok a w ltac:(lia) ltac:(lia)) as (l & -> & _). intros _. eauto.
  - (* TPtr *) rewrite r_ptr_eq. destruct (rptr_ok a ltac:(lia) ltac:(lia)) as (p & -> & Hd & Hc & Hq).
    pose proof (wf_basic env A Hwf _ (tyof_wf env A Hwf n)) as (Hs1 & Hal1 & _).
    rewrite Hc by (pose proof (Hsz n); lia).
    destruct Hd as [->|(-> & Hst' & q & -> & Hq0)].
    + destruct p as [q|]; [destruct (inside R q _ _)|]; cbn [agrees]; eauto.
    + split; [exact Hst'|]. destruct (inside R q _ _) eqn:E; [|reflexivity]. apply inside_iff in E. lia.
  - (* TAgg *) inversion Hwt as [| | |? ? ? Hal Hsp Hdv Hf Hap| | | | | | | ]; subst.
    apply agrees_pair with (cf := Forall (fun ft => all_free /\ cstr_free (snd ft)) fs).
    + intros [H1 H2]. inversion H2; subst. eapply Forall_impl; [|eassumption]. cbv beta. tauto.
    + apply agrees_forM with (cf := fun ft => all_free /\ cstr_free (snd ft)). intros [o t] Hi. cbn [fst snd].
      destruct (Hf o t Hi) as (Hw & Ho & Hos & _). pose proof (wf_basic env A Hwf t Hw) as (? & _).
      apply IH; [exact Hw|lia|]. unfold addr, hi in *. lia.
  - (* TOpt *) inversion Hwt; subst. pose proof (wf_basic env A Hwf t ltac:(assumption)) as (? & _).
    destruct (rint_ok a 1 ltac:(lia) ltac:(lia)) as (x & -> & Hx & _). unfold check_bool. rewrite Hx. cbn [bind].
    destruct (Z.of_N x <=? 1) eqn:E1; cbn [verify bind].
    + destruct (Z.eqb_spec (Z.of_N x) 0) as [E|E].
      * replace (x =? 0)%N with true by lia. intros _. eauto.
      * replace (x =? 0)%N with false by lia. replace (x =? 1)%N with true by lia.
        apply agrees_pair with (cf := all_free /\ cstr_free t).
        -- intros [Hcf1 Hcf2]. inversion Hcf2; subst. auto.
        -- apply IH; [assumption|lia|]. unfold addr, hi in *. lia.
    + replace (x =? 0)%N with false by lia. replace (x =? 1)%N with false by lia. reflexivity.
  - (* TVar *) inversion Hwt as [| | | | |? ? ? ? Hal Hdv Hoff Hsp Hlts Hf| | | | | ]; subst.
    destruct (rint_ok a 1 ltac:(lia) ltac:(lia)) as (x & -> & Hx & _). rewrite Hx. cbn [bind].
    destruct (Z.of_N x <? Z.of_nat (length ts)) eqn:E1; cbn [verify bind].
    + replace (Z.to_nat (Z.of_N x)) with (N.to_nat x) by lia.
      destruct (nth_error ts (N.to_nat x)) as [t|] eqn:E.
      2:{ apply nth_error_None in E. lia. }
      pose proof (nth_error_In _ _ E) as Hi. destruct (Hf t Hi) as (Hw & Hos & _).
      pose proof (wf_basic env A Hwf t Hw) as (? & _).
      apply agrees_pair with (cf := all_free /\ cstr_free t).
      * intros [Hcf1 Hcf2]. inversion Hcf2 as [| | | | |? ? ? ? H10| | | | ]; subst. rewrite Forall_forall in H10. auto.
      * apply IH; [assumption|lia|]. unfold addr, hi in *. lia.
    + destruct (nth_error ts (N.to_nat x)) as [t|] eqn:E; [|reflexivity].
      assert (N.to_nat x < length ts)%nat by (apply nth_error_Some; congruence). lia.
  - (* TUniq *)
    pose proof (wf_basic env A Hwf _ (tyof_wf env A Hwf n)) as (Hs1 & Hal1 & _). pose proof (Hsz n) as Hszn.
    destruct (rptr_ok a ltac:(lia) ltac:(lia)) as (p & Ep & Hd & Hc & Hq).
    change (r_rel R) with true. rewrite Ep. unfold deser_optr.
    rewrite (check_raw_ok a 8 8 Ha1 Ha0 ltac:(lia) ltac:(lia)).
    replace (inside R a 8 8) with true by (symmetry; apply inside_iff; lia). cbn [bind].
    rewrite Hc by lia. destruct (zero_at_ok (a + 8) ltac:(lia) ltac:(lia)) as (z & Ez1 & Ez2). rewrite Ez2.
    destruct Hd as [->|(-> & Hst' & q & -> & Hq0)].
    2:{ cbn [bind]. split; [exact Hst'|]. destruct (z =? 0)%N; [|reflexivity]. rewrite dec_outside; [reflexivity|].
        destruct (inside R q _ _) eqn:E; [|reflexivity]. apply inside_iff in E. lia. }
    destruct p as [q|].
    + destruct (inside R q (size_of (tyof env n)) (align_of (tyof env n))) eqn:Ei; cbn [bind].
      2:{ cbn [agrees]. rewrite dec_outside by exact Ei. now destruct (z =? 0)%N. }
      unfold check_bool. rewrite Ez1. cbn [bind].
      destruct (Z.of_N z <=? 1) eqn:E1; cbn [verify bind].
      2:{ replace (z =? 0)%N with false by lia. reflexivity. }
      destruct (Z.eqb_spec (Z.of_N z) 0) as [E2|E2]; cbn [verify bind].
      2:{ replace (z =? 0)%N with false by lia. reflexivity. }
      replace (z =? 0)%N with true by lia.
      apply agrees_pair with (cf := all_free /\ cstr_free (tyof env n)).
      * intros [Hcf1 Hcf2]. auto.
      * apply IHn. unfold addr. tauto.
    + cbn [bind]. unfold check_bool. rewrite Ez1. cbn [bind].
      destruct (Z.of_N z <=? 1) eqn:E1; cbn [verify bind].
      2:{ replace (z =? 0)%N with false by lia. reflexivity. }
      destruct (Z.eqb_spec (Z.of_N z) 0) as [E2|E2]; cbn [verify bind].
      2:{ replace (z =? 0)%N with false by lia. reflexivity. }
      replace (z =? 0)%N with true by lia. intros _. eauto.
  - (* TVec *)
    inversion Hwt as [| | | | | | |? ? ? Hw| | | ]; subst.
    pose proof (wf_basic env A Hwf _ (tyof_wf env A Hwf n)) as (Hs1 & Hal1 & _). pose proof (Hsz n) as Hszn.
    set (T := tyof env n) in *.
    destruct (rptr_ok a ltac:(lia) ltac:(lia)) as (p & Ep & Hd & Hc & Hq).
    change (r_rel R) with true. rewrite Ep. unfold deser_optr.
    rewrite (check_raw_ok a 8 8 Ha1 Ha0 ltac:(lia) ltac:(lia)).
    replace (inside R a 8 8) with true by (symmetry; apply inside_iff; lia). cbn [bind].
    destruct (rint_ok (a + 8) w ltac:(lia) ltac:(lia)) as (used & -> & Eu & _). rewrite Eu.
    destruct (rint_ok (a + 8 + Z.of_nat w) w ltac:(lia) ltac:(lia)) as (alloc & Ea1 & Ea & Halloc). rewrite Ea.
    assert (Halloc' : Z.of_N alloc < 2 ^ 64).
    { assert (256 ^ N.of_nat w <= 256 ^ 8)%N by (apply N.pow_le_mono_r; [lia|]; destruct Hw as [<-|[<-|[]]]; lia).
      change (256 ^ 8)%N with 18446744073709551616%N in *. lia. }
    change (r_ck R) with (Some (B, hi)). cbv iota. rewrite Ea1.
    destruct (zero_at_ok (a + 8 + 2 * Z.of_nat w) ltac:(lia) ltac:(lia)) as (z & Ez1 & Ez2). rewrite Ez2.
    assert (Estrict : forall c, strict R c = c) by reflexivity. rewrite Estrict.
    match goal with |- agrees _ _ ?X => set (D := X) end.
    assert (Hno : forall q, p = Some q -> (inside R q (size_of T) (align_of T) = false \/
                    inside R q (size_of T * Z.of_N used) (align_of T) = false) -> D = None).
    { intros q -> Hi. unfold D. destruct (alloc =? used)%N; [|reflexivity]. destruct (z =? 0)%N; [|reflexivity].
      destruct (used =? 0)%N eqn:Eu0; [reflexivity|].
      destruct (inside R q (size_of T * Z.of_N used) (align_of T)) eqn:Ei; [|reflexivity]. exfalso.
      destruct Hi as [Hi|Hi]; [|congruence]. apply inside_iff in Ei.
      assert (inside R q (size_of T) (align_of T) = true); [|congruence]. apply inside_iff.
      assert (size_of T * 1 <= size_of T * Z.of_N used) by (apply Z.mul_le_mono_nonneg_l; lia). lia. }
    rewrite (Hc (size_of T)) by lia.
    destruct Hd as [Hd|(Hd & Hst' & q & -> & Hq0)]; rewrite Hd.
    2:{ cbn [bind]. split; [exact Hst'|]. apply (Hno q eq_refl). left. apply outside_iff. lia. }
    destruct p as [q|].
    + destruct (inside R q (size_of T) (align_of T)) eqn:Ei; cbn [bind].
      2:{ apply (Hno q eq_refl). now left. }
      cbn [checked_multiplication].
      destruct (multiply_if_ok_spec ty_u64 (Z.of_N alloc) (size_of T)) as [[-> Hi]|[-> Hi]];
        [reflexivity|unfold ity_ok; cbn; lia|unfold in_ity; cbn; lia|unfold in_ity; cbn; lia| |].
      2:{ cbn [bind agrees]. destruct (alloc =? used)%N eqn:Eau; [|reflexivity]. apply N.eqb_eq in Eau.
          apply (Hno q eq_refl). right. apply outside_iff. intros E. unfold in_ity in Hi. cbn in Hi.
          apply Hi. rewrite Eau, Z.mul_comm. unfold hi in E.
          assert (0 <= size_of T * Z.of_N used) by (apply Z.mul_nonneg_nonneg; lia). lia. }
      cbn [bind]. unfold in_ity in Hi. cbn in Hi. rewrite (Hc _ _) by lia. rewrite Hd.
      destruct (alloc =? used)%N eqn:Eau.
      2:{ assert (HD : D = None) by reflexivity. clearbody D. destruct (inside R q (Z.of_N alloc * size_of T) (align_of T)); cbn [bind]; [|exact HD]. unfold check_bool. rewrite Ez1. cbn [bind].
          destruct (Z.of_N z <=? 1); cbn [verify bind]; [|exact HD].
          destruct (Z.of_N z =? 0); cbn [verify bind]; [|exact HD].
          replace (Z.of_N alloc =? Z.of_N used) with false by lia. exact HD. }
      unfold D in *. clear D. apply N.eqb_eq in Eau. subst alloc. rewrite (Z.mul_comm (Z.of_N used)).
      destruct (inside R q (size_of T * Z.of_N used) (align_of T)) eqn:Ei2; cbn [bind].
      2:{ cbn [agrees]. apply (Hno q eq_refl). now right. }
      unfold check_bool. rewrite Ez1. cbn [bind].
      destruct (Z.of_N z <=? 1) eqn:E1; cbn [verify bind].
      2:{ replace (z =? 0)%N with false by lia. reflexivity. }
      destruct (Z.eqb_spec (Z.of_N z) 0) as [E2|E2]; cbn [verify bind].
      2:{ replace (z =? 0)%N with false by lia. reflexivity. }
      replace (z =? 0)%N with true by lia. rewrite Z.eqb_refl. cbn [verify bind].
      destruct (used =? 0)%N eqn:Eu0.
      { replace (Z.of_N used =? 0) with true by lia. reflexivity. }
      replace (Z.of_N used =? 0) with false by lia. cbn [Bool.eqb verify bind].
      replace (Z.to_nat (Z.of_N used)) with (N.to_nat used) by lia.
      apply agrees_pair with (cf := Forall (fun _ : nat => all_free /\ cstr_free T) (seq 0 (N.to_nat used))).
      * intros [Hcf1 Hcf2]. apply Forall_forall. intros _ _. split; [exact Hcf1|apply Hcf1].
      * apply agrees_forM with (cf := fun _ : nat => all_free /\ cstr_free T). intros i Hi'. apply in_seq in Hi'.
        apply IHn. apply inside_iff in Ei2 as (Q1 & Q2 & _). fold T.
        assert (0 <= Z.of_nat i * size_of T) by (apply Z.mul_nonneg_nonneg; lia).
        assert (size_of T * (Z.of_nat i + 1) <= size_of T * Z.of_N used) by (apply Z.mul_le_mono_nonneg_l; lia).
        unfold addr. unfold hi in Q2. lia.
    + unfold D. clear D Hno. cbn [bind checked_multiplication].
      destruct (multiply_if_ok_spec ty_u64 (Z.of_N alloc) (size_of T)) as [[-> Hi]|[-> Hi]];
        [reflexivity|unfold ity_ok; cbn; lia|unfold in_ity; cbn; lia|unfold in_ity; cbn; lia| |].
      2:{ cbn [bind]. destruct (alloc =? used)%N eqn:Eau; [|reflexivity]. apply N.eqb_eq in Eau. subst alloc.
          destruct (z =? 0)%N; [|reflexivity]. destruct (used =? 0)%N eqn:Eu0; [|reflexivity].
          exfalso. apply Hi. unfold in_ity. cbn. replace (Z.of_N used) with 0 by lia. lia. }
      cbn [bind]. unfold in_ity in Hi. cbn in Hi. rewrite (Hc _ _) by lia. rewrite Hd. cbn [bind].
      unfold check_bool. rewrite Ez1. cbn [bind].
      destruct (Z.of_N z <=? 1) eqn:E1; cbn [verify bind].
      2:{ replace (z =? 0)%N with false by lia. now destruct (alloc =? used)%N. }
      destruct (Z.eqb_spec (Z.of_N z) 0) as [E2|E2]; cbn [verify bind].
      2:{ replace (z =? 0)%N with false by lia. now destruct (alloc =? used)%N. }
      replace (z =? 0)%N with true by lia.
      destruct (alloc =? used)%N eqn:Eau.
      2:{ replace (Z.of_N alloc =? Z.of_N used) with false by lia. reflexivity. }
      replace (Z.of_N alloc =? Z.of_N used) with true by lia. cbn [verify bind].
      destruct (used =? 0)%N eqn:Eu0.
      * replace (Z.of_N used =? 0) with true by lia. intros _. eauto.
      * replace (Z.of_N used =? 0) with false by lia. reflexivity.
  - (* TStr *)
    destruct (rint_ok a 1 ltac:(lia) ltac:(lia)) as (b0 & -> & Eb0 & Hb0). rewrite Eb0. cbn [bind].
    destruct (b0 =? 0)%N eqn:E0; cbn [negb].
    + apply N.eqb_eq in E0. subst b0. cbn [Z.of_N Z.eqb].
      destruct (rptr_ok (a + 8) ltac:(lia) ltac:(lia)) as (p & Ep & Hd & Hc & Hq).
      change (r_rel R) with true. rewrite Ep. unfold deser_optr. cbn [size_of align_of].
      destruct (rint_ok (a + 4) 4 ltac:(lia) ltac:(lia)) as (size & -> & Esz & Hsize). rewrite Esz.
      change (256 ^ N.of_nat 4)%N with 4294967296%N in Hsize.
      destruct (zero_at_ok (a + 1) ltac:(lia) ltac:(lia)) as (z & Ez1 & Ez2). rewrite Ez2.
      rewrite (check_raw_ok (a + 8) 8 8 ltac:(unfold hi in *; lia) ltac:(lia) ltac:(lia) ltac:(lia)).
      replace (inside R (a + 8) 8 8) with true.
      2:{ symmetry. apply inside_iff. split; [lia|]. split; [lia|].
          rewrite Z.add_mod, Hmod by lia. reflexivity. }
      cbn [bind]. rewrite (Hc (Z.of_nat 1) (Z.of_nat 1)) by lia.
      assert (Hno : forall q, p = Some q -> inside R q 1 1 = false \/ inside R q (Z.of_N size) 1 = false ->
                              negb (size =? 0)%N && inside R q (Z.of_N size) 1 = false).
      { intros q -> Hi. destruct (size =? 0)%N eqn:Es0; [reflexivity|]. cbn [negb andb].
        destruct (inside R q (Z.of_N size) 1) eqn:Ei; [|reflexivity]. apply inside_iff in Ei.
        destruct Hi as [Hi|Hi]; [|congruence]. assert (inside R q 1 1 = true); [|congruence]. apply inside_iff. lia. }
      destruct Hd as [Hd|(Hd & Hst' & q & -> & Hq0)]; rewrite Hd.
      2:{ cbn [bind]. split; [exact Hst'|]. destruct (z =? 0)%N; [|reflexivity]. rewrite (Hno q eq_refl); [reflexivity|].
          left. destruct (inside R q 1 1) eqn:E; [|reflexivity]. apply inside_iff in E. lia. }
      destruct p as [q|].
      * change (Z.of_nat 1) with 1. destruct (inside R q 1 1) eqn:Ei; cbn [bind].
        2:{ destruct (z =? 0)%N; [|reflexivity]. cbn [agrees]. rewrite (Hno q eq_refl); auto. }
        unfold check_bool at 1. rewrite Eb0. cbn [bind Z.of_N Z.leb Z.compare verify Z.eqb negb].
        rewrite (Hc (Z.of_N size) 1) by lia. rewrite Hd.
        destruct (inside R q (Z.of_N size) 1) eqn:Ei2; cbn [bind].
        2:{ destruct (z =? 0)%N; [|reflexivity]. cbn [agrees]. now rewrite andb_false_r. }
        unfold check_bool. rewrite Ez1. cbn [bind].
        destruct (Z.of_N z <=? 1) eqn:E1; cbn [verify bind].
        2:{ replace (z =? 0)%N with false by lia. reflexivity. }
        destruct (Z.eqb_spec (Z.of_N z) 0) as [E2|E2]; cbn [verify bind].
        2:{ replace (z =? 0)%N with false by lia. reflexivity. }
        replace (z =? 0)%N with true by lia.
        destruct (size =? 0)%N eqn:Es0; cbn [negb andb].
        { replace (Z.of_N size =? 0) with true by lia. reflexivity. }
        replace (Z.of_N size =? 0) with false by lia. cbn [Bool.eqb verify agrees].
        apply inside_iff in Ei2. cbn [R plain r_mem].
        destruct (rd_ok q (N.to_nat size) ltac:(lia) ltac:(lia)) as (l & -> & _). intros _. eauto.
      * cbn [bind]. unfold check_bool at 1. rewrite Eb0. cbn [bind Z.of_N Z.leb Z.compare verify Z.eqb negb].
        rewrite (Hc (Z.of_N size) 1) by lia. rewrite Hd. cbn [bind].
        unfold check_bool. rewrite Ez1. cbn [bind].
        destruct (Z.of_N z <=? 1) eqn:E1; cbn [verify bind].
        2:{ replace (z =? 0)%N with false by lia. reflexivity. }
        destruct (Z.eqb_spec (Z.of_N z) 0) as [E2|E2]; cbn [verify bind].
        2:{ replace (z =? 0)%N with false by lia. reflexivity. }
        replace (z =? 0)%N with true by lia.
        destruct (size =? 0)%N eqn:Es0.
        { replace (Z.of_N size =? 0) with true by lia. intros _. eauto. }
        replace (Z.of_N size =? 0) with false by lia. reflexivity.
    + replace (Z.of_N b0 =? 0) with false by lia. cbn [bind]. unfold check_bool. rewrite Eb0. cbn [bind].
      destruct (Z.of_N b0 <=? 1) eqn:E1; cbn [verify bind].
      2:{ replace (b0 =? 1)%N with false by lia. reflexivity. }
      replace (b0 =? 1)%N with true by lia. replace (Z.of_N b0 =? 0) with false by lia. cbn [negb].
      cbn [R plain r_mem]. destruct (rd_ok (a + 1) 15 ltac:(lia) ltac:(lia)) as (l & -> & _). intros _. eauto.
  - (* TCStr *) intros [_ Hcf2]. inversion Hcf2.
  - (* THash *)
    pose proof (wf_basic env A Hwf _ (tyof_wf env A Hwf n)) as (Hs1 & Hal1 & _). pose proof (Hsz n) as Hszn.
    set (T := tyof env n) in *. change (r_rel R) with true.
    destruct (rptr_ok a ltac:(lia) ltac:(lia)) as (pe & Epe & Hde & Hce & Hqe). rewrite Epe.
    destruct (rptr_ok (a + 8) ltac:(lia) ltac:(lia)) as (pc & Epc & Hdc & Hcc & Hqc). rewrite Epc.
    destruct (rint_ok (a + 16) 8 ltac:(lia) ltac:(lia)) as (size & -> & Esz & Hsize). rewrite Esz.
    destruct (rint_ok (a + 24) 8 ltac:(lia) ltac:(lia)) as (cap & -> & Ecap & Hcap). rewrite Ecap.
    destruct (rint_ok (a + 32) 8 ltac:(lia) ltac:(lia)) as (growth & -> & Egr & Hgr). rewrite Egr.
    change (256 ^ N.of_nat 8)%N with 18446744073709551616%N in *.
    destruct (zero_at_ok (a + 40) ltac:(lia) ltac:(lia)) as (z & Ez1 & Ez2). rewrite Ez2.
    change (r_tab R) with ctrl_tab. change (r_mem R) with m.
    unfold deser_optr. cbn [size_of align_of].
    rewrite (check_raw_ok a 8 8 Ha1 Ha0 ltac:(lia) ltac:(lia)).
    replace (inside R a 8 8) with true by (symmetry; apply inside_iff; lia). cbn [bind].
    rewrite (check_raw_ok (a + 8) 8 8 ltac:(unfold hi in *; lia) ltac:(lia) ltac:(lia) ltac:(lia)).
    replace (inside R (a + 8) 8 8) with true.
    2:{ symmetry. apply inside_iff. split; [lia|]. split; [lia|]. rewrite Z.add_mod, Hmod by lia. reflexivity. }
    cbn [bind]. rewrite (Hce (size_of T) (align_of T)) by lia. rewrite (Hcc (Z.of_nat 1) (Z.of_nat 1)) by lia.
    change (Z.of_nat 1) with 1.
    (* the reading *)
    set (own := fun z0 c => Rd a 8 :: Rd (a + 8) 8 :: Rd (a + 16) 8 :: Rd (a + 24) 8 :: Rd (a + 32) 8 :: z0 ++ [Rd c (Z.of_N cap + 9)]).
    match goal with |- agrees _ _ ?X => set (D := X) end.
    assert (Hz : (z =? 0)%N = false -> D = None). { intros E. unfold D. now rewrite E. }
    assert (Hc0 : forall c, pc = Some c -> inside R c (Z.of_N cap + 9) 1 = false -> D = None).
    { intros c -> E. unfold D. destruct (z =? 0)%N; [|reflexivity]. now rewrite E, andb_false_r. }
    assert (HcN : pc = None -> D = None). { intros ->. unfold D. now destruct (z =? 0)%N. }
    assert (He0 : forall e, pe = Some e ->
              inside R e (Z.of_N cap * size_of T + (Z.of_N cap + 9)) (align_of T) = false -> D = None).
    { intros e -> E. unfold D. destruct (z =? 0)%N; [|reflexivity]. destruct pc as [c|]; [|reflexivity].
      destruct (_ && _); [|reflexivity]. destruct (rdn m c _) as [ctrl|]; [|reflexivity].
      destruct (ctrl_tab _ _ _ _); [|reflexivity]. now rewrite E, andb_false_r. }
    assert (Hbig : 0 <= Z.of_N cap * size_of T) by (apply Z.mul_nonneg_nonneg; lia).
    assert (HeT : forall e, pe = Some e -> cap <> 0%N -> inside R e (size_of T) (align_of T) = false -> D = None).
    { intros e He Hc' E. apply (He0 e He). destruct (inside R e _ _) eqn:E2 in |- *; [|reflexivity].
      apply inside_iff in E2. assert (1 * size_of T <= Z.of_N cap * size_of T) by (apply Z.mul_le_mono_nonneg_r; lia).
      assert (inside R e (size_of T) (align_of T) = true); [|congruence]. apply inside_iff. lia. }
    assert (Hguard : 2 ^ 62 <= Z.of_N cap * size_of T + Z.of_N cap -> D = None).
    { intros E. unfold D. destruct (z =? 0)%N; [|reflexivity]. destruct pc as [c|]; [|reflexivity].
      replace (Z.of_N cap * size_of T + Z.of_N cap <? 2 ^ 62) with false by lia. reflexivity. }
    assert (HeZ : forall e, pe = Some e -> cap = 0%N -> D = None).
    { intros e -> ->. unfold D. destruct (z =? 0)%N; [|reflexivity]. destruct pc as [c|]; [|reflexivity].
      destruct (_ && inside R c _ _); [|reflexivity]. destruct (rdn m c _) as [ctrl|] eqn:Er; [|reflexivity].
      unfold ctrl_tab. change (Z.of_N 0) with (Z.of_nat 0).
      destruct (check_ctrl ctrl (Z.of_N size) (Z.of_nat 0) (Z.of_N growth)) as [[]| | |] eqn:Ec; try reflexivity.
      apply (check_ctrl_size ctrl 0) in Ec; [|apply rdn_length in Er; exact Er]. cbn in Ec. assert (size = 0%N) by lia. subst size.
      now rewrite !andb_false_r. }
    assert (HeF : forall e, pe = Some e -> inside R e (size_of T) (align_of T) = false -> D = None).
    { intros e He E. destruct (N.eq_dec cap 0) as [E0|E0]; [now apply (HeZ e)|now apply (HeT e)]. }
    assert (HcF : forall c, pc = Some c -> inside R c 1 1 = false -> D = None).
    { intros c Hc' E. apply (Hc0 c Hc'). apply outside_iff in E. apply outside_iff. lia. }
    (* entries_ *)
    destruct Hde as [Hde|(Hde & Hst' & q & Hpe & Hq0)].
    2:{ rewrite Hde. cbn [bind agrees]. split; [exact Hst'|]. apply (HeF q Hpe). apply outside_iff. lia. }
    assert (Hce' : forall sz al, 0 <= sz < 2 ^ 64 -> 0 < al -> check_optr be strict_i64 m B hi a sz al =
              if match pe with None => true | Some q => inside R q sz al end then Ok tt else Throw).
    { intros sz al H1 H2. rewrite Hce by assumption. now rewrite Hde. }
    rewrite !Hde. clear Hce.
    destruct (match pe with None => true | Some q => inside R q (size_of T) (align_of T) end) eqn:Ei1; cbn [bind].
    2:{ destruct pe as [e|]; [|discriminate]. apply (HeF e eq_refl Ei1). }
    (* ctrl_ *)
    destruct Hdc as [Hdc|(Hdc & Hst' & q & Hpc & Hq0)].
    2:{ rewrite Hdc. cbn [bind agrees]. split; [exact Hst'|]. apply (HcF q Hpc). apply outside_iff. lia. }
    assert (Hcc' : forall sz al, 0 <= sz < 2 ^ 64 -> 0 < al -> check_optr be strict_i64 m B hi (a + 8) sz al =
              if match pc with None => true | Some q => inside R q sz al end then Ok tt else Throw).
    { intros sz al H1 H2. rewrite Hcc by assumption. now rewrite Hdc. }
    rewrite !Hdc. clear Hcc.
    destruct pc as [c|]; [|cbn [bind verify agrees]; now apply HcN]. clear HcN.
    destruct (inside R c 1 1) eqn:Ei2; cbn [bind verify].
    2:{ apply (HcF c eq_refl Ei2). }
    (* sizes *)
    cbn [checked_multiplication].
    destruct (multiply_if_ok_spec ty_u64 (Z.of_N cap) (size_of T)) as [[-> Hi1]|[-> Hi1]];
      [reflexivity|unfold ity_ok; cbn; lia|unfold in_ity; cbn; lia|unfold in_ity; cbn; lia| |].
    2:{ cbn [bind agrees]. apply Hguard. unfold in_ity in Hi1. cbn in Hi1. lia. }
    cbn [bind]. unfold in_ity in Hi1. cbn in Hi1. cbn [checked_addition].
    destruct (add_if_ok_spec ty_u64 (Z.of_N cap) 1) as [[-> Hi2]|[-> Hi2]];
      [unfold in_ity; cbn; lia|unfold in_ity; cbn; lia| |].
    2:{ cbn [bind agrees]. apply Hguard. unfold in_ity in Hi2. cbn in Hi2. lia. }
    cbn [bind]. unfold in_ity in Hi2. cbn in Hi2.
    destruct (add_if_ok_spec ty_u64 (Z.of_N cap + 1) 8) as [[-> Hi3]|[-> Hi3]];
      [unfold in_ity; cbn; lia|unfold in_ity; cbn; lia| |].
    2:{ cbn [bind agrees]. apply Hguard. unfold in_ity in Hi3. cbn in Hi3. lia. }
    cbn [bind]. unfold in_ity in Hi3. cbn in Hi3.
    destruct (add_if_ok_spec ty_u64 (Z.of_N cap * size_of T) (Z.of_N cap + 1 + 8)) as [[-> Hi4]|[-> Hi4]];
      [unfold in_ity; cbn; lia|unfold in_ity; cbn; lia| |].
    2:{ cbn [bind agrees]. apply Hguard. unfold in_ity in Hi4. cbn in Hi4. lia. }
    cbn [bind]. unfold in_ity in Hi4. cbn in Hi4.
    replace (Z.of_N cap + 1 + 8) with (Z.of_N cap + 9) by lia. replace (Z.of_N cap + 1 + 8) with (Z.of_N cap + 9) in Hi4 by lia.
    rewrite (Hce' _ _) by lia.
    destruct (match pe with None => true | Some q => inside R q (Z.of_N cap * size_of T + (Z.of_N cap + 9)) (align_of T) end) eqn:Ei3;
      cbn [bind].
    2:{ destruct pe as [e|]; [|discriminate]. apply (He0 e eq_refl Ei3). }
    rewrite (Hcc' _ _) by lia.
    destruct (inside R c (Z.of_N cap + 9) 1) eqn:Ei4; cbn [bind].
    2:{ exact (Hc0 c eq_refl Ei4). }
    clear Hce' Hcc' Hc0 He0 HeT HeF HcF.
    destruct (match pe with Some e => c =? e + Z.of_N cap * size_of T | None => true end) eqn:Ei5.
    2:{ replace (match pe with Some e => c =? e + Z.of_N cap * size_of T | None => true end) with false.
        cbn [verify bind agrees]. destruct pe as [e|]; [|discriminate]. unfold D.
        destruct (z =? 0)%N; [|reflexivity]. destruct (_ && _); [|reflexivity]. destruct (rdn m c _) as [ctrl|]; [|reflexivity].
        destruct (ctrl_tab _ _ _ _); [|reflexivity]. rewrite Ei5. reflexivity. }
    replace (match pe with Some e => c =? e + Z.of_N cap * size_of T | None => true end) with true.
    cbn [verify bind].
    destruct (Bool.eqb match pe with None => true | _ => false end ((Z.of_N cap =? 0) && (Z.of_N size =? 0))) eqn:Ei6; cbn [verify bind].
    2:{ cbn [agrees]. unfold D. replace (Z.of_N cap =? 0) with (cap =? 0)%N in Ei6 by lia.
        replace (Z.of_N size =? 0) with (size =? 0)%N in Ei6 by lia.
        destruct (z =? 0)%N; [|reflexivity]. destruct (_ && true); [|reflexivity]. destruct (rdn m c _) as [ctrl|]; [|reflexivity].
        destruct (ctrl_tab _ _ _ _); [|reflexivity].
        destruct pe as [e|]; destruct ((cap =? 0)%N && (size =? 0)%N); try discriminate; [|reflexivity].
        now rewrite andb_false_r. }
    unfold check_bool. rewrite Ez1. cbn [bind].
    destruct (Z.of_N z <=? 1) eqn:E1; cbn [verify bind].
    2:{ apply Hz. lia. }
    destruct (Z.eqb_spec (Z.of_N z) 0) as [E2|E2]; cbn [verify bind].
    2:{ apply Hz. lia. }
    clear Hz.
    assert (HN : pe = None -> cap = 0%N /\ size = 0%N).
    { intros ->. destruct (Z.eqb_spec (Z.of_N cap) 0); [|discriminate Ei6].
      destruct (Z.eqb_spec (Z.of_N size) 0); [|discriminate Ei6]. lia. }
    assert (Hcapb : Z.of_N cap * size_of T + Z.of_N cap < 2 ^ 62).
    { destruct pe as [e|].
      - apply inside_iff in Ei3. unfold hi in Ei3. lia.
      - destruct (HN eq_refl) as [-> _]. cbn. lia. }
    apply inside_iff in Ei4 as (Ic1 & Ic2 & _).
    destruct (rd_ok c (N.to_nat cap + 9) ltac:(lia) ltac:(lia)) as (ctrl & Ect & Bct & Lct).
    assert (Edb : dbytes m c (Z.to_nat (Z.of_N cap + 9)) = Ok ctrl).
    { unfold dbytes. replace (Z.to_nat (Z.of_N cap + 9)) with (N.to_nat cap + 9)%nat by lia. now rewrite Ect. }
    rewrite Edb. cbn [bind].
    assert (ED : D = if ctrl_tab size cap growth ctrl then
                       match pe with
                       | None => if (cap =? 0)%N && (size =? 0)%N then Some (VTab size growth ctrl [], own [Rd (a + 40) 1] c) else None
                       | Some e =>
                           match mapM (fun i => if full_at ctrl i then let? (v, tr) := dec env R f T (e + Z.of_nat i * size_of T) in
                                                 Some (Some v, tr) else Some (None, [])) (seq 0 (N.to_nat cap)) with
                           | Some (vs, tr) => Some (VTab size growth ctrl vs, own [Rd (a + 40) 1] c ++ tr)
                           | None => None
                           end
                       end else None).
    { unfold D. replace (z =? 0)%N with true by lia. replace (Z.of_N cap * size_of T + Z.of_N cap <? 2 ^ 62) with true by lia.
      cbn [andb]. rewrite Ect. destruct (ctrl_tab _ _ _ _); [|reflexivity]. destruct pe as [e|]; [|reflexivity].
      rewrite Ei5, Ei3. replace ((cap =? 0)%N && (size =? 0)%N) with false.
      2:{ symmetry. destruct ((cap =? 0)%N && (size =? 0)%N) eqn:E; [|reflexivity].
          replace (Z.of_N cap =? 0) with (cap =? 0)%N in Ei6 by lia.
          replace (Z.of_N size =? 0) with (size =? 0)%N in Ei6 by lia. rewrite E in Ei6. discriminate. }
      reflexivity. }
    rewrite ED. clear D ED Hguard HeZ. unfold ctrl_tab.
    replace (Z.to_nat (Z.of_N cap)) with (N.to_nat cap) by lia.
    replace (Z.of_N cap) with (Z.of_nat (N.to_nat cap)) by lia.
    destruct (check_ctrl_cases ctrl (N.to_nat cap) Lct (Z.of_N size) (Z.of_N growth)) as [Ek|Ek]; rewrite Ek; cbn [bind]; [|reflexivity].
    destruct (check_ctrl_facts ctrl (N.to_nat cap) Lct _ _ Ek) as (F1 & F2 & F3).
    rewrite (slots_ok ctrl (N.to_nat cap) Lct F1 F2 F3). cbn [bind].
    destruct pe as [e|].
    + apply agrees_pair with (cf := all_free /\ cstr_free T).
      * intros [Hcf1 Hcf2]. split; [exact Hcf1|apply Hcf1].
      * apply agrees_slots. intros i Hi _. apply in_seq in Hi. apply IHn.
        apply inside_iff in Ei3 as (Q1 & Q2 & _).
        assert (0 <= Z.of_nat i * size_of T) by (apply Z.mul_nonneg_nonneg; lia).
        assert ((Z.of_nat i + 1) * size_of T <= Z.of_N cap * size_of T) by (apply Z.mul_le_mono_nonneg_r; lia).
        unfold addr. fold T. unfold hi in Q2. lia.
    + destruct (HN eq_refl) as [-> ->].
      cbn [N.to_nat seq filter N.eqb andb]. intros _. eauto.
Qed.
End Step.

Theorem deser_agrees f : forall t, wf A t -> size_of t < 2 ^ 62 -> spec f t.
Proof.
  induction f as [|f IH].
  - intros t _ _ a _. reflexivity.
  - now apply step.
Qed.
End D.
