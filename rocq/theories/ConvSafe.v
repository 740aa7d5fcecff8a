(* The converting reader on arbitrary bytes. *)
From Verif Require Import Base Bytes ArithModel ArithSpec ArithProofs HeaderModel HeaderSpec HeaderProofs HashModel HashSpec HashBits HashInv
  SerialModel SerialSpec SerialMem SerialPost SerialSer SerialDeser SerialRead SerialTop SerialFinal SerialLimits
  ConvModel ConvSpec ConvProofs.
Local Open Scope Z_scope.

(* F: running out of fuel is allowed *)
Definition pst {X} (F : Prop) (P : X -> Prop) (r : res X) : Prop :=
  match r with Ok x => P x | Throw => True | UB => False | Fuel => F end.
Lemma pst_bind {X Y} F (P : X -> Prop) (Q : Y -> Prop) r k : pst F P r -> (forall x, P x -> pst F Q (k x)) -> pst F Q (bind r k).
Proof. destruct r; cbn; auto. Qed.
Lemma pst_weak {X} F (P Q : X -> Prop) r : pst F P r -> (forall x, P x -> Q x) -> pst F Q r.
Proof. destruct r; cbn; auto. Qed.
Lemma pst_verify F c : pst F (fun _ => c = true) (verify c).
Proof. now destruct c. Qed.
Lemma pst_add F T a x : in_ity T a -> in_ity T x -> pst F (fun e => e = a + x /\ in_ity T e) (checked_addition T a [x]).
Proof.
  intros Ha Hx. cbn [checked_addition]. destruct (add_if_ok_spec T a x Ha Hx) as [[-> Hi]|[-> Hi]]; cbn; auto.
Qed.

Lemma i64_iff x : in_ity ty_i64 x <-> - 2 ^ 63 <= x < 2 ^ 63.
Proof. unfold in_ity. cbn. lia. Qed.
Lemma u64_iff x : in_ity ty_u64 x <-> 0 <= x < 2 ^ 64.
Proof. unfold in_ity. cbn. lia. Qed.

Section Safe.
Variables (env : list ty) (A : Z).
Hypothesis Hwf : wf_env A env.
Hypothesis Hsz : forall n, size_of (tyof env n) < 2 ^ 62.
Variables B hi : Z.
Hypothesis HB : 0 < B.
Hypothesis Hhi : hi < 2 ^ 63.
Variable F : Prop.
Variables hb fb raw strict : bool.
Hypothesis Hmode : raw = true \/ strict = false.
Variable m0 : mem.

Definition good_mem (m : mem) : Prop :=
  (forall z, B <= z < hi -> exists x, m z = Some x /\ (x < 256)%N) /\ (forall z, ~ (B <= z < hi) -> m z = m0 z).
Definition within (a n : Z) : Prop := B <= a /\ a + n <= hi.

Lemma good_rd m n : good_mem m -> forall a, within a (Z.of_nat n) -> exists l, rdn m a n = Some l /\ bytes_ok l /\ length l = n.
Proof.
  intros [Hm _]. unfold within. induction n as [|n IH]; intros a H; [exists []; repeat split; constructor|].
  destruct (IH (a + 1) ltac:(lia)) as (l & El & Bl & Ll). cbn [rdn].
  destruct (Hm a ltac:(lia)) as (x & -> & Hx). rewrite El. exists (x :: l). repeat split; [now constructor|cbn; lia].
Qed.
Lemma good_put m a l : good_mem m -> within a (Z.of_nat (length l)) -> bytes_ok l -> good_mem (put_mem m a l).
Proof.
  intros [H1 H2] [W1 W2] Hl. split; intros z Hz.
  - unfold put_mem. destruct (_ && _) eqn:E; [|now apply H1].
    destruct (nth_error l (Z.to_nat (z - a))) as [x|] eqn:En.
    + exists x. split; [reflexivity|]. apply nth_error_In in En. unfold bytes_ok in Hl. rewrite Forall_forall in Hl. now apply Hl.
    + apply nth_error_None in En. lia.
  - rewrite put_mem_out; [now apply H2|]. lia.
Qed.
(* the memory changes only inside [a, a+n) *)
Definition local (m : mem) (a n : Z) (m1 : mem) : Prop := good_mem m1 /\ forall z, ~ (a <= z < a + n) -> m1 z = m z.
Lemma local_refl m a n : good_mem m -> local m a n m.
Proof. now split. Qed.
Lemma local_trans m a n m1 m2 a' n' b k : local m a n m1 -> local m1 a' n' m2 ->
  b <= a -> a + n <= b + k -> b <= a' -> a' + n' <= b + k -> local m b k m2.
Proof. intros [_ H1] [H2 H3] ? ? ? ?. split; [exact H2|]. intros z Hz. rewrite H3, H1 by lia. reflexivity. Qed.
Lemma local_wide m a n m1 b k : local m a n m1 -> b <= a -> a + n <= b + k -> local m b k m1.
Proof. intros [H1 H2] ? ?. split; [exact H1|]. intros z Hz. apply H2. lia. Qed.

Lemma p_dbytes m a n : good_mem m -> within a (Z.of_nat n) -> pst F (fun l => bytes_ok l /\ length l = n /\ rdn m a n = Some l) (dbytes m a n).
Proof. intros Hm Hw. destruct (good_rd m n Hm a Hw) as (l & El & Bl & Ll). unfold dbytes. rewrite El. cbn. auto. Qed.
Lemma p_dint m a w : good_mem m -> within a (Z.of_nat w) -> pst F (fun x => 0 <= x < 256 ^ Z.of_nat w) (dint hb m a w).
Proof.
  intros Hm Hw. unfold dint. eapply pst_bind; [apply (p_dbytes m a w Hm Hw)|]. intros l (Bl & Ll & _). cbn.
  pose proof (to_int_bound hb l Bl) as H. rewrite Ll in H. split; [lia|].
  apply N2Z.inj_lt in H. rewrite N2Z.inj_pow in H. rewrite nat_N_Z in H. exact H.
Qed.
Lemma p_bool m a : good_mem m -> within a 1 -> pst F (fun _ => True) (check_bool hb m a).
Proof.
  intros Hm Hw. unfold check_bool. eapply pst_bind; [apply (p_dint m a 1 Hm Hw)|]. intros x _.
  eapply pst_bind; [apply pst_verify|]. now intros.
Qed.
Lemma p_swap m a w : good_mem m -> within a (Z.of_nat w) -> pst F (local m a (Z.of_nat w)) (swap hb fb m a w).
Proof.
  intros Hm Hw. unfold swap. destruct (Bool.eqb hb fb); [now apply local_refl|].
  eapply pst_bind; [apply (p_dbytes m a w Hm Hw)|]. intros l (Bl & Ll & _). cbn. split.
  - apply good_put; [exact Hm|rewrite rev_length, Ll; exact Hw|]. unfold bytes_ok. now apply Forall_rev.
  - intros z Hz. apply put_mem_out. rewrite rev_length, Ll. exact Hz.
Qed.
Lemma wrap_range x : - 2 ^ 63 <= wrap_i64 x < 2 ^ 63.
Proof.
  unfold wrap_i64. apply z_of_u_range. unfold u_of_z, Z64, W64. pose proof (Z.mod_pos_bound x 18446744073709551616 ltac:(lia)). lia.
Qed.
Lemma p_cptr m a : good_mem m -> within a 8 ->
  pst F (fun p => match p with Some q => q <> 0 /\ - 2 ^ 63 <= q < 2 ^ 63 | None => True end) (cptr hb raw strict m a).
Proof.
  intros Hm Hw. unfold cptr.
  assert (R : forall rel (x : N), (x < W64)%N -> match ptr_of rel a x with Some q => q <> 0 /\ - 2 ^ 63 <= q < 2 ^ 63 | None => True end).
  { intros rel x Hx. unfold ptr_of. cbv zeta. destruct (_ =? 0) eqn:E; [exact I|]. split; [lia|]. clear E.
    destruct rel; [destruct (_ =? _); [lia|apply wrap_range]|now apply z_of_u_range]. }
  case_eq raw; intros Er.
  - eapply pst_bind; [apply (p_dbytes m a 8 Hm Hw)|]. intros l (Bl & Ll & _). cbn [pst]. apply R.
    pose proof (to_int_bound hb l Bl) as H. rewrite Ll in H. exact H.
  - destruct Hmode as [Hr|Hs]; [congruence|]. unfold dptr.
    eapply pst_bind; [apply (p_dbytes m a 8 Hm Hw)|]. intros l (Bl & Ll & _). cbv zeta. rewrite Hs. cbn [andb pst]. apply R.
    pose proof (to_int_bound hb l Bl) as H. rewrite Ll in H. exact H.
Qed.
Lemma p_raw p size al : p <> 0 -> - 2 ^ 63 <= p < 2 ^ 63 -> 0 <= size < 2 ^ 64 -> pst F (fun _ => hi <> 0 -> within p size) (check_raw B hi p size al).
Proof.
  intros Hp0 Hp Hs. unfold check_raw. replace (p =? 0) with false by lia. cbn [orb].
  destruct (hi =? 0) eqn:E; [cbn; lia|].
  eapply pst_bind; [apply pst_verify|]. intros ? H1.
  assert (Hz : - 2 ^ 63 <= z_of_u (Z.to_N size) < 2 ^ 63) by (apply z_of_u_range; unfold W64; lia).
  eapply pst_bind; [apply pst_add; now apply i64_iff|]. intros e [-> He].
  eapply pst_bind; [apply pst_verify|]. intros ? H2.
  eapply pst_bind; [apply pst_verify|]. intros ? H3.
  eapply pst_weak; [apply pst_verify|]. intros ? _ _.
  cbn beta in *.
  assert (z_of_u (Z.to_N size) = size).
  { unfold z_of_u, Z64. match goal with |- (if ?c then _ else _) = _ => destruct c eqn:E2 end; lia. }
  unfold within. lia.
Qed.
Lemma p_slot m a size al : hi <> 0 -> good_mem m -> within a 8 -> 0 <= size < 2 ^ 64 ->
  pst F (fun _ => forall q, cptr hb raw strict m a = Ok (Some q) -> within q size) (check_slot hb raw strict B hi m a size al).
Proof.
  intros Hh Hm Hw Hs. unfold check_slot. pose proof (p_cptr m a Hm Hw) as Hc. unfold cptr in *. case_eq raw; intros Er; rewrite Er in Hc.
  - destruct (let* l := dbytes m a 8 in Ok (ptr_of false a (to_int hb l))) as [[q|]| | |]; cbn [bind pst] in *; try easy.
    eapply pst_weak; [apply p_raw; tauto|]. intros ? H q' Hq. injection Hq as <-. auto.
  - unfold check_optr. destruct (dptr hb strict m a) as [[q|]| | |]; cbn [bind pst] in *; try easy.
    eapply pst_bind; [apply (p_dbytes m a 8 Hm Hw)|]. intros l (Bl & Ll & _).
    pose proof (to_int_bound hb l Bl) as H. rewrite Ll in H.
    eapply pst_bind; [apply pst_add; apply i64_iff; [now apply z_of_u_range|unfold within in Hw; lia]|]. intros ? _.
    eapply pst_weak; [apply p_raw; tauto|]. intros ? H' q' Hq. injection Hq as <-. auto.
Qed.
Lemma p_conv_ptr m a : good_mem m -> within a 8 -> pst F (local m a 8) (conv_ptr hb fb raw m a).
Proof.
  intros Hm Hw. unfold conv_ptr. case_eq raw; intros Er; [|now apply p_swap].
  eapply pst_bind; [apply (p_dbytes m a 8 Hm Hw)|]. intros l (Bl & Ll & _). cbv zeta.
  pose proof (to_int_bound fb l Bl) as H. rewrite Ll in H.
  apply pst_bind with (P := fun _ => True).
  { destruct (_ =? _); [exact I|]. eapply pst_weak; [apply pst_add; apply i64_iff; [unfold within in Hw; lia|now apply z_of_u_range]|auto]. }
  intros p _. cbn [pst]. split.
  - apply good_put; [exact Hm|rewrite of_int_length; exact Hw|apply of_int_ok].
  - intros z Hz. apply put_mem_out. rewrite of_int_length. exact Hz.
Qed.
Lemma p_conv_slot m a T : hi <> 0 -> good_mem m -> a <> 0 -> - 2 ^ 63 <= a < 2 ^ 63 -> 0 <= size_of T < 2 ^ 64 ->
  pst F (fun m1 => local m a 8 m1 /\ within a 8) (conv_slot hb fb raw true strict B hi m a T).
Proof.
  intros Hh Hm Ha0 Ha HT. unfold conv_slot, when.
  eapply pst_bind; [apply p_raw; lia|]. intros ? Hw. specialize (Hw Hh).
  eapply pst_bind; [now apply p_conv_ptr|]. intros m1 [Hl Hl2].
  eapply pst_bind; [now apply p_slot|]. intros ? _. cbn. split; [split|]; assumption.
Qed.

Definition deep (f : nat) (t : ty) : Prop := F \/ exists k, nesting env k t /\ (k <= f)%nat.
Lemma deep0 t : deep 0 t -> F.
Proof. intros [H|(k & Hn & Hk)]; [exact H|]. destruct k; [inversion Hn|lia]. Qed.
Lemma deep_agg f fs sz al ft : deep (S f) (TAgg fs sz al) -> In ft fs -> deep f (snd ft).
Proof.
  intros [H|(k & Hn & Hk)] Hi; [now left|]. right. inversion Hn; subst. exists k0. split; [|lia].
  match goal with H : Forall _ _ |- _ => rewrite Forall_forall in H; now apply H end.
Qed.
Lemma deep_opt f t off sz al : deep (S f) (TOpt t off sz al) -> deep f t.
Proof. intros [H|(k & Hn & Hk)]; [now left|]. right. inversion Hn; subst. exists k0. split; [assumption|lia]. Qed.
Lemma deep_var f ts off sz al t : deep (S f) (TVar ts off sz al) -> In t ts -> deep f t.
Proof.
  intros [H|(k & Hn & Hk)] Hi; [now left|]. right. inversion Hn; subst. exists k0. split; [|lia].
  match goal with H : Forall _ _ |- _ => rewrite Forall_forall in H; now apply H end.
Qed.
Lemma deep_uniq f n : deep (S f) (TUniq n) -> deep f (tyof env n).
Proof. intros [H|(k & Hn & Hk)]; [now left|]. right. inversion Hn; subst. exists k0. split; [assumption|lia]. Qed.
Lemma deep_vec f w ix n : deep (S f) (TVec w ix n) -> deep f (tyof env n).
Proof. intros [H|(k & Hn & Hk)]; [now left|]. right. inversion Hn; subst. exists k0. split; [assumption|lia]. Qed.
Lemma deep_hash f n : deep (S f) (THash n) -> deep f (tyof env n).
Proof. intros [H|(k & Hn & Hk)]; [now left|]. right. inversion Hn; subst. exists k0. split; [assumption|lia]. Qed.

Lemma p_foldM {X} (I : mem -> Prop) (g : X -> mem -> res mem) l :
  (forall x m, In x l -> I m -> pst F I (g x m)) -> forall m, I m -> pst F I (foldM g l m).
Proof.
  induction l as [|x l IH]; intros H m Hm; cbn [foldM]; [exact Hm|].
  eapply pst_bind; [apply H; [now left|exact Hm]|]. intros m1 Hm1. apply IH; [|exact Hm1]. intros; apply H; [now right|assumption].
Qed.

Hypothesis Hh : hi <> 0.
Lemma wf_of n : wf A (tyof env n).
Proof. destruct Hwf as (_ & _ & H). apply tyof_ok; [constructor; cbn; tauto|exact H]. Qed.
Lemma size_pos t : wf A t -> 0 < size_of t.
Proof. intros H. now apply (wf_basic env A Hwf t H). Qed.
Notation CV := (conv env hb fb raw true strict B hi).

Lemma p_str m a : good_mem m -> within a 16 -> pst F (fun _ => True) (check_str hb raw strict B hi m a).
Proof.
  intros Hm Hw. unfold within in Hw. unfold check_str. eapply pst_bind; [apply p_bool; [exact Hm|split; lia]|]. intros b _.
  destruct (negb (b =? 0)); [exact I|].
  eapply pst_bind; [apply (p_dint m (a + 4) 4 Hm); split; lia|]. intros size Hs. cbn in Hs.
  eapply pst_bind; [apply p_slot; [exact Hh|exact Hm|split; lia|lia]|]. intros ? _.
  eapply pst_bind; [apply p_bool; [exact Hm|split; lia]|]. intros ? _.
  eapply pst_bind; [apply pst_verify|]. intros ? _.
  eapply pst_bind; [apply p_cptr; [exact Hm|split; lia]|]. intros p _.
  eapply pst_weak; [apply pst_verify|auto].
Qed.
Lemma p_conv_str m a : good_mem m -> within a 16 -> - 2 ^ 63 <= a < 2 ^ 63 ->
  pst F (local m a 16)
    (let* b0 := dint hb m a 1 in
     let* m := if b0 =? 0 then let* m := conv_slot hb fb raw true strict B hi m (a + 8) (TInt 1) in swap hb fb m (a + 4) 4 else Ok m in
     let* _ := when true (check_str hb raw strict B hi m a) in Ok m).
Proof.
  intros Hm Hw Ha. pose proof Hw as Hw'. unfold within in Hw'. eapply pst_bind; [apply (p_dint m a 1 Hm); split; cbn; lia|]. intros b _.
  apply pst_bind with (P := local m a 16).
  - destruct (b =? 0); [|now apply local_refl].
    eapply pst_bind; [apply p_conv_slot; try assumption; cbn; lia|]. intros m1 [L1 _].
    eapply pst_weak; [apply p_swap; [apply L1|split; lia]|]. intros m2 L2. eapply local_trans; [exact L1|exact L2|lia..].
  - intros m1 L1. cbn [when]. eapply pst_bind; [apply p_str; [apply L1|exact Hw]|]. intros ? _. exact L1.
Qed.
Lemma p_inline f : forall t, wf A t -> size_of t < 2 ^ 62 -> inline t -> deep f t -> forall m a, good_mem m -> a <> 0 -> - 2 ^ 63 <= a < 2 ^ 63 ->
  pst F (local m a (size_of t)) (CV f t m a).
Proof.
  induction f as [|f IH]; intros t Hwt Hst Hin Hd m a Hm Ha0 Ha; [now apply deep0 in Hd|]. cbn [conv when].
  pose proof (size_pos t Hwt) as Hpos.
  eapply pst_bind; [apply p_raw; lia|]. intros ? Hw. specialize (Hw Hh). pose proof Hw as Hw'. unfold within in Hw'.
  inversion Hin; subst; inversion Hwt; subst; cbn [size_of] in *.
  - now apply p_swap.
  - now apply local_refl.
  - eapply pst_bind; [now apply p_conv_ptr|]. intros m1 L1.
    eapply pst_bind; [apply p_slot; [exact Hh|apply L1|exact Hw|pose proof (size_pos _ (wf_of n)); specialize (Hsz n); lia]|]. intros ? _. exact L1.
  - apply p_foldM; [|now apply local_refl]. intros [o t] m1 Hi L1. cbn [fst snd].
    match goal with H : forall o t, In (o, t) fs -> _ |- _ => destruct (H o t Hi) as (W1 & W2 & W3 & _) end.
    pose proof (size_pos t W1).
    match goal with H : Forall _ fs |- _ => rewrite Forall_forall in H; specialize (H _ Hi); cbn [snd] in H end.
    eapply pst_weak; [apply IH; try assumption; try lia; [apply (deep_agg _ _ _ _ _ Hd Hi)|apply L1]|].
    intros m2 L2. eapply local_trans; [exact L1|exact L2|lia..].
  - pose proof (size_pos t0 ltac:(assumption)).
    eapply pst_bind; [apply p_bool; [exact Hm|split; lia]|]. intros v _. destruct (v =? 0); [now apply local_refl|].
    eapply pst_weak; [apply IH; try assumption; try lia; apply (deep_opt _ _ _ _ _ Hd)|].
    intros m2 L2. eapply local_wide; [exact L2|lia..].
  - eapply pst_bind; [apply (p_dint m a 1 Hm); split; cbn; lia|]. intros i Hi.
    eapply pst_bind; [apply pst_verify|]. intros ? Hlt. cbn beta in Hlt, Hi.
    destruct (nth_error ts (Z.to_nat i)) as [t|] eqn:En; [|apply nth_error_None in En; lia].
    apply nth_error_In in En.
    match goal with H : forall t, In t ts -> _ |- _ => destruct (H t En) as (W1 & W2 & _) end.
    pose proof (size_pos t W1).
    match goal with H : Forall _ ts |- _ => rewrite Forall_forall in H; specialize (H _ En) end.
    eapply pst_weak; [apply IH; try assumption; try lia; apply (deep_var _ _ _ _ _ _ Hd En)|].
    intros m2 L2. eapply local_wide; [exact L2|lia..].
  - now apply p_conv_str.
  - now apply local_refl.
Qed.

Lemma p_vec m a w T : wf A T -> size_of T < 2 ^ 62 -> good_mem m -> In w [4; 8]%nat -> within a (12 + 2 * Z.of_nat w) ->
  pst F (fun _ => match dint hb m (a + 8) w, cptr hb raw strict m a with
                  | Ok used, Ok (Some q) => within q (used * size_of T)
                  | Ok used, Ok None => used = 0
                  | _, _ => True end) (check_vec hb raw strict B hi m a w T).
Proof.
  intros HT HsT Hm Hiw Hw. unfold within in Hw. unfold check_vec. pose proof (size_pos T HT).
  assert (Hw8 : 256 ^ Z.of_nat w <= 2 ^ 64) by (destruct Hiw as [<-|[<-|[]]]; cbn; lia).
  eapply pst_bind; [apply (p_dint m (a + 8 + Z.of_nat w) w Hm); split; lia|]. intros alloc Hal. cbn beta in Hal.
  apply pst_bind with (P := fun k => k = alloc * size_of T /\ 0 <= k < 2 ^ 64).
  { cbn [checked_multiplication].
    destruct (multiply_if_ok_spec ty_u64 alloc (size_of T)) as [[-> Hi]|[-> Hi]];
      [reflexivity|unfold ity_ok; cbn; lia|apply u64_iff; lia|apply u64_iff; lia| |exact I].
    cbn. split; [reflexivity|now apply u64_iff]. }
  intros k [-> Hk].
  eapply pst_bind; [apply p_slot; [exact Hh|exact Hm|split; lia|exact Hk]|]. intros ? Hq.
  eapply pst_bind; [apply p_bool; [exact Hm|split; lia]|]. intros ? _.
  eapply pst_bind; [apply pst_verify|]. intros ? _.
  pose proof (p_dint m (a + 8) w Hm ltac:(split; lia)) as Pu. destruct (dint hb m (a + 8) w) as [used| | |]; cbn [pst bind] in *; try easy.
  destruct (alloc =? used) eqn:E; cbn [verify bind pst]; [|exact I]. apply Z.eqb_eq in E. subst alloc.
  pose proof (p_cptr m a Hm ltac:(split; lia)) as Pp. destruct (cptr hb raw strict m a) as [[q|]| | |]; cbn [pst bind] in *; try easy.
  - destruct (used =? 0); cbn; [exact I|]. now apply Hq.
  - destruct (used =? 0) eqn:E; cbn; [lia|exact I].
Qed.

Lemma p_hloop (I : mem -> Prop) (g : nat -> mem -> res mem) c cap ctrl :
  length ctrl = (cap + 9)%nat -> Forall ctrl_ok ctrl -> cb ctrl cap = END ->
  (forall i, (i < cap)%nat -> is_empty (cb ctrl i) || is_full (cb ctrl i) || is_deleted (cb ctrl i) = true) ->
  (forall m, I m -> rdn m c (cap + 9) = Some ctrl) ->
  (forall i m, (i < cap)%nat -> I m -> pst F I (g i m)) ->
  forall k i m, (i <= cap)%nat -> (cap - i < k)%nat -> (i = cap \/ is_full (cb ctrl i) = true) -> I m ->
  pst F I (hloop g c cap k i m).
Proof.
  intros Hlen Hok Hend Hfront Hct Hg. induction k as [|k IH]; intros i m Hi Hk Hc Hm; [lia|]. cbn [hloop].
  destruct (Nat.eqb_spec i cap) as [->|Ne]; [exact Hm|]. destruct Hc as [Hc|Hc]; [lia|].
  eapply pst_bind; [apply Hg; [lia|exact Hm]|]. intros m1 Hm1.
  unfold ctrl_at, dbytes. rewrite (Hct m1 Hm1). cbn [bind]. unfold next_. cbn [t_cap].
  destruct (skip_ok ctrl cap Hlen Hok Hend Hfront (S cap) (i + 1)%nat ltac:(lia) ltac:(lia)) as (j & -> & Hj & P & R). cbn [bind].
  apply IH; try assumption; lia.
Qed.

Definition table_at (m : mem) (a : Z) (T : ty) : Prop :=
  match dint hb m (a + 24) 8, cptr hb raw strict m a, cptr hb raw strict m (a + 8) with
  | Ok cap, Ok pe, Ok (Some c) =>
      0 <= cap /\ within c (cap + 9) /\
      (exists ctrl, rdn m c (Z.to_nat cap + 9) = Some ctrl /\ length ctrl = (Z.to_nat cap + 9)%nat /\ Forall ctrl_ok ctrl /\
        cb ctrl (Z.to_nat cap) = END /\
        forall i, (i < Z.to_nat cap)%nat -> is_empty (cb ctrl i) || is_full (cb ctrl i) || is_deleted (cb ctrl i) = true) /\
      match pe with None => cap = 0 | Some e => c = e + cap * size_of T /\ within e (cap * size_of T) end
  | UB, _, _ | _, UB, _ | _, _, UB => False
  | Ok _, Ok _, Ok None => False
  | _, _, _ => True
  end.
Lemma p_hash m a T : wf A T -> size_of T < 2 ^ 62 -> good_mem m -> within a 48 ->
  pst F (fun _ => table_at m a T) (check_hash hb raw strict B hi m a T).
Proof.
  intros HT HsT Hm Hw. unfold within in Hw. unfold check_hash, table_at. pose proof (size_pos T HT).
  pose proof (p_cptr m (a + 8) Hm ltac:(split; lia)) as Pc. destruct (cptr hb raw strict m (a + 8)) as [[c|]| | |] eqn:Ec; cbn [pst bind verify] in *; try easy.
  pose proof (p_dint m (a + 24) 8 Hm ltac:(split; lia)) as Pcap. destruct (dint hb m (a + 24) 8) as [cap| | |]; cbn [pst bind] in *; try easy.
  change (256 ^ Z.of_nat 8) with (2 ^ 64) in Pcap.
  cbn [checked_multiplication].
  destruct (multiply_if_ok_spec ty_u64 cap (size_of T)) as [[-> Hi]|[-> Hi]];
      [reflexivity|unfold ity_ok; cbn; lia|apply u64_iff; lia|apply u64_iff; lia| |exact I].
  cbn [bind]. apply u64_iff in Hi.
  apply pst_bind with (P := fun c9 => c9 = cap + 9 /\ c9 < 2 ^ 64).
  { cbn [checked_addition].
    destruct (add_if_ok_spec ty_u64 cap 1) as [[-> Hi2]|[-> Hi2]]; [apply u64_iff; lia|apply u64_iff; lia| |exact I].
    cbn [bind]. destruct (add_if_ok_spec ty_u64 (cap + 1) 8) as [[-> Hi3]|[-> Hi3]]; [exact Hi2|apply u64_iff; lia| |exact I].
    cbn. apply u64_iff in Hi3. lia. }
  intros c9 [-> H9].
  eapply pst_bind; [apply pst_add; apply u64_iff; lia|]. intros tot [-> Htot]. apply u64_iff in Htot.
  eapply pst_bind; [apply p_slot; [exact Hh|exact Hm|split; lia|exact Htot]|]. intros ? Hqe.
  eapply pst_bind; [apply p_slot; [exact Hh|exact Hm|split; lia|lia]|]. intros ? Hqc. specialize (Hqc c Ec).
  pose proof (p_cptr m a Hm ltac:(split; lia)) as Pe. destruct (cptr hb raw strict m a) as [pe| | |]; cbn [pst bind] in *; try easy.
  eapply pst_bind; [apply pst_verify|]. intros ? He.
  eapply pst_bind; [apply (p_dint m (a + 16) 8 Hm); split; lia|]. intros size Hsize.
  eapply pst_bind; [apply pst_verify|]. intros ? Hnull.
  eapply pst_bind; [apply p_bool; [exact Hm|split; lia]|]. intros ? _.
  eapply pst_bind; [apply pst_verify|]. intros ? _.
  eapply pst_bind; [apply (p_dint m (a + 32) 8 Hm); split; lia|]. intros growth Hgr. cbn beta in *.
  replace (Z.to_nat (cap + 9)) with (Z.to_nat cap + 9)%nat by lia.
  eapply pst_bind; [apply p_dbytes; [exact Hm|unfold within in *; lia]|]. intros ctrl (Bl & Ll & Er).
  assert (Ecap : cap = Z.of_nat (Z.to_nat cap)) by lia. set (n := Z.to_nat cap) in *. rewrite Ecap.
  destruct (check_ctrl_cases ctrl n Ll size growth) as [E|E]; rewrite E; cbn [pst]; [|exact I].
  destruct (check_ctrl_facts ctrl n Ll size growth E) as (F1 & F2 & F3).
  split; [lia|]. split; [unfold within in *; lia|]. split; [now exists ctrl|].
  destruct pe as [e|]; [|lia]. specialize (Hqe e eq_refl). unfold within in *. rewrite <- Ecap. lia.
Qed.

Ltac fin P := cbn [bind pst] in P |- *; first [exact I | exact P | solve [destruct P] | idtac].
Lemma p_conv f : Forall (flat_tables env) env ->
  forall t, wf A t -> size_of t < 2 ^ 62 -> flat_tables env t -> deep f t -> forall m a, good_mem m -> a <> 0 -> - 2 ^ 63 <= a < 2 ^ 63 ->
  pst F good_mem (CV f t m a).
Proof.
  intros Henv. assert (Hof : forall n, flat_tables env (tyof env n)) by (intros n; apply tyof_ok; [constructor|exact Henv]).
  assert (Hsp : forall n, 0 < size_of (tyof env n)) by (intros n; apply size_pos, wf_of).
  induction f as [|f IH]; intros t Hwt Hst Hin Hd m a Hm Ha0 Ha; [now apply deep0 in Hd|].
  cbn [conv when].
  pose proof (size_pos t Hwt) as Hpos.
  pose proof (p_raw a (size_of t) (align_of t) Ha0 Ha ltac:(lia)) as Pw.
  destruct (check_raw B hi a (size_of t) (align_of t)) as [u| | |]; fin Pw.
  specialize (Pw Hh). pose proof Pw as Hw'. unfold within in Hw'.
  inversion Hin; subst; inversion Hwt; subst; cbn [size_of] in *.
  - eapply pst_weak; [now apply p_swap|]. now intros ? [].
  - exact Hm.
  - eapply pst_bind; [now apply p_conv_ptr|]. intros m1 [Hm1 _].
    eapply pst_bind; [apply p_slot; [exact Hh|exact Hm1|exact Pw|specialize (Hsp n); specialize (Hsz n); lia]|]. intros ? _. exact Hm1.
  - apply p_foldM; [|exact Hm]. intros [o t] m1 Hi Hm1. cbn [fst snd].
    match goal with H : forall o t, In (o, t) fs -> _ |- _ => destruct (H o t Hi) as (W1 & W2 & W3 & _) end.
    pose proof (size_pos t W1).
    match goal with H : Forall _ fs |- _ => rewrite Forall_forall in H; specialize (H _ Hi); cbn [snd] in H end.
    apply IH; try assumption; try lia. apply (deep_agg _ _ _ _ _ Hd Hi).
  - pose proof (size_pos t0 ltac:(assumption)).
    eapply pst_bind; [apply p_bool; [exact Hm|split; lia]|]. intros v _. destruct (v =? 0); [exact Hm|].
    apply IH; try assumption; try lia. apply (deep_opt _ _ _ _ _ Hd).
  - eapply pst_bind; [apply (p_dint m a 1 Hm); split; cbn; lia|]. intros i Hi.
    eapply pst_bind; [apply pst_verify|]. intros ? Hlt. cbn beta in Hlt, Hi.
    destruct (nth_error ts (Z.to_nat i)) as [t|] eqn:En; [|apply nth_error_None in En; lia].
    apply nth_error_In in En.
    match goal with H : forall t, In t ts -> _ |- _ => destruct (H t En) as (W1 & W2 & _) end.
    pose proof (size_pos t W1).
    match goal with H : Forall _ ts |- _ => rewrite Forall_forall in H; specialize (H _ En) end.
    apply IH; try assumption; try lia. apply (deep_var _ _ _ _ _ _ Hd En).
  - eapply pst_bind; [apply p_conv_slot; try assumption; specialize (Hsp n); specialize (Hsz n); lia|]. intros m1 [[Hm1 _] _].
    apply pst_bind with (P := fun _ => True).
    { eapply pst_bind; [apply p_bool; [exact Hm1|split; lia]|]. intros ? _. eapply pst_weak; [apply pst_verify|auto]. }
    intros ? _. eapply pst_bind; [apply p_cptr; [exact Hm1|split; lia]|]. intros [q|] Hq; [|exact Hm1].
    apply IH; try tauto; try apply wf_of; try apply Hsz; try apply Hof. now apply deep_uniq.
  - specialize (Hsp n); pose proof (Hsz n).
    assert (Hw0 : (0 < w)%nat) by (match goal with H : In w _ |- _ => destruct H as [<-|[<-|[]]]; lia end).
    eapply pst_bind; [apply p_conv_slot; try assumption; lia|]. intros m1 [[Hm1 _] _].
    eapply pst_bind; [apply (p_swap m1 (a + 8 + Z.of_nat w) w Hm1); split; lia|]. intros m2 [Hm2 _].
    eapply pst_bind; [apply (p_swap m2 (a + 8) w Hm2); split; lia|]. intros m3 [Hm3 _].
    eapply pst_bind; [apply (p_vec m3 a w (tyof env n)); try assumption; [apply wf_of|split; lia]|]. intros ? Hv. cbn beta in Hv.
    pose proof (p_dint m3 (a + 8) w Hm3 ltac:(split; lia)) as Pu.
    destruct (dint hb m3 (a + 8) w) as [used| | |]; fin Pu.
    pose proof (p_cptr m3 a Hm3 ltac:(split; lia)) as Pp.
    destruct (cptr hb raw strict m3 a) as [[q|]| | |]; fin Pp.
    2:{ subst used. exact Hm3. }
    apply p_foldM; [|exact Hm3]. intros i m4 Hi Hm4. apply in_seq in Hi. unfold within in Hv.
    assert (0 <= Z.of_nat i * size_of (tyof env n) <= used * size_of (tyof env n))
      by (split; [apply Z.mul_nonneg_nonneg; lia|apply Z.mul_le_mono_nonneg_r; lia]).
    apply IH; try assumption; try apply wf_of; try apply Hsz; try apply Hof; try lia. now apply (deep_vec _ _ _ _ Hd).
  - eapply pst_weak; [now apply p_conv_str|]. now intros ? [].
  - exact Hm.
  - specialize (Hsp n); pose proof (Hsz n). set (T := tyof env n) in *.
    eapply pst_bind; [apply p_conv_slot; try assumption; lia|]. intros m1 [[Hm1 _] _].
    eapply pst_bind; [apply p_conv_slot; try assumption; cbn; lia|]. intros m2 [[Hm2 _] _].
    eapply pst_bind; [apply (p_swap m2 (a + 16) 8 Hm2); split; lia|]. intros m3 [Hm3 _].
    eapply pst_bind; [apply (p_swap m3 (a + 24) 8 Hm3); split; lia|]. intros m4 [Hm4 _].
    eapply pst_bind; [apply (p_swap m4 (a + 32) 8 Hm4); split; lia|]. intros m5 [Hm5 _].
    eapply pst_bind; [apply (p_hash m5 a T); try assumption; apply wf_of|]. intros ? Hv. unfold table_at in Hv.
    pose proof (p_dint m5 (a + 24) 8 Hm5 ltac:(split; lia)) as Pcap.
    destruct (dint hb m5 (a + 24) 8) as [cap| | |]; fin Pcap.
    pose proof (p_cptr m5 a Hm5 ltac:(split; lia)) as Pe.
    destruct (cptr hb raw strict m5 a) as [pe| | |]; fin Pe.
    pose proof (p_cptr m5 (a + 8) Hm5 ltac:(split; lia)) as Pc.
    destruct (cptr hb raw strict m5 (a + 8)) as [[c|]| | |]; fin Pc; [|destruct Hv].
    cbn beta iota in Hv. destruct Hv as (V0 & V1 & (ctrl & V2 & V3 & V4 & V5 & V6) & V7).
    unfold ctrl_at, dbytes. rewrite V2. cbn [bind]. unfold begin_. cbn [t_cap].
    destruct (skip_ok ctrl (Z.to_nat cap) V3 V4 V5 V6 (S (Z.to_nat cap)) 0%nat ltac:(lia) ltac:(lia)) as (j & -> & Hj & _ & R). cbn [bind].
    destruct pe as [e|].
    + destruct V7 as [-> V7]. unfold within in V7, V1.
      eapply pst_weak; [apply p_hloop with (I := local m5 e (cap * size_of T)) (ctrl := ctrl); try assumption; try lia|].
      * intros m6 [_ Hs]. rewrite <- V2. apply rdn_ext. intros z Hz. apply Hs. lia.
      * intros i m6 Hi L6.
        assert (Hb1 : 0 <= Z.of_nat i * size_of T <= (cap - 1) * size_of T)
          by (split; [apply Z.mul_nonneg_nonneg; lia|apply Z.mul_le_mono_nonneg_r; lia]).
        rewrite Z.mul_sub_distr_r in Hb1.
        eapply pst_weak; [apply p_inline; try assumption; try lia; [apply wf_of|now apply deep_hash|apply L6]|].
        intros m7 L7. eapply local_trans; [exact L6|exact L7|lia..].
      * now apply local_refl.
      * now intros ? [].
    + subst cap. replace j with 0%nat by lia. exact Hm5.
Qed.
End Safe.

(* nothing the reader does on any bytes is undefined or reaches outside of the buffer *)
Lemma convert_safe env A t hb raw strict m th f B b (F : Prop) :
  types_ok A env t -> inline_tables env t -> raw = true \/ strict = false ->
  0 < B < 2 ^ 62 -> Z.of_nat (length b) < 2 ^ 62 -> bytes_ok b -> is_mode_enabled m UNCHECKED = false ->
  F \/ (exists k, nesting env k t /\ (k <= f)%nat) ->
  pst F (fun r => fst r = B + Z.of_nat (data_start m) /\ outside_same B (Z.of_nat (length b)) (at_base B b) (snd r))
    (convert env hb raw strict m th f t B b).
Proof.
  intros (Hwf & HA & Hwt & Hs) [Hf1 Hf2] Hmode HB Hl Hb Hun Hdeep. inversion Hs; subst.
  unfold convert. destruct (check_cases hb m th b Hb) as [E|E]; rewrite E; cbn [bind pst]; [|exact I]. rewrite Hun. cbn [negb].
  assert (Hsz : forall n, size_of (tyof env n) < 2 ^ 62) by (intros n; apply tyof_ok; [cbn; lia|assumption]).
  set (hi := B + Z.of_nat (length b)).
  apply pst_bind with (P := good_mem B hi (at_base B b)).
  - pose proof (start_small m).
    apply (p_conv env A Hwf Hsz B hi ltac:(lia) ltac:(unfold hi; lia) F hb (is_mode_enabled m SERIALIZE_BIG_ENDIAN) raw strict Hmode
      (at_base B b) ltac:(unfold hi; lia) f Hf2 t Hwt ltac:(assumption) Hf1 Hdeep); try lia.
    split; [|reflexivity]. intros z Hz. unfold at_base. replace (z <? B) with false by lia.
    destruct (nth_error b (Z.to_nat (z - B))) as [x|] eqn:En.
    + exists x. split; [reflexivity|]. apply nth_error_In in En. unfold bytes_ok in Hb. rewrite Forall_forall in Hb. now apply Hb.
    + apply nth_error_None in En. unfold hi in Hz. lia.
  - intros m1 [_ Hm1]. cbn. split; [reflexivity|]. intros z Hz. now apply Hm1.
Qed.
