(* The second pass of DEEP_CHECK: it accepts exactly if everything reachable is well formed. *)
From Verif Require Import Base Bytes ArithModel ArithSpec ArithProofs HeaderModel HeaderSpec HeaderProofs HashModel HashSpec HashBits HashInv
  SerialModel SerialSpec SerialMem SerialPost SerialSer SerialDeser SerialRead SerialTop SerialFinal SerialLimits
  ConvModel ConvSpec ConvProofs ConvSafe DeepModel DeepSpec.
Local Open Scope Z_scope.

Lemma seen_iff k a st : seen k a st = true <-> In (k, a) st.
Proof.
  unfold seen. rewrite existsb_exists. split.
  - intros ([k' a'] & Hi & H). cbn in H. apply andb_prop in H as [H1 H2].
    apply N.eqb_eq in H1. apply Z.eqb_eq in H2. now subst.
  - intros H. exists (k, a). split; [exact H|]. cbn. now rewrite N.eqb_refl, Z.eqb_refl.
Qed.

Lemma wrap_rng x : - 2 ^ 63 <= wrap_i64 x < 2 ^ 63.
Proof.
  unfold wrap_i64. apply z_of_u_range. unfold u_of_z, Z64, W64. pose proof (Z.mod_pos_bound x 18446744073709551616 ltac:(lia)). lia.
Qed.

(* [depth k t a]: the data at a nest at most k owning members deep; pointers lead to places in P *)
Section Depth.
Variables (env : list ty) (R : env_of_reader) (P : nat -> Z -> Prop).
Inductive depth : nat -> ty -> Z -> Prop :=
| de_leaf k t a : match t with TInt _ | TRaw _ | TStr | TCStr => True | _ => False end -> depth (S k) t a
| de_ptr k n a : (forall q, r_ptr R a = Some (Some q) -> P n q) -> depth (S k) (TPtr n) a
| de_agg k fs sz al a : (forall o t, In (o, t) fs -> depth k t (a + o)) -> depth (S k) (TAgg fs sz al) a
| de_opt k t off sz al a : (forall b, rint R a 1 = Some b -> b <> 0%N -> depth k t (a + off)) -> depth (S k) (TOpt t off sz al) a
| de_var k ts off sz al a : (forall i t, rint R a 1 = Some i -> nth_error ts (N.to_nat i) = Some t -> depth k t (a + off)) ->
    depth (S k) (TVar ts off sz al) a
| de_uniq k n a : (forall q, rptr R (r_rel R) a = Some (Some q) -> depth k (tyof env n) q) -> depth (S k) (TUniq n) a
| de_vec k w ix n a : (forall q used i, rptr R (r_rel R) a = Some (Some q) -> rint R (a + 8) w = Some used -> (i < N.to_nat used)%nat ->
    depth k (tyof env n) (q + Z.of_nat i * size_of (tyof env n))) -> depth (S k) (TVec w ix n) a
| de_hash k n a : (forall e c cap ctrl i, rptr R (r_rel R) a = Some (Some e) -> rptr R (r_rel R) (a + 8) = Some (Some c) ->
    rint R (a + 24) 8 = Some cap -> rdn (r_mem R) c (N.to_nat cap + 9) = Some ctrl ->
    (i < N.to_nat cap)%nat -> is_full (nth i ctrl EMPTY) = true ->
    depth k (tyof env n) (e + Z.of_nat i * size_of (tyof env n))) -> depth (S k) (THash n) a.
End Depth.
Lemma nesting_depth env R k : forall t a, nesting env k t -> depth env R (fun _ _ => True) k t a.
Proof.
  induction k as [|k IH]; intros t a H; inversion H; subst; try (apply de_leaf; exact I).
  - now apply de_ptr.
  - apply de_agg. intros o t Hi. apply IH. match goal with F : Forall _ fs |- _ => rewrite Forall_forall in F; exact (F _ Hi) end.
  - apply de_opt. auto.
  - apply de_var. intros i t _ Hi. apply IH. apply nth_error_In in Hi. match goal with F : Forall _ ts |- _ => rewrite Forall_forall in F; exact (F _ Hi) end.
  - apply de_uniq. auto.
  - apply de_vec. auto.
  - apply de_hash. auto.
Qed.

Lemma depth_up env R P k : forall t a, depth env R P k t a -> forall k', (k <= k')%nat -> depth env R P k' t a.
Proof.
  induction k as [|k IH]; intros t a H k' Hk; [inversion H|]. destruct k' as [|k']; [lia|].
  assert (Hk' : (k <= k')%nat) by lia. inversion H; subst.
  - now apply de_leaf.
  - now apply de_ptr.
  - apply de_agg. eauto.
  - apply de_opt. eauto.
  - apply de_var. eauto.
  - apply de_uniq. eauto.
  - apply de_vec. eauto.
  - apply de_hash. eauto.
Qed.
Lemma mapM_each {I X} (g : I -> option (X * list ev)) l : forall y, mapM g l = Some y -> forall i, In i l -> exists x, g i = Some x.
Proof.
  induction l as [|j l IH]; cbn [mapM]; intros y H i Hi; [destruct Hi|].
  destruct (g j) as [[x u]|] eqn:E; [|discriminate H]. destruct (mapM g l) as [[xs us]|]; [|discriminate H].
  destruct Hi as [<-|Hi]; [eauto|]. exact (IH _ eq_refl i Hi).
Qed.
Lemma dec_depth env R (P : nat -> Z -> Prop) k : forall t a x, dec env R k t a = Some x ->
  (forall n s q, holds env R t a n s -> r_ptr R s = Some (Some q) -> P n q) -> depth env R P k t a.
Proof.
  induction k as [|k IH]; intros t a x H HP; [discriminate H|]. cbn [dec] in H.
  match type of H with (if ?c then _ else _) = _ => destruct c; [|discriminate H] end.
  destruct t; try (apply de_leaf; exact I).
  - apply de_ptr. intros q Hq. eapply HP; [constructor|exact Hq].
  - apply de_agg. intros o t Hi. destruct (mapM _ _) as [[vs u]|] eqn:E in H; [|discriminate H].
    destruct (mapM_each _ _ _ E _ Hi) as [y Hy]. apply (IH _ _ _ Hy). intros n s q Hh. apply HP. eapply h_agg; eassumption.
  - apply de_opt. intros b Eb Hb. rewrite Eb in H. apply N.eqb_neq in Hb as Hb'. rewrite Hb' in H. destruct (b =? 1)%N; [|discriminate H].
    destruct (dec env R k t (a + off)) as [y|] eqn:E; [|discriminate H]. apply (IH _ _ _ E). intros n s q Hh. apply HP. eapply h_opt; eassumption.
  - apply de_var. intros i t Ei Et. rewrite Ei, Et in H.
    destruct (dec env R k t (a + off)) as [y|] eqn:E; [|discriminate H]. apply (IH _ _ _ E). intros n s q Hh. apply HP. eapply h_var; eassumption.
  - apply de_uniq. intros q Eq. rewrite Eq in H. destruct (zero_at R (a + 8)); [|discriminate H].
    destruct (dec env R k (tyof env n) q) as [y|] eqn:E; [|discriminate H]. apply (IH _ _ _ E). intros n' s q' Hh. apply HP. eapply h_uniq; eassumption.
  - apply de_vec. intros q used i Eq Eu Hi. rewrite Eq, Eu in H.
    match type of H with context [match ?y with Some _ => _ | None => None end] => destruct y; [|discriminate H] end.
    match type of H with (if ?c then _ else _) = _ => destruct c; [|discriminate H] end.
    destruct (zero_at R _); [|discriminate H]. cbv zeta in H. destruct (used =? 0)%N eqn:E0; [apply N.eqb_eq in E0; lia|].
    destruct (inside R q _ _); [|discriminate H]. destruct (mapM _ _) as [[vs u]|] eqn:E in H; [|discriminate H].
    destruct (mapM_each _ _ _ E i) as [y Hy]; [apply in_seq; lia|]. apply (IH _ _ _ Hy). intros n' s q' Hh. apply HP. eapply h_vec; eassumption.
  - apply de_hash. intros e c cap ctrl i Ee Ec Ecap Er Hi Hf. rewrite Ee, Ec, Ecap in H.
    destruct (rint R (a + 16) 8); [|discriminate H]. destruct (rint R (a + 32) 8); [|discriminate H]. destruct (zero_at R (a + 40)); [|discriminate H].
    match type of H with (if ?c then _ else _) = _ => destruct c; [|discriminate H] end. rewrite Er in H.
    match type of H with (if ?c then _ else _) = _ => destruct c; [|discriminate H] end. cbv zeta in H.
    match type of H with (if ?c then _ else _) = _ => destruct c; [|discriminate H] end.
    destruct (mapM _ _) as [[vs u]|] eqn:E in H; [|discriminate H].
    destruct (mapM_each _ _ _ E i) as [y Hy]; [apply in_seq; lia|]. cbn beta in Hy. rewrite Hf in Hy.
    destruct (dec env R k _ _) as [w|] eqn:Ew; [|discriminate Hy].
    apply (IH _ _ _ Ew). intros n' s q' Hh. apply HP. eapply h_hash; eassumption.
Qed.

Section Deep.
Variables (env : list ty) (A : Z).
Hypothesis Hwf : wf_env A env.
Hypothesis Hsz : forall n, size_of (tyof env n) < 2 ^ 62.
Variables B hi : Z.
Hypothesis HB : 0 < B.
Hypothesis Hhi : B <= hi < 2 ^ 63.
Hypothesis Hlen : hi - B < 2 ^ 62.
Variables hb raw strict : bool.
Variable m : mem.
Hypothesis Hm : forall z, B <= z < hi -> exists x, m z = Some x /\ (x < 256)%N.
Variable keys : list N.
Variable F : Prop.
Notation U := (raw = false /\ strict = true).
Notation R := (plain hb m (negb raw) (Some (B, hi)) ctrl_tab).
Notation within a n := (B <= a /\ a + n <= hi).

(* P if accepted, T if rejected; undefined only if pointer arithmetic overflows, and then T holds as well *)
Definition okp {X} (P : X -> Prop) (T : Prop) (r : res X) : Prop :=
  match r with Ok x => P x | Throw => T | UB => U /\ T | Fuel => F end.
Lemma okp_bind {X Y} (P : X -> Prop) (Q : Y -> Prop) (T : Prop) r k : okp P T r -> (forall x, P x -> okp Q T (k x)) -> okp Q T (bind r k).
Proof. destruct r; cbn; auto. Qed.
Lemma okp_then {X Y} (P : X -> Prop) (Q : Y -> Prop) (T T' : Prop) r k : okp P T' r -> (T' -> T) -> (forall x, P x -> okp Q T (k x)) -> okp Q T (bind r k).
Proof. destruct r; cbn; intuition. Qed.
Lemma okp_weak {X} (P Q : X -> Prop) (T T' : Prop) r : okp P T r -> (forall x, P x -> Q x) -> (T -> T') -> okp Q T' r.
Proof. destruct r; cbn; intuition. Qed.
Lemma okp_verify (T : Prop) c : (c = false -> T) -> okp (fun _ => c = true) T (verify c).
Proof. destruct c; cbn; auto. Qed.

Definition adr (a : Z) : Prop := a <> 0 /\ - 2 ^ 63 <= a < 2 ^ 63.

Lemma rd1 n : forall a, within a (Z.of_nat n) -> exists l, rdn m a n = Some l /\ bytes_ok l /\ length l = n.
Proof.
  induction n as [|n IH]; intros a H; [exists []; repeat split; constructor|].
  destruct (IH (a + 1) ltac:(lia)) as (l & El & Bl & Ll). cbn [rdn].
  destruct (Hm a ltac:(lia)) as (x & -> & Hx). rewrite El. exists (x :: l). repeat split; [now constructor|cbn; lia].
Qed.
Lemma rint1 a w : within a (Z.of_nat w) ->
  exists x, rint R a w = Some x /\ dint hb m a w = Ok (Z.of_N x) /\ (x < 256 ^ N.of_nat w)%N.
Proof.
  intros H. destruct (rd1 w a H) as (l & El & Bl & Ll). exists (to_int hb l).
  unfold rint, dint, dbytes. cbn [plain r_mem r_be]. rewrite El. repeat split. rewrite <- Ll. now apply to_int_bound.
Qed.
Lemma int1 a w x : rint R a w = Some x -> within a (Z.of_nat w) -> dint hb m a w = Ok (Z.of_N x).
Proof. intros E H. destruct (rint1 a w H) as (y & E1 & E2 & _). congruence. Qed.
Lemma bool1 a x : within a 1 -> rint R a 1 = Some x -> okp (fun y => y = Z.of_N x /\ (x <= 1)%N) (1 < x)%N (check_bool hb m a).
Proof.
  intros H E. unfold check_bool. rewrite (int1 a 1 x E) by lia. cbn [bind].
  eapply okp_bind; [apply okp_verify; lia|]. intros ? Hx. cbn beta in Hx. cbn. split; [reflexivity|lia].
Qed.

Lemma raw1 p size al : adr p -> 0 <= size < 2 ^ 64 -> 0 < al ->
  check_raw B hi p size al = if inside R p size al then Ok tt else Throw.
Proof.
  intros [Hp0 Hp'] Hs Hal. unfold check_raw. replace (p =? 0) with false by lia. replace (hi =? 0) with false by lia.
  cbn [orb]. unfold inside. cbn [plain r_ck].
  destruct (B <=? p) eqn:Eb; cbn [verify bind andb]; [|reflexivity].
  assert (Hz : z_of_u (Z.to_N size) = if size <? 2 ^ 63 then size else size - 2 ^ 64).
  { unfold z_of_u, Z64. destruct (size <? 2 ^ 63) eqn:Ez;
    match goal with |- (if ?c then _ else _) = _ => destruct c eqn:E2 end; lia. }
  rewrite Hz. cbn [checked_addition].
  destruct (add_if_ok_spec ty_i64 p (if size <? 2 ^ 63 then size else size - 2 ^ 64)) as [[-> Hi]|[-> Hi]].
  - apply in_i64. lia.
  - apply in_i64. destruct (size <? 2 ^ 63) eqn:Ez; lia.
  - cbn [bind]. destruct (size <? 2 ^ 63) eqn:Ez.
    + destruct (p + size <=? hi) eqn:Eh; cbn [verify bind andb]; [|reflexivity].
      replace (size <? 9223372036854775807) with true by lia. cbn [verify bind].
      destruct (p mod al =? 0); reflexivity.
    + replace (p + size <=? hi) with false by lia. cbn [andb].
      replace (size <? 9223372036854775807) with false by lia.
      destruct (p + (size - 2 ^ 64) <=? hi); reflexivity.
  - cbn [bind]. replace (p + size <=? hi) with false; [reflexivity|].
    rewrite in_i64 in Hi. destruct (size <? 2 ^ 63) eqn:Ez; lia.
Qed.

Definition pin (p : option Z) (size al : Z) : bool := match p with None => true | Some q => inside R q size al end.
Definition out (p : option Z) : Prop := exists q, p = Some q /\ forall size al, inside R q size al = false.
Lemma ptr1 a : within a 8 -> exists p, rptr R (negb raw) a = Some p /\ r_ptr R a = Some p /\
  okp (fun p' => p' = p) (out p) (cptr hb raw strict m a) /\
  (forall size al, 0 <= size < 2 ^ 64 -> 0 < al ->
     okp (fun _ => pin p size al = true) (pin p size al = false) (check_slot hb raw strict B hi m a size al)) /\
  (forall q, p = Some q -> adr q).
Proof.
  intros Hw. destruct (rd1 8 a Hw) as (l & El & Bl & Ll).
  pose proof (to_int_bound hb l Bl) as Hx. rewrite Ll in Hx. change (256 ^ N.of_nat 8)%N with 18446744073709551616%N in Hx.
  set (x := to_int hb l) in *.
  exists (ptr_of (negb raw) a x). unfold rptr, rint. cbn [plain r_mem r_be r_ptr]. rewrite El. fold x.
  split; [reflexivity|]. split; [reflexivity|].
  assert (Hq : forall q, ptr_of (negb raw) a x = Some q -> adr q).
  { intros q. unfold ptr_of. cbv zeta. destruct (_ =? 0) eqn:E; [discriminate|]. intros H. injection H as <-. split; [lia|]. clear E.
    destruct (negb raw); [destruct (_ =? _); [lia|apply wrap_rng]|now apply z_of_u_range]. }
  assert (Hr : forall q size al, ptr_of (negb raw) a x = Some q -> 0 <= size < 2 ^ 64 -> 0 < al ->
     okp (fun _ => pin (ptr_of (negb raw) a x) size al = true) (pin (ptr_of (negb raw) a x) size al = false) (check_raw B hi q size al)).
  { intros q size al E Hs Hal. rewrite raw1 by (try assumption; now apply Hq). rewrite E. cbn [pin]. destruct (inside _ _ _ _); reflexivity. }
  unfold cptr, check_slot, check_optr, cptr, dptr, dbytes. rewrite El. cbn [bind]. cbv zeta. fold x.
  case_eq raw; intros Er; rewrite Er in *; cbn [negb] in *.
  - split; [reflexivity|]. split; [|exact Hq]. intros size al Hs Hal. cbn [bind].
    destruct (ptr_of false a x) as [q|] eqn:E; [|reflexivity]. now apply (Hr q).
  - set (off := z_of_u x) in *.
    assert (Hoff : - 2 ^ 63 <= off < 2 ^ 63) by (apply z_of_u_range; exact Hx).
    destruct (strict && negb (off =? NULLPTR_OFFSET) && negb ((NULLPTR_OFFSET <=? a + off) && (a + off <? - NULLPTR_OFFSET))) eqn:Es; cbn [bind okp].
    { assert (HU : raw = false /\ strict = true) by (split; [exact Er|]; case_eq strict; intros E; [reflexivity|rewrite E in Es; discriminate Es]).
      assert (Ho : out (ptr_of true a x)).
      { destruct strict; [|discriminate Es]. cbn [andb] in Es. destruct (off =? NULLPTR_OFFSET) eqn:E0; [discriminate Es|]. cbn [negb andb] in Es.
        assert (Hwrap : wrap_i64 (a + off) = a + off - 2 ^ 64).
        { unfold wrap_i64, z_of_u, u_of_z, Z64. unfold NULLPTR_OFFSET in Es. rewrite Z.mod_small by lia.
          match goal with |- (if ?c then _ else _) = _ => destruct c eqn:E2 end; lia. }
        exists (a + off - 2 ^ 64). split.
        - unfold ptr_of. fold off. rewrite E0, Hwrap. replace (a + off - 2 ^ 64 =? 0) with false by lia. reflexivity.
        - intros size al. unfold inside. cbn [plain r_ck]. now replace (B <=? a + off - 2 ^ 64) with false by lia. }
      split; [now split|]. split; [|exact Hq]. intros size al _ _. split; [exact HU|]. destruct Ho as (q & -> & Ho). apply Ho. }
    split; [reflexivity|]. split; [|exact Hq]. intros size al Hs Hal.
    destruct (ptr_of true a x) as [q|] eqn:E; [|reflexivity]. cbn [checked_addition].
    destruct (add_if_ok_spec ty_i64 off a) as [[-> Hi]|[-> Hi]].
    + apply in_i64. lia.
    + apply in_i64. lia.
    + cbn [bind]. now apply (Hr q).
    + cbn [bind okp pin]. rewrite in_i64 in Hi.
      assert (q = a + off - 2 ^ 64).
      { unfold ptr_of in E. fold off in E. destruct (off =? NULLPTR_OFFSET); [discriminate E|].
        assert (Hwrap : wrap_i64 (a + off) = a + off - 2 ^ 64).
        { unfold wrap_i64, z_of_u, u_of_z, Z64. rewrite Z.mod_small by lia.
          match goal with |- (if ?c then _ else _) = _ => destruct c eqn:E2 end; lia. }
        rewrite Hwrap in E. replace (a + off - 2 ^ 64 =? 0) with false in E by lia. injection E as <-. reflexivity. }
      subst q. unfold inside. cbn [plain r_ck]. now replace (B <=? a + off - 2 ^ 64) with false by lia.
Qed.

Lemma wf1 n : wf A (tyof env n).
Proof. destruct Hwf as (_ & _ & H). apply tyof_ok; [constructor; cbn; tauto|exact H]. Qed.
Lemma pos1 t : wf A t -> 0 < size_of t /\ 0 < align_of t.
Proof. intros H. destruct (wf_basic env A Hwf t H) as (? & ? & _). now split. Qed.
Lemma zero1 a x : rint R a 1 = Some x -> zero_at R a = if (x =? 0)%N then Some [Rd a 1] else None.
Proof. unfold zero_at. cbn [plain r_ck]. intros ->. reflexivity. Qed.

(* --- vectors --- *)
Definition vec_good (T : ty) (p : option Z) (used alloc b : N) : bool :=
  (alloc =? used)%N && (b =? 0)%N &&
  match p with None => (used =? 0)%N | Some q => negb (used =? 0)%N && inside R q (size_of T * Z.of_N used) (align_of T) end.
Lemma vec1 a w n p used alloc b : let T := tyof env n in
  In w [4; 8]%nat -> within a (9 + 2 * Z.of_nat w) ->
  rptr R (negb raw) a = Some p -> rint R (a + 8) w = Some used -> rint R (a + 8 + Z.of_nat w) w = Some alloc ->
  rint R (a + 8 + 2 * Z.of_nat w) 1 = Some b ->
  okp (fun _ => vec_good T p used alloc b = true) (vec_good T p used alloc b = false) (check_vec hb raw strict B hi m a w T).
Proof.
  intros T Hiw Hw Ep Eu Ea Eb. unfold check_vec.
  destruct (pos1 T (wf1 n)) as [Hs Hal]. pose proof (Hsz n) as HsT. fold T in HsT.
  assert (Hw8 : (256 ^ N.of_nat w <= 18446744073709551616)%N) by (destruct Hiw as [<-|[<-|[]]]; cbn; lia).
  destruct (ptr1 a ltac:(lia)) as (p' & Ep' & _ & Hc & Hk & _). assert (p' = p) by congruence. subst p'.
  assert (Hal8 : (alloc < 18446744073709551616)%N).
  { destruct (rint1 (a + 8 + Z.of_nat w) w ltac:(lia)) as (y & E1 & _ & E2). replace y with alloc in E2 by congruence. lia. }
  assert (Hnn : 0 <= Z.of_N alloc * size_of T) by (apply Z.mul_nonneg_nonneg; lia).
  rewrite (int1 _ _ _ Ea) by lia. cbn [bind checked_multiplication].
  destruct (multiply_if_ok_spec ty_u64 (Z.of_N alloc) (size_of T)) as [[-> Hi]|[-> Hi]];
    [reflexivity|unfold ity_ok; cbn; lia|apply u64_iff; lia|apply u64_iff; lia| |].
  2:{ cbn [bind okp]. unfold vec_good. rewrite u64_iff in Hi.
      destruct (N.eqb_spec alloc used) as [<-|]; [|reflexivity]. destruct (b =? 0)%N; [|reflexivity]. cbn [andb].
      destruct p as [q|].
      - destruct (N.eqb_spec alloc 0) as [->|]; [reflexivity|]. cbn [negb andb]. unfold inside. cbn [plain r_ck].
        destruct (B <=? q) eqn:E1; [|reflexivity]. replace (q + size_of T * Z.of_N alloc <=? hi) with false by lia. reflexivity.
      - destruct (N.eqb_spec alloc 0) as [->|]; [lia|reflexivity]. }
  cbn [bind]. apply u64_iff in Hi.
  eapply okp_then; [apply Hk; lia| |].
  { intros Hf. unfold vec_good, pin in *. destruct p as [q|]; [|discriminate].
    destruct (N.eqb_spec alloc used) as [<-|]; [|reflexivity]. rewrite Z.mul_comm in Hf. rewrite Hf. destruct (b =? 0)%N, (alloc =? 0)%N; reflexivity. }
  intros ? Hin.
  eapply okp_then; [apply (bool1 _ b); [lia|exact Eb]| |].
  { intros Hb. unfold vec_good. replace (b =? 0)%N with false by lia. now rewrite andb_false_r. }
  intros ? [-> Hb].
  eapply okp_bind; [apply okp_verify|].
  { intros Hb0. unfold vec_good. replace (b =? 0)%N with false by lia. now rewrite andb_false_r. }
  intros ? Hb0. cbn beta in Hb0.
  rewrite (int1 _ _ _ Eu) by lia. cbn [bind].
  eapply okp_bind; [apply okp_verify|].
  { intros Hb1. unfold vec_good. now replace (alloc =? used)%N with false by lia. }
  intros ? Hb1. cbn beta in Hb1. assert (alloc = used) by lia. subst alloc.
  eapply okp_then; [exact Hc|intros (q & -> & Ho); unfold vec_good; now rewrite Ho, !andb_false_r|]. intros ? ->. unfold vec_good. rewrite N.eqb_refl. replace (b =? 0)%N with true by lia. cbn [andb].
  eapply okp_weak; [apply okp_verify; intros E; exact E| |]; cbn beta; unfold pin in Hin;
  destruct p as [q|]; destruct (N.eqb_spec used 0); destruct (Z.eqb_spec (Z.of_N used) 0); try lia; cbn [Bool.eqb negb andb]; try easy; intros;
    rewrite Z.mul_comm; exact Hin.
Qed.

(* --- strings --- *)
Definition str_good (b0 : N) (p : option Z) (size b : N) : bool :=
  (b0 <=? 1)%N && (negb (b0 =? 0)%N ||
   (b =? 0)%N && match p with None => (size =? 0)%N | Some q => negb (size =? 0)%N && inside R q (Z.of_N size) 1 end).
Lemma str1 a b0 p size b : within a 16 ->
  rint R a 1 = Some b0 -> rptr R (negb raw) (a + 8) = Some p -> rint R (a + 4) 4 = Some size -> rint R (a + 1) 1 = Some b ->
  okp (fun _ => str_good b0 p size b = true) (str_good b0 p size b = false) (check_str hb raw strict B hi m a).
Proof.
  intros Hw E0 Ep Es Eb. unfold check_str.
  eapply okp_then; [apply (bool1 _ b0); [lia|exact E0]| |].
  { intros H. unfold str_good. now replace (b0 <=? 1)%N with false by lia. }
  intros ? [-> H0]. unfold str_good. replace (b0 <=? 1)%N with true by lia. cbn [andb].
  destruct (N.eqb_spec b0 0) as [->|Ne].
  2:{ replace (Z.of_N b0 =? 0) with false by lia. reflexivity. }
  cbn [negb orb Z.of_N Z.eqb].
  destruct (rint1 (a + 4) 4 ltac:(lia)) as (y & E1 & _ & E2). replace y with size in E2 by congruence. cbn in E2.
  rewrite (int1 _ _ _ Es) by lia. cbn [bind].
  destruct (ptr1 (a + 8) ltac:(lia)) as (p' & Ep' & _ & Hc & Hk & _). assert (p' = p) by congruence. subst p'.
  eapply okp_then; [apply Hk; lia| |].
  { unfold pin. destruct p as [q|]; [|discriminate]. intros ->. now rewrite !andb_false_r. }
  intros ? Hin.
  eapply okp_then; [apply (bool1 _ b); [lia|exact Eb]| |].
  { intros Hb. now replace (b =? 0)%N with false by lia. }
  intros ? [-> Hb].
  eapply okp_bind; [apply okp_verify|].
  { intros Hb0. now replace (b =? 0)%N with false by lia. }
  intros ? Hb0. cbn beta in Hb0. replace (b =? 0)%N with true by lia. cbn [andb].
  eapply okp_then; [exact Hc|intros (q & -> & Ho); now rewrite Ho, !andb_false_r|]. intros ? ->.
  eapply okp_weak; [apply okp_verify; intros E; exact E| |]; cbn beta; unfold pin in Hin;
  destruct p as [q|]; destruct (N.eqb_spec size 0); destruct (Z.eqb_spec (Z.of_N size) 0); try lia; cbn [Bool.eqb negb andb]; try easy; intros; exact Hin.
Qed.

(* --- hash tables --- *)
Definition hash_good (T : ty) (pe pc : option Z) (size cap growth b : N) : bool :=
  match pc with
  | None => false
  | Some c =>
      (b =? 0)%N && (Z.of_N cap * size_of T + Z.of_N cap <? 2 ^ 62) && inside R c (Z.of_N cap + 9) 1 &&
      match rdn m c (N.to_nat cap + 9) with None => false | Some ctrl => ctrl_tab size cap growth ctrl end &&
      match pe with
      | None => (cap =? 0)%N && (size =? 0)%N
      | Some e => (c =? e + Z.of_N cap * size_of T) && negb ((cap =? 0)%N && (size =? 0)%N) &&
                  inside R e (Z.of_N cap * size_of T + (Z.of_N cap + 9)) (align_of T)
      end
  end.
Lemma inside_small q n al : inside R q n al = true -> n < 2 ^ 62.
Proof. unfold inside. cbn [plain r_ck]. lia. Qed.
Lemma hash1 a n pe pc size cap growth b : let T := tyof env n in within a 48 ->
  rptr R (negb raw) a = Some pe -> rptr R (negb raw) (a + 8) = Some pc -> rint R (a + 16) 8 = Some size ->
  rint R (a + 24) 8 = Some cap -> rint R (a + 32) 8 = Some growth -> rint R (a + 40) 1 = Some b ->
  okp (fun _ => hash_good T pe pc size cap growth b = true) (hash_good T pe pc size cap growth b = false)
    (check_hash hb raw strict B hi m a T).
Proof.
  intros T Hw Ee Ec Es Ecap Eg Eb. unfold check_hash.
  destruct (pos1 T (wf1 n)) as [Hs Hal]. pose proof (Hsz n) as HsT. fold T in HsT.
  destruct (ptr1 a ltac:(lia)) as (pe' & Ep' & _ & Hce & Hke & _). assert (pe' = pe) by congruence. subst pe'. clear Ep'.
  destruct (ptr1 (a + 8) ltac:(lia)) as (pc' & Ep' & _ & Hcc & Hkc & _). assert (pc' = pc) by congruence. subst pc'. clear Ep'.
  destruct (rint1 (a + 24) 8 ltac:(lia)) as (y & E1 & _ & Hcap). replace y with cap in Hcap by congruence. clear y E1. cbn in Hcap.
  assert (Hnn : 0 <= Z.of_N cap * size_of T) by (apply Z.mul_nonneg_nonneg; lia).
  set (G := hash_good T pe pc size cap growth b).
  eapply okp_then; [exact Hcc|intros (q & -> & Ho); unfold G, hash_good; now rewrite Ho, !andb_false_r|]. intros ? ->.
  destruct pc as [c|]; [|reflexivity]. cbn [verify bind].
  rewrite (int1 _ _ _ Ecap) by lia. cbn [bind checked_multiplication].
  (* sizes above 2^62 are rejected anyway *)
  assert (Gbig : 2 ^ 62 <= Z.of_N cap * size_of T + Z.of_N cap -> G = false).
  { intros H. unfold G, hash_good. replace (_ <? _) with false by lia. now rewrite andb_false_r. }
  destruct (multiply_if_ok_spec ty_u64 (Z.of_N cap) (size_of T)) as [[-> Hi]|[-> Hi]];
    [reflexivity|unfold ity_ok; cbn; lia|apply u64_iff; lia|apply u64_iff; lia| |].
  2:{ cbn [bind okp]. rewrite u64_iff in Hi. apply Gbig. lia. }
  cbn [bind]. apply u64_iff in Hi.
  apply okp_bind with (P := fun c9 => c9 = Z.of_N cap + 9 /\ c9 < 2 ^ 64).
  { cbn [checked_addition].
    destruct (add_if_ok_spec ty_u64 (Z.of_N cap) 1) as [[-> Hi2]|[-> Hi2]]; [apply u64_iff; lia|apply u64_iff; lia| |rewrite u64_iff in Hi2; apply Gbig; lia].
    cbn [bind]. destruct (add_if_ok_spec ty_u64 (Z.of_N cap + 1) 8) as [[-> Hi3]|[-> Hi3]]; [exact Hi2|apply u64_iff; lia| |rewrite u64_iff in Hi3; apply Gbig; lia].
    cbn. apply u64_iff in Hi3. lia. }
  intros c9 [-> H9].
  apply okp_bind with (P := fun tot => tot = Z.of_N cap * size_of T + (Z.of_N cap + 9) /\ tot < 2 ^ 64).
  { cbn [checked_addition].
    destruct (add_if_ok_spec ty_u64 (Z.of_N cap * size_of T) (Z.of_N cap + 9)) as [[-> Hi2]|[-> Hi2]]; [apply u64_iff; lia|apply u64_iff; lia| |rewrite u64_iff in Hi2; apply Gbig; lia].
    cbn. apply u64_iff in Hi2. lia. }
  intros tot [-> Htot].
  eapply okp_then; [apply Hke; lia| |].
  { unfold pin, G, hash_good. destruct pe as [e|]; [|discriminate]. intros ->. now rewrite !andb_false_r. }
  intros ? Hie.
  eapply okp_then; [apply Hkc; lia| |].
  { unfold pin, G, hash_good. intros ->. now rewrite !andb_false_r. }
  intros ? Hic. unfold pin in Hic. pose proof (inside_small _ _ _ Hic) as Hsm.
  eapply okp_then; [exact Hce|intros (q & -> & Ho); unfold G, hash_good; now rewrite Ho, !andb_false_r|]. intros ? ->.
  eapply okp_bind; [apply okp_verify|].
  { unfold G, hash_good. destruct pe as [e|]; [|discriminate]. intros ->. now rewrite !andb_false_r. }
  intros ? Hec.
  rewrite (int1 _ _ _ Es) by lia. cbn [bind].
  assert (Z0 : forall x : N, (Z.of_N x =? 0) = (x =? 0)%N) by (intros k; destruct (N.eqb_spec k 0); lia).
  rewrite !Z0.
  eapply okp_bind; [apply okp_verify|].
  { unfold G, hash_good. destruct pe as [e|]; cbn [Bool.eqb]; destruct ((cap =? 0)%N && (size =? 0)%N); try discriminate; intros _; cbn [negb]; now rewrite !andb_false_r. }
  intros ? Hnull. cbn beta in Hnull, Hec.
  eapply okp_then; [apply (bool1 _ b); [lia|exact Eb]| |].
  { intros Hb. unfold G, hash_good. now replace (b =? 0)%N with false by lia. }
  intros ? [-> Hb]. rewrite Z0.
  eapply okp_bind; [apply okp_verify|].
  { intros Hb0. unfold G, hash_good. now rewrite Hb0. }
  intros ? Hb0. cbn beta in Hb0.
  rewrite (int1 _ _ _ Eg) by lia. cbn [bind].
  replace (Z.to_nat (Z.of_N cap + 9)) with (N.to_nat cap + 9)%nat by lia.
  assert (Hwc : within c (Z.of_nat (N.to_nat cap + 9))).
  { unfold inside in Hic. cbn [plain r_ck] in Hic. lia. }
  destruct (rd1 _ _ Hwc) as (ctrl & Er & Bl & Ll). unfold dbytes. rewrite Er. cbn [bind].
  assert (Hbig : Z.of_N cap * size_of T + Z.of_N cap < 2 ^ 62).
  { unfold pin in Hie. destruct pe as [e|]; [apply inside_small in Hie; lia|]. cbn [Bool.eqb] in Hnull.
    destruct (N.eqb_spec cap 0) as [->|]; [cbn; lia|discriminate]. }
  assert (HG : G = ctrl_tab size cap growth ctrl).
  { unfold G, hash_good. rewrite Hb0, Er, Hic. replace (_ <? _) with true by lia. cbn [andb].
    replace (match pe with None => _ | Some _ => _ end) with true; [apply andb_true_r|].
    destruct pe as [e|]; unfold pin in Hie.
    - rewrite Hec, Hie. cbn [Bool.eqb] in Hnull. destruct (_ && _) in *; [discriminate|reflexivity].
    - cbn [Bool.eqb] in Hnull. destruct (_ && _) in *; [reflexivity|discriminate]. }
  rewrite HG. unfold ctrl_tab.
  assert (Hc : Z.of_N cap = Z.of_nat (N.to_nat cap)) by lia. rewrite Hc.
  destruct (check_ctrl_cases ctrl (N.to_nat cap) Ll (Z.of_N size) (Z.of_N growth)) as [E|E]; rewrite E; reflexivity.
Qed.

(* --- the walk --- *)
Definition univ : list (N * Z) := list_prod (0%N :: keys) (map (fun i => B + Z.of_nat i) (seq 0 (Z.to_nat (hi - B)))).
Definition Inv (st : visited) : Prop := NoDup st /\ incl st univ.
Notation key := (key keys).
Definition all_fr : Prop := forall n, cstr_free (tyof env n).
Definition held (t : ty) (a : Z) (st : visited) : Prop :=
  forall n s q, holds env R t a n s -> r_ptr R s = Some (Some q) -> In (key n, s) st.
Definition valid (t : ty) (a : Z) : Prop := exists f x, dec env R f t a = Some x.
Definition good (st : visited) (e : N * Z) : Prop :=
  exists n q, key n = fst e /\ r_ptr R (snd e) = Some (Some q) /\ (all_fr -> valid (tyof env n) q) /\ held (tyof env n) q st.
Definition grow (st st' : visited) : Prop := incl st st' /\ Inv st' /\ forall e, In e st' -> In e st \/ good st' e.
Definition seenall (f : nat) (t : ty) (a : Z) (st : visited) : Prop :=
  (all_fr -> cstr_free t -> exists x, dec env R f t a = Some x) /\ held t a st.
Definition none (t : ty) (a : Z) : Prop := forall f, dec env R f t a = None.
Definition bad (t : ty) (a : Z) : Prop := exists t' a', reach env R t a t' a' /\ none t' a'.

Lemma held_mono t a st st' : held t a st -> incl st st' -> held t a st'.
Proof. intros H Hi n s q Hh Hq. apply Hi. eapply H; eassumption. Qed.
Lemma seen_mono f t a st st' : seenall f t a st -> incl st st' -> seenall f t a st'.
Proof. intros [H1 H2] Hi. split; [exact H1|]. eapply held_mono; eassumption. Qed.
Lemma good_mono st st' e : good st e -> incl st st' -> good st' e.
Proof. intros (n & q & H1 & H2 & H3 & H4) Hi. exists n, q. repeat split; try assumption. eapply held_mono; eassumption. Qed.
Lemma grow_refl st : Inv st -> grow st st.
Proof. intros H. split; [apply incl_refl|]. split; [exact H|]. tauto. Qed.
Lemma grow_trans a b c : grow a b -> grow b c -> grow a c.
Proof.
  intros (A1 & A2 & A3) (B1 & B2 & B3). split; [eapply incl_tran; eassumption|]. split; [exact B2|].
  intros e He. destruct (B3 e He) as [H|H]; [|now right]. destruct (A3 e H) as [H'|H']; [now left|right].
  eapply good_mono; eassumption.
Qed.
Lemma reach_trans t a t1 a1 t2 a2 : reach env R t a t1 a1 -> reach env R t1 a1 t2 a2 -> reach env R t a t2 a2.
Proof. intros H1 H2. induction H2; [exact H1|]. eapply r_step; eassumption. Qed.
Lemma bad_here t a : none t a -> bad t a.
Proof. intros H. exists t, a. split; [constructor|exact H]. Qed.
Lemma bad_ptr n a q : r_ptr R a = Some (Some q) -> bad (tyof env n) q -> bad (TPtr n) a.
Proof.
  intros Hq (t & a' & Hr & Hn). exists t, a'. split; [|exact Hn]. eapply reach_trans; [|exact Hr].
  eapply r_step; [constructor|constructor|exact Hq].
Qed.
Lemma bad_lift t1 a1 t2 a2 : (forall n s, holds env R t1 a1 n s -> holds env R t2 a2 n s) -> (none t1 a1 -> none t2 a2) ->
  bad t1 a1 -> bad t2 a2.
Proof.
  intros Hh Hn (t & a & Hr & Hd).
  assert (H : (t = t1 /\ a = a1) \/ reach env R t2 a2 t a).
  { clear Hd. induction Hr as [|t' a' n s q Hr IH Hs Hq]; [now left|]. right.
    destruct IH as [[-> ->]|IH]; [eapply r_step; [constructor|apply Hh; exact Hs|exact Hq]|eapply r_step; eassumption]. }
  destruct H as [[-> ->]|H]; [apply bad_here, Hn, Hd|]. now exists t, a.
Qed.

Variables (K : nat) (P : nat -> Z -> Prop).
Notation depth := (depth env R P).
Hypothesis HK : F \/ forall n q, P n q -> depth K (tyof env n) q.
Notation M := (length univ).
Definition enough (f : nat) (t : ty) (a : Z) (st : visited) : Prop :=
  F \/ exists k, depth k t a /\ (k + K * (M - length st) <= f)%nat.
Lemma inv_len st st' : Inv st -> incl st st' -> (length st <= length st')%nat.
Proof. intros [H _] Hi. now apply NoDup_incl_length. Qed.
Lemma enough0 t a st : enough 0 t a st -> F.
Proof. intros [H|(k & Hn & Hk)]; [exact H|]. destruct k; [inversion Hn|inversion Hk]. Qed.
Lemma enough_sub f t a t1 a1 st st1 : Inv st -> incl st st1 -> (forall k, depth (S k) t a -> depth k t1 a1) ->
  enough (S f) t a st -> enough f t1 a1 st1.
Proof.
  intros Hi Hs Hn [H|(k & Hk & Hf)]; [now left|]. right. destruct k as [|k]; [inversion Hk|].
  exists k. split; [now apply Hn|]. pose proof (inv_len st st1 Hi Hs).
  pose proof (Nat.mul_le_mono_l (M - length st1) (M - length st) K ltac:(lia)). lia.
Qed.
Lemma inv_max st : Inv st -> (length st <= M)%nat.
Proof. intros [H1 H2]. now apply NoDup_incl_length. Qed.
Lemma enough_ptr f n a q st e : r_ptr R a = Some (Some q) -> Inv (e :: st) -> enough (S f) (TPtr n) a st -> enough f (tyof env n) q (e :: st).
Proof.
  intros Hq Hi [H|(k & Hk & Hf)]; [now left|]. destruct HK as [H|HK']; [now left|]. right. exists K. split.
  { apply HK'. inversion Hk; subst; [contradiction|]. auto. }
  apply inv_max in Hi. cbn [length] in *. destruct k as [|k]; [inversion Hk|].
  replace (M - length st)%nat with (S (M - S (length st)))%nat in Hf by lia. rewrite Nat.mul_succ_r in Hf. lia.
Qed.

Lemma fold1 {I} (g : I -> visited -> res visited) (W : I -> visited -> Prop) (T : Prop) l :
  (forall i st st', W i st -> incl st st' -> W i st') ->
  forall st0 st, Inv st -> incl st0 st ->
  (forall i st1, In i l -> Inv st1 -> incl st0 st1 -> okp (fun st' => grow st1 st' /\ W i st') T (g i st1)) ->
  okp (fun st' => grow st st' /\ forall i, In i l -> W i st') T (foldM g l st).
Proof.
  intros Hmono. induction l as [|i l IH]; intros st0 st Hi Hs H; cbn [foldM].
  { cbn. split; [now apply grow_refl|]. intros i []. }
  eapply okp_bind; [apply H; [now left|exact Hi|exact Hs]|]. intros st1 [G1 W1].
  eapply okp_weak; [apply (IH st0 st1); [apply G1| |]| |auto].
  - eapply incl_tran; [exact Hs|apply G1].
  - intros j st2 Hj. apply H. now right.
  - cbn beta. intros st2 [G2 W2]. split; [eapply grow_trans; eassumption|].
    intros j [<-|Hj]; [|now apply W2]. eapply Hmono; [exact W1|apply G2].
Qed.
Lemma map_some {I X} (h : I -> option (X * list ev)) l : (forall i, In i l -> exists x, h i = Some x) -> exists y, mapM h l = Some y.
Proof.
  induction l as [|i l IH]; intros H; cbn [mapM]; [eauto|].
  destruct (H i (or_introl eq_refl)) as ([x tx] & ->). destruct (IH (fun j Hj => H j (or_intror Hj))) as ([y ty] & ->). eauto.
Qed.
Lemma map_none {I X} (h : I -> option (X * list ev)) l i : In i l -> h i = None -> mapM h l = None.
Proof.
  induction l as [|j l IH]; intros Hi Hn; [destruct Hi|]. cbn [mapM]. destruct Hi as [->|Hi].
  - now rewrite Hn.
  - destruct (h j) as [[x tx]|]; [|reflexivity]. now rewrite IH.
Qed.
Lemma guard a n al : inside R a n al = true -> (a mod al =? 0) && inside R a n al = true.
Proof. intros H. rewrite H. unfold inside in H. cbn [plain r_ck] in H. lia. Qed.
Lemma unguard t a : inside R a (size_of t) (align_of t) = false -> none t a.
Proof. intros H [|f]; [reflexivity|]. cbn [dec]. now rewrite H, andb_false_r. Qed.
Lemma inside_R1 a n al : inside R a n al = true -> B <= a /\ a + n <= hi.
Proof. unfold inside. cbn [plain r_ck]. lia. Qed.

Notation DC := (dchk env keys hb raw true strict B hi m).
Definition walks (f : nat) (t : ty) : Prop := forall a st, adr a -> Inv st -> enough f t a st ->
  okp (fun st' => grow st st' /\ seenall f t a st') (bad t a) (DC f t a st).

Lemma in_adr a n : within a n -> 0 <= n -> adr a.
Proof. unfold adr. lia. Qed.
Lemma in_univ n a : within a 8 -> In (key n, a) univ.
Proof.
  intros H. unfold univ. apply in_prod.
  - unfold DeepModel.key. destruct (nth_in_or_default n keys 0%N) as [Hi|Hi]; [now right|left; now rewrite Hi].
  - apply in_map_iff. exists (Z.to_nat (a - B)). split; [lia|]. apply in_seq. lia.
Qed.

Section Step.
Variable f : nat.
Hypothesis IH : forall t, wf A t -> size_of t < 2 ^ 62 -> walks f t.
Lemma IHn n : walks f (tyof env n).
Proof. apply IH; [apply wf1|apply Hsz]. Qed.

(* leaves *)
Lemma leaf t a st : Inv st -> (cstr_free t -> exists x, dec env R (S f) t a = Some x) -> (forall n s, ~ holds env R t a n s) ->
  grow st st /\ seenall (S f) t a st.
Proof.
  intros Hi Hd Hh. split; [now apply grow_refl|]. split; [auto|]. intros n s q H. destruct (Hh _ _ H).
Qed.

Lemma w_ptr n a st : adr a -> Inv st -> enough (S f) (TPtr n) a st -> inside R a 8 8 = true ->
  okp (fun st' => grow st st' /\ seenall (S f) (TPtr n) a st') (bad (TPtr n) a)
    (let* _ := check_slot hb raw strict B hi m a (size_of (tyof env n)) (align_of (tyof env n)) in
     let* p := cptr hb raw strict m a in
     match p with
     | None => Ok st
     | Some q => if seen (key n) a st then Ok st else DC f (tyof env n) q ((key n, a) :: st)
     end).
Proof.
  intros Ha Hi He G. pose proof (inside_R1 _ _ _ G) as Hw.
  destruct (ptr1 a Hw) as (p & _ & Ep & Hc & Hk & Hq).
  destruct (pos1 _ (wf1 n)) as [Hs Hal]. pose proof (Hsz n).
  eapply okp_then; [apply Hk; lia| |].
  { intros Hp. apply bad_here. intros [|g]; [reflexivity|]. cbn [dec size_of align_of]. rewrite (guard _ _ _ G), Ep.
    unfold pin in Hp. destruct p as [q|]; [|discriminate]. now rewrite Hp. }
  intros ? Hp. eapply okp_then; [exact Hc|intros (q & -> & Ho); cbn [pin] in Hp; now rewrite Ho in Hp|]. intros ? ->.
  assert (Hd : exists x, dec env R (S f) (TPtr n) a = Some x).
  { cbn [dec size_of align_of]. rewrite (guard _ _ _ G), Ep. unfold pin in Hp. destruct p as [q|]; [rewrite Hp|]; eauto. }
  destruct p as [q|].
  2:{ cbn. split; [now apply grow_refl|]. split; [auto|]. intros n' s q' Hh Hq'. inversion Hh; subst. congruence. }
  destruct (seen (key n) a st) eqn:Es.
  { apply seen_iff in Es. cbn. split; [now apply grow_refl|]. split; [auto|]. intros n' s q' Hh Hq'. inversion Hh; subst. exact Es. }
  assert (Hni : ~ In (key n, a) st) by (intros Hin; apply seen_iff in Hin; congruence).
  assert (Hi2 : Inv ((key n, a) :: st)).
  { destruct Hi as [Hi1 Hi2]. split; [now constructor|]. intros e [<-|He']; [now apply in_univ|now apply Hi2]. }
  eapply okp_weak; [apply (IHn n q); [now apply Hq|exact Hi2|now apply (enough_ptr f n a q)]| |].
  - intros st' [(G1 & G2 & G3) [S1 S2]]. split.
    + split; [intros e H'; apply G1; now right|]. split; [exact G2|]. intros e H'.
      destruct (G3 e H') as [[<-|H'']|H'']; [|now left|now right].
      right. exists n, q. repeat split; try assumption. intros Hf. destruct (S1 Hf (Hf n)) as (v & Hv). now exists f, v.
    + split; [auto|]. intros n' s q' Hh Hq'. inversion Hh; subst. apply G1. now left.
  - now apply bad_ptr.
Qed.

Lemma w_agg fs sz al a st : wf A (TAgg fs sz al) -> sz < 2 ^ 62 -> adr a -> Inv st -> enough (S f) (TAgg fs sz al) a st -> inside R a sz al = true ->
  okp (fun st' => grow st st' /\ seenall (S f) (TAgg fs sz al) a st') (bad (TAgg fs sz al) a)
    (foldM (fun ft st => DC f (snd ft) (a + fst ft) st) fs st).
Proof.
  intros Hwt Hst Ha Hi He G. pose proof (inside_R1 _ _ _ G) as Hw. inversion Hwt; subst.
  match goal with H : forall o t, In (o, t) fs -> _ |- _ => rename H into Hf end.
  eapply okp_weak; [apply (fold1 _ (fun ft st => seenall f (snd ft) (a + fst ft) st) (bad (TAgg fs sz al) a) fs) with (st0 := st)| |auto].
  - intros i s s'. apply seen_mono.
  - exact Hi.
  - apply incl_refl.
  - intros [o t] st1 Hin Hi1 Hs1. cbn [fst snd]. destruct (Hf o t Hin) as (W1 & W2 & W3 & _). destruct (pos1 t W1).
    eapply okp_weak; [apply IH; [exact W1|lia| |exact Hi1|]|auto|].
    + unfold adr. lia.
    + eapply enough_sub; [exact Hi|exact Hs1| |exact He]. intros k Hk. inversion Hk; subst; [contradiction|]. auto.
    + apply bad_lift; [intros n s Hh; eapply h_agg; eassumption|].
      intros Hn [|g]; [reflexivity|]. cbn [dec size_of align_of]. rewrite (guard _ _ _ G). rewrite (map_none _ fs (o, t) Hin); [reflexivity|apply Hn].
  - cbn beta. intros st' [Hg Hall]. split; [exact Hg|]. split.
    + intros Hfr Hc. inversion Hc; subst. cbn [dec size_of align_of]. rewrite (guard _ _ _ G).
      destruct (map_some (fun ft => dec env R f (snd ft) (a + fst ft)) fs) as ([vs tr] & ->); [|eauto].
      intros ft Hin. apply (Hall ft Hin); [exact Hfr|]. match goal with H : Forall _ fs |- _ => rewrite Forall_forall in H; exact (H _ Hin) end.
    + intros n s q Hh Hq. inversion Hh; subst. match goal with H : In (_, _) fs |- _ => apply Hall in H as [_ H]; eapply H; eassumption end.
Qed.

Lemma w_opt t off sz al a st : wf A (TOpt t off sz al) -> sz < 2 ^ 62 -> adr a -> Inv st -> enough (S f) (TOpt t off sz al) a st -> inside R a sz al = true ->
  okp (fun st' => grow st st' /\ seenall (S f) (TOpt t off sz al) a st') (bad (TOpt t off sz al) a)
    (let* v := check_bool hb m a in if v =? 0 then Ok st else DC f t (a + off) st).
Proof.
  intros Hwt Hst Ha Hi He G. pose proof (inside_R1 _ _ _ G) as Hw. inversion Hwt; subst.
  match goal with H : wf A t |- _ => destruct (pos1 t H) end.
  destruct (rint1 a 1 ltac:(lia)) as (x & Ex & _ & _).
  eapply okp_then; [apply (bool1 a x); [lia|exact Ex]| |].
  { intros Hx. apply bad_here. intros [|g]; [reflexivity|]. cbn [dec size_of align_of]. rewrite (guard _ _ _ G), Ex.
    replace (x =? 0)%N with false by lia. now replace (x =? 1)%N with false by lia. }
  intros ? [-> Hx]. destruct (N.eqb_spec x 0) as [->|Nx].
  - cbn [Z.of_N Z.eqb]. cbn. apply leaf; [exact Hi| |].
    + intros _. cbn [dec size_of align_of]. rewrite (guard _ _ _ G), Ex. cbn [N.eqb]. eauto.
    + intros n s Hh. inversion Hh; subst. congruence.
  - replace (Z.of_N x =? 0) with false by lia. assert (x = 1%N) by lia. subst x.
    eapply okp_weak; [apply IH; [assumption|lia| |exact Hi|]| |].
    + unfold adr. lia.
    + eapply enough_sub; [exact Hi|apply incl_refl| |exact He]. intros k Hk. inversion Hk; subst; [contradiction|]. match goal with H : forall b, rint R a 1 = Some b -> _ |- _ => apply (H _ Ex) end. discriminate.
    + intros st' [Hg [S1 S2]]. split; [exact Hg|]. split.
      * intros Hfr Hc. inversion Hc; subst. cbn [dec size_of align_of]. rewrite (guard _ _ _ G), Ex. cbn [N.eqb Pos.eqb].
        destruct (S1 Hfr ltac:(assumption)) as ([v tr] & ->). eauto.
      * intros n s q Hh Hq. inversion Hh; subst. eapply S2; eassumption.
    + apply bad_lift; [intros n s Hh; eapply h_opt; eassumption|].
      intros Hn [|g]; [reflexivity|]. cbn [dec size_of align_of]. rewrite (guard _ _ _ G), Ex. cbn [N.eqb Pos.eqb]. now rewrite Hn.
Qed.

Lemma w_var ts off sz al a st : wf A (TVar ts off sz al) -> sz < 2 ^ 62 -> adr a -> Inv st -> enough (S f) (TVar ts off sz al) a st -> inside R a sz al = true ->
  okp (fun st' => grow st st' /\ seenall (S f) (TVar ts off sz al) a st') (bad (TVar ts off sz al) a)
    (let* i := dint hb m a 1 in
     let* _ := verify (i <? Z.of_nat (length ts)) in
     match nth_error ts (Z.to_nat i) with Some t => DC f t (a + off) st | None => UB end).
Proof.
  intros Hwt Hst Ha Hi He G. pose proof (inside_R1 _ _ _ G) as Hw. inversion Hwt; subst.
  match goal with H : forall t, In t ts -> _ |- _ => rename H into Hf end.
  destruct (rint1 a 1 ltac:(lia)) as (x & Ex & Dx & _). rewrite Dx. cbn [bind]. replace (Z.to_nat (Z.of_N x)) with (N.to_nat x) by lia.
  eapply okp_bind; [apply okp_verify|].
  { intros Hx. apply bad_here. intros [|g]; [reflexivity|]. cbn [dec size_of align_of]. rewrite (guard _ _ _ G), Ex.
    destruct (nth_error ts (N.to_nat x)) eqn:E; [|reflexivity].
    assert (nth_error ts (N.to_nat x) <> None) by congruence. apply nth_error_Some in H. lia. }
  intros ? Hx. cbn beta in Hx. destruct (nth_error ts (N.to_nat x)) as [t|] eqn:En; [|apply nth_error_None in En; lia].
  pose proof (nth_error_In _ _ En) as Hin. destruct (Hf t Hin) as (W1 & W2 & _). destruct (pos1 t W1).
  eapply okp_weak; [apply IH; [assumption|lia| |exact Hi|]| |].
  - unfold adr. lia.
  - eapply enough_sub; [exact Hi|apply incl_refl| |exact He]. intros k Hk. inversion Hk; subst; [contradiction|]. eauto.
  - intros st' [Hg [S1 S2]]. split; [exact Hg|]. split.
    + intros Hfr Hc. inversion Hc; subst. cbn [dec size_of align_of]. rewrite (guard _ _ _ G), Ex, En.
      match goal with H : Forall _ ts |- _ => rewrite Forall_forall in H; destruct (S1 Hfr (H _ Hin)) as ([v tr] & ->) end. eauto.
    + intros n s q Hh Hq. inversion Hh; subst. replace t0 with t in * by congruence. eapply S2; eassumption.
  - apply bad_lift; [intros n s Hh; eapply h_var; eassumption|].
    intros Hn [|g]; [reflexivity|]. cbn [dec size_of align_of]. rewrite (guard _ _ _ G), Ex, En. now rewrite Hn.
Qed.

Lemma w_uniq n a st : adr a -> Inv st -> enough (S f) (TUniq n) a st -> inside R a 16 8 = true ->
  okp (fun st' => grow st st' /\ seenall (S f) (TUniq n) a st') (bad (TUniq n) a)
    (let* _ := (let* b := check_bool hb m (a + 8) in verify (b =? 0)) in
     let* p := cptr hb raw strict m a in
     match p with None => Ok st | Some q => DC f (tyof env n) q st end).
Proof.
  intros Ha Hi He G. pose proof (inside_R1 _ _ _ G) as Hw.
  destruct (ptr1 a ltac:(lia)) as (p & Ep & _ & Hc & _ & Hq).
  destruct (rint1 (a + 8) 1 ltac:(lia)) as (b & Eb & _ & _).
  assert (Hz : b <> 0%N -> bad (TUniq n) a).
  { intros Hb. apply bad_here. intros [|g]; [reflexivity|]. cbn [dec size_of align_of]. rewrite (guard _ _ _ G).
    cbn [plain r_rel]. rewrite Ep, (zero1 _ _ Eb). now replace (b =? 0)%N with false by lia. }
  apply okp_bind with (P := fun _ => b = 0%N).
  { eapply okp_then; [apply (bool1 _ b); [lia|exact Eb]|intros; apply Hz; lia|]. intros ? [-> Hb].
    eapply okp_weak; [apply okp_verify; intros E; exact E| |]; cbn beta; [lia|]. intros. apply Hz. lia. }
  intros ? ->. pose proof (zero1 _ _ Eb) as Ez. cbn [N.eqb] in Ez. eapply okp_then; [exact Hc| |].
  { intros (q & -> & Ho). apply bad_here. intros [|g]; [reflexivity|]. cbn [dec size_of align_of]. rewrite (guard _ _ _ G).
    cbn [plain r_rel]. rewrite Ep, Ez. now rewrite (unguard (tyof env n) q (Ho _ _)). }
  intros ? ->.
  destruct p as [q|].
  - eapply okp_weak; [apply (IHn n q); [now apply Hq|exact Hi|]| |].
    + eapply enough_sub; [exact Hi|apply incl_refl| |exact He]. intros k Hk. inversion Hk; subst; [contradiction|]. auto.
    + intros st' [Hg [S1 S2]]. split; [exact Hg|]. split.
      * intros Hfr _. cbn [dec size_of align_of]. rewrite (guard _ _ _ G). cbn [plain r_rel]. rewrite Ep, Ez.
        destruct (S1 Hfr (Hfr n)) as ([v tr] & ->). eauto.
      * intros n' s q' Hh Hq'. inversion Hh; subst. cbn [plain r_rel] in *. replace q0 with q in * by congruence. eapply S2; eassumption.
    + apply bad_lift; [intros n' s Hh; eapply h_uniq; [exact Ep|exact Hh]|].
      intros Hn [|g]; [reflexivity|]. cbn [dec size_of align_of]. rewrite (guard _ _ _ G). cbn [plain r_rel]. rewrite Ep, Ez. now rewrite Hn.
  - cbn. apply leaf; [exact Hi| |].
    + intros _. cbn [dec size_of align_of]. rewrite (guard _ _ _ G). cbn [plain r_rel]. rewrite Ep, Ez. eauto.
    + intros n' s Hh. inversion Hh; subst. cbn [plain r_rel] in *. congruence.
Qed.

Lemma dec_vec g w ix n a p used alloc b : rptr R (negb raw) a = Some p -> rint R (a + 8) w = Some used ->
  rint R (a + 8 + Z.of_nat w) w = Some alloc -> rint R (a + 8 + 2 * Z.of_nat w) 1 = Some b ->
  inside R a (size_of (TVec w ix n)) 8 = true ->
  if vec_good (tyof env n) p used alloc b then
    (p = None /\ used = 0%N /\ exists x, dec env R (S g) (TVec w ix n) a = Some x) \/
    (exists q, p = Some q /\
       ((exists y, mapM (fun i => dec env R g (tyof env n) (q + Z.of_nat i * size_of (tyof env n))) (seq 0 (N.to_nat used)) = Some y) ->
         exists x, dec env R (S g) (TVec w ix n) a = Some x) /\
       (mapM (fun i => dec env R g (tyof env n) (q + Z.of_nat i * size_of (tyof env n))) (seq 0 (N.to_nat used)) = None ->
         dec env R (S g) (TVec w ix n) a = None))
  else dec env R (S g) (TVec w ix n) a = None.
Proof.
  intros Ep Eu Ea Eb G. cbn [dec align_of]. rewrite (guard _ _ _ G). cbn [plain r_rel r_ck]. cbv zeta. rewrite Ep, Eu, Ea, (zero1 _ _ Eb).
  unfold vec_good, SerialSpec.strict. cbn [plain r_ck]. destruct (alloc =? used)%N; [|reflexivity]. destruct (b =? 0)%N; [|reflexivity]. cbn [andb].
  destruct p as [q|].
  - destruct (used =? 0)%N eqn:E0; cbn [negb andb]; [reflexivity|].
    destruct (inside R q (size_of (tyof env n) * Z.of_N used) (align_of (tyof env n))); [|reflexivity].
    right. exists q. split; [reflexivity|]. split.
    + intros ([vs tr] & ->). eauto.
    + intros ->. reflexivity.
  - destruct (N.eqb_spec used 0); [|reflexivity]. left. repeat split; eauto.
Qed.

Lemma w_vec w ix n a st : In w [4; 8]%nat -> adr a -> Inv st -> enough (S f) (TVec w ix n) a st -> inside R a (size_of (TVec w ix n)) 8 = true ->
  okp (fun st' => grow st st' /\ seenall (S f) (TVec w ix n) a st') (bad (TVec w ix n) a)
    (let T := tyof env n in
     let* _ := check_vec hb raw strict B hi m a w T in
     let* used := dint hb m (a + 8) w in
     let* p := cptr hb raw strict m a in
     match p with
     | None => if used =? 0 then Ok st else UB
     | Some q => foldM (fun i st => DC f T (q + Z.of_nat i * size_of T) st) (seq 0 (Z.to_nat used)) st
     end).
Proof.
  intros Hiw Ha Hi He G. pose proof (inside_R1 _ _ _ G) as Hw. cbn [size_of] in Hw. cbv zeta.
  assert (Hwp : (4 <= w)%nat) by (destruct Hiw as [<-|[<-|[]]]; lia).
  destruct (ptr1 a ltac:(lia)) as (p & Ep & _ & Hc & _ & Hq).
  destruct (rint1 (a + 8) w ltac:(lia)) as (used & Eu & Du & _).
  destruct (rint1 (a + 8 + Z.of_nat w) w ltac:(lia)) as (alloc & Ea & _ & _).
  destruct (rint1 (a + 8 + 2 * Z.of_nat w) 1 ltac:(lia)) as (b & Eb & _ & _).
  destruct (pos1 _ (wf1 n)) as [Hs Hal]. pose proof (Hsz n) as HsT. set (T := tyof env n) in *.
  eapply okp_then; [apply (vec1 a w n p used alloc b); try assumption; lia| |].
  { fold T. intros Hv. apply bad_here. intros [|g]; [reflexivity|].
    pose proof (dec_vec g w ix n a p used alloc b Ep Eu Ea Eb G) as H. fold T in H. rewrite Hv in H. exact H. }
  fold T. intros ? Hv. rewrite Du. cbn [bind]. eapply okp_then; [exact Hc|intros (q & -> & Ho); unfold vec_good in Hv; now rewrite Ho, !andb_false_r in Hv|]. intros ? ->.
  replace (Z.to_nat (Z.of_N used)) with (N.to_nat used) by lia.
  pose proof (dec_vec f w ix n a p used alloc b Ep Eu Ea Eb G) as H. fold T in H. rewrite Hv in H.
  destruct H as [(-> & -> & Hd)|(q & -> & Hd & _)].
  - cbn [Z.of_N Z.eqb]. cbn. apply leaf; [exact Hi|auto|]. intros n' s Hh. inversion Hh; subst. cbn [plain r_rel] in *. congruence.
  - assert (Hin : inside R q (size_of T * Z.of_N used) (align_of T) = true).
    { unfold vec_good in Hv. apply andb_prop in Hv as [_ Hv]. now apply andb_prop in Hv as [_ Hv]. }
    apply inside_R1 in Hin.
    eapply okp_weak; [apply (fold1 _ (fun i st => seenall f T (q + Z.of_nat i * size_of T) st) (bad (TVec w ix n) a)) with (st0 := st)| |auto].
    + intros i s s'. apply seen_mono.
    + exact Hi.
    + apply incl_refl.
    + intros i st1 Hii Hi1 Hs1. pose proof Hii as Hii'. apply in_seq in Hii.
      assert (0 <= Z.of_nat i * size_of T <= size_of T * Z.of_N used)
        by (rewrite (Z.mul_comm (size_of T)); split; [apply Z.mul_nonneg_nonneg; lia|apply Z.mul_le_mono_nonneg_r; lia]).
      eapply okp_weak; [apply (IHn n); [|exact Hi1|]|auto|].
      * unfold adr. lia.
      * eapply enough_sub; [exact Hi|exact Hs1| |exact He]. intros k Hk. inversion Hk; subst; [contradiction|]. match goal with H : forall q used i, _ |- _ => apply (H q used i Ep Eu) end. lia.
      * apply bad_lift.
        { intros n' s Hh. eapply h_vec; [exact Ep|exact Eu| |exact Hh]. lia. }
        intros Hn [|g]; [reflexivity|].
        pose proof (dec_vec g w ix n a (Some q) used alloc b Ep Eu Ea Eb G) as H1. fold T in H1. rewrite Hv in H1.
        destruct H1 as [(E & _)|(q' & E & _ & H1)]; [discriminate E|]. injection E as <-. apply H1.
        apply (map_none _ _ i Hii'). apply Hn.
    + cbn beta. intros st' [Hg Hall]. split; [exact Hg|]. split.
      * intros Hfr _. apply Hd. apply map_some. intros i Hii. apply (Hall i Hii); [exact Hfr|apply Hfr].
      * intros n' s q' Hh Hq'. inversion Hh; subst. cbn [plain r_rel] in *.
        replace q0 with q in * by congruence. replace used0 with used in * by congruence.
        destruct (Hall i) as [_ H1]; [apply in_seq; lia|]. eapply H1; eassumption.
Qed.

Lemma w_str a st : adr a -> Inv st -> inside R a 16 8 = true ->
  okp (fun st' => grow st st' /\ seenall (S f) TStr a st') (bad TStr a) (let* _ := check_str hb raw strict B hi m a in Ok st).
Proof.
  intros Ha Hi G. pose proof (inside_R1 _ _ _ G) as Hw.
  destruct (ptr1 (a + 8) ltac:(lia)) as (p & Ep & _ & _ & _ & _).
  destruct (rint1 a 1 ltac:(lia)) as (b0 & E0 & _ & _).
  destruct (rint1 (a + 4) 4 ltac:(lia)) as (size & Es & _ & _).
  destruct (rint1 (a + 1) 1 ltac:(lia)) as (b & Eb & _ & _).
  assert (Hd : forall g, if str_good b0 p size b then exists x, dec env R (S g) TStr a = Some x else dec env R (S g) TStr a = None).
  { intros g. cbn [dec size_of align_of]. rewrite (guard _ _ _ G). cbn [plain r_rel r_mem]. rewrite E0, Ep, Es, (zero1 _ _ Eb). unfold str_good.
    destruct (N.eqb_spec b0 0) as [->|N0]; cbn [negb orb].
    - replace (0 <=? 1)%N with true by lia. cbn [andb]. destruct (b =? 0)%N; [|reflexivity]. cbn [andb].
      destruct p as [q|]; [|destruct (size =? 0)%N; eauto].
      destruct (size =? 0)%N; cbn [negb andb]; [reflexivity|].
      destruct (inside R q (Z.of_N size) 1) eqn:Ei; [|reflexivity]. apply inside_R1 in Ei.
      destruct (rd1 (N.to_nat size) q ltac:(lia)) as (l & -> & _). eauto.
    - destruct (N.eqb_spec b0 1) as [->|N1].
      + replace (1 <=? 1)%N with true by lia. cbn [andb].
        destruct (rd1 15 (a + 1) ltac:(lia)) as (l & -> & _). eauto.
      + replace (b0 <=? 1)%N with false by lia. reflexivity. }
  eapply okp_then; [apply (str1 a b0 p size b); assumption| |].
  { intros Hv. apply bad_here. intros [|g]; [reflexivity|]. specialize (Hd g). now rewrite Hv in Hd. }
  intros ? Hv. cbn. apply leaf; [exact Hi| |].
  - intros _. specialize (Hd f). now rewrite Hv in Hd.
  - intros n s Hh. inversion Hh.
Qed.

Lemma dec_hash g n a pe c size cap growth b ctrl : rptr R (negb raw) a = Some pe -> rptr R (negb raw) (a + 8) = Some (Some c) ->
  rint R (a + 16) 8 = Some size -> rint R (a + 24) 8 = Some cap -> rint R (a + 32) 8 = Some growth -> rint R (a + 40) 1 = Some b ->
  hash_good (tyof env n) pe (Some c) size cap growth b = true -> rdn m c (N.to_nat cap + 9) = Some ctrl ->
  inside R a 48 8 = true ->
  match pe with
  | None => exists x, dec env R (S g) (THash n) a = Some x
  | Some e =>
      let r := mapM (fun i => if is_full (nth i ctrl EMPTY)
                              then let? (v, tr) := dec env R g (tyof env n) (e + Z.of_nat i * size_of (tyof env n)) in Some (Some v, tr)
                              else Some (None, [])) (seq 0 (N.to_nat cap)) in
      ((exists y, r = Some y) -> exists x, dec env R (S g) (THash n) a = Some x) /\ (r = None -> dec env R (S g) (THash n) a = None)
  end.
Proof.
  intros Ee Ec Es Ecap Eg Eb Hg Er G. cbn [dec size_of align_of]. rewrite (guard _ _ _ G). cbn [plain r_rel r_mem r_tab]. cbv zeta.
  rewrite Ee, Ec, Es, Ecap, Eg, (zero1 _ _ Eb). unfold hash_good in Hg. rewrite Er in *.
  apply andb_prop in Hg as [Hg H5]. apply andb_prop in Hg as [Hg H4]. apply andb_prop in Hg as [Hg H3]. apply andb_prop in Hg as [H1 H2].
  rewrite H1, H2, H3, H4. cbn [andb]. destruct pe as [e|].
  - rewrite H5. split.
    + intros ([vs tr] & ->). eauto.
    + intros ->. reflexivity.
  - rewrite H5. eauto.
Qed.

Lemma dec_hash_bad g n a pe pc size cap growth b : rptr R (negb raw) a = Some pe -> rptr R (negb raw) (a + 8) = Some pc ->
  rint R (a + 16) 8 = Some size -> rint R (a + 24) 8 = Some cap -> rint R (a + 32) 8 = Some growth -> rint R (a + 40) 1 = Some b ->
  hash_good (tyof env n) pe pc size cap growth b = false -> inside R a 48 8 = true ->
  dec env R (S g) (THash n) a = None.
Proof.
  intros Ee Ec Es Ecap Eg Eb Hg G. cbn [dec size_of align_of]. rewrite (guard _ _ _ G). cbn [plain r_rel r_mem r_tab]. cbv zeta.
  rewrite Ee, Ec, Es, Ecap, Eg, (zero1 _ _ Eb). unfold hash_good in Hg.
  destruct (b =? 0)%N; [|reflexivity]. destruct pc as [c|]; [|reflexivity]. cbn [andb] in Hg.
  destruct (_ <? _); [|reflexivity]. cbn [andb] in *. destruct (inside R c (Z.of_N cap + 9) 1); [|reflexivity]. cbn [andb] in Hg.
  destruct (rdn m c (N.to_nat cap + 9)) as [ctrl|]; [|reflexivity].
  destruct (ctrl_tab size cap growth ctrl); [|reflexivity]. cbn [andb] in Hg. destruct pe as [e|]; rewrite Hg; reflexivity.
Qed.

Lemma w_hash n a st : adr a -> Inv st -> enough (S f) (THash n) a st -> inside R a 48 8 = true ->
  okp (fun st' => grow st st' /\ seenall (S f) (THash n) a st') (bad (THash n) a)
    (let T := tyof env n in
     let* _ := check_hash hb raw strict B hi m a T in
     let* cap := dint hb m (a + 24) 8 in
     let* pe := cptr hb raw strict m a in
     let* pc := cptr hb raw strict m (a + 8) in
     match pc with
     | None => UB
     | Some c =>
         let* ctrl := dbytes m c (Z.to_nat (cap + 9)) in
         let* l := slots (Tbl unit unit [] ctrl 0 (Z.to_nat cap) 0) in
         foldM (fun i st => match pe with None => UB | Some e => DC f T (e + Z.of_nat i * size_of T) st end) l st
     end).
Proof.
  intros Ha Hi He G. pose proof (inside_R1 _ _ _ G) as Hw. cbv zeta.
  destruct (ptr1 a ltac:(lia)) as (pe & Ee & _ & Hce & _ & Hqe).
  destruct (ptr1 (a + 8) ltac:(lia)) as (pc & Ec & _ & Hcc & _ & _).
  destruct (rint1 (a + 16) 8 ltac:(lia)) as (size & Es & _ & _).
  destruct (rint1 (a + 24) 8 ltac:(lia)) as (cap & Ecap & Dcap & _).
  destruct (rint1 (a + 32) 8 ltac:(lia)) as (growth & Eg & _ & _).
  destruct (rint1 (a + 40) 1 ltac:(lia)) as (b & Eb & _ & _).
  destruct (pos1 _ (wf1 n)) as [Hs Hal]. pose proof (Hsz n) as HsT. set (T := tyof env n) in *.
  eapply okp_then; [apply (hash1 a n pe pc size cap growth b); try assumption; lia| |].
  { fold T. intros Hv. apply bad_here. intros [|g]; [reflexivity|]. eapply dec_hash_bad; eassumption. }
  fold T. intros ? Hv. rewrite Dcap. cbn [bind].
  eapply okp_then; [exact Hce|intros (q & -> & Ho); unfold hash_good in Hv; destruct pc; [now rewrite Ho, !andb_false_r in Hv|discriminate Hv]|]. intros ? ->.
  eapply okp_then; [exact Hcc|intros (q & -> & Ho); unfold hash_good in Hv; now rewrite Ho, !andb_false_r in Hv|]. intros ? ->.
  destruct pc as [c|]; [|discriminate Hv].
  replace (Z.to_nat (Z.of_N cap + 9)) with (N.to_nat cap + 9)%nat by lia.
  replace (Z.to_nat (Z.of_N cap)) with (N.to_nat cap) by lia.
  destruct (rdn m c (N.to_nat cap + 9)) as [ctrl|] eqn:Er; [|unfold hash_good in Hv; rewrite Er, andb_false_r in Hv; discriminate Hv].
  unfold dbytes. rewrite Er. cbn [bind].
  pose proof (dec_hash f n a pe c size cap growth b ctrl Ee Ec Es Ecap Eg Eb Hv Er G) as Hd. fold T in Hd. cbv zeta in Hd.
  pose proof Hv as Hv'. unfold hash_good in Hv'. rewrite Er in Hv'. apply andb_prop in Hv' as [Hv' H5]. apply andb_prop in Hv' as [_ H4].
  pose proof (rdn_length _ _ _ _ Er) as Ll.
  unfold ctrl_tab in H4. replace (Z.of_N cap) with (Z.of_nat (N.to_nat cap)) in H4 by lia.
  destruct (check_ctrl_cases ctrl (N.to_nat cap) Ll (Z.of_N size) (Z.of_N growth)) as [E|E]; rewrite E in H4; [|discriminate H4].
  destruct (check_ctrl_facts ctrl (N.to_nat cap) Ll (Z.of_N size) (Z.of_N growth) E) as (F1 & F2 & F3).
  rewrite (slots_ok ctrl (N.to_nat cap) Ll F1 F2 F3). cbn [bind].
  destruct pe as [e|].
  2:{ apply andb_prop in H5 as [H5 _]. apply N.eqb_eq in H5. subst cap. cbn. apply leaf; [exact Hi|auto|].
      intros n' s Hh. inversion Hh; subst. cbn [plain r_rel] in *. congruence. }
  apply andb_prop in H5 as [_ H5]. apply inside_R1 in H5.
  eapply okp_weak; [apply (fold1 _ (fun i st => seenall f T (e + Z.of_nat i * size_of T) st) (bad (THash n) a)) with (st0 := st)| |auto].
  - intros i s s'. apply seen_mono.
  - exact Hi.
  - apply incl_refl.
  - intros i st1 Hii Hi1 Hs1. apply filter_In in Hii as [Hii Hfull]. pose proof Hii as Hii'. apply in_seq in Hii.
    assert (0 <= Z.of_nat i * size_of T <= Z.of_N cap * size_of T)
      by (split; [apply Z.mul_nonneg_nonneg; lia|apply Z.mul_le_mono_nonneg_r; lia]).
    eapply okp_weak; [apply (IHn n); [|exact Hi1|]|auto|].
    + unfold adr. lia.
    + eapply enough_sub; [exact Hi|exact Hs1| |exact He]. intros k Hk. inversion Hk; subst; [contradiction|]. match goal with H : forall e c cap ctrl i, _ |- _ => apply (H e c cap ctrl i Ee Ec Ecap Er) end; [lia|exact Hfull].
    + apply bad_lift.
      { intros n' s Hh. eapply h_hash; [exact Ee|exact Ec|exact Ecap|exact Er| |exact Hfull|exact Hh]. lia. }
      intros Hn [|g]; [reflexivity|].
      pose proof (dec_hash g n a (Some e) c size cap growth b ctrl Ee Ec Es Ecap Eg Eb Hv Er G) as H1. fold T in H1. cbv zeta in H1.
      apply H1. apply (map_none _ _ i Hii'). unfold full_at in Hfull. rewrite Hfull. now rewrite Hn.
  - cbn beta. intros st' [Hg Hall]. split; [exact Hg|]. split.
    + intros Hfr _. apply Hd. apply map_some. intros i Hii.
      destruct (is_full (nth i ctrl EMPTY)) eqn:Ef; [|eauto].
      destruct (Hall i) as [Hx _]; [apply filter_In; now split|]. destruct (Hx Hfr (Hfr n)) as ([v tr] & ->). eauto.
    + intros n' s q' Hh Hq'. inversion Hh; subst. cbn [plain r_rel r_mem] in *.
      replace e0 with e in * by congruence. replace c0 with c in * by congruence. replace cap0 with cap in * by congruence.
      replace ctrl0 with ctrl in * by congruence.
      destruct (Hall i) as [_ Hx]; [apply filter_In; split; [apply in_seq; lia|assumption]|]. eapply Hx; eassumption.
Qed.
End Step.

Lemma walk f : forall t, wf A t -> size_of t < 2 ^ 62 -> walks f t.
Proof.
  induction f as [|f IH]; intros t Hwt Hst a st Ha Hi He; [now apply enough0 in He|].
  destruct (pos1 t Hwt) as [Hp1 Hp2]. cbn [dchk when]. rewrite raw1 by (try assumption; lia).
  destruct (inside R a (size_of t) (align_of t)) eqn:G; cbn [bind]; [|now apply bad_here, unguard].
  pose proof (inside_R1 _ _ _ G) as Hw.
  destruct t; cbn [size_of align_of] in *.
  - apply leaf; [exact Hi| |intros ? ? Hh; inversion Hh]. intros _. cbn [dec size_of align_of]. rewrite (guard _ _ _ G).
    destruct (rint1 a w Hw) as (x & -> & _). eauto.
  - apply leaf; [exact Hi| |intros ? ? Hh; inversion Hh]. intros _. cbn [dec size_of align_of plain r_mem]. rewrite (guard _ _ _ G).
    destruct (rd1 w a Hw) as (x & -> & _). eauto.
  - now apply w_ptr.
  - now apply w_agg.
  - now apply w_opt.
  - now apply w_var.
  - now apply w_uniq.
  - apply w_vec; try assumption. now inversion Hwt.
  - now apply w_str.
  - apply leaf; [exact Hi| |intros ? ? Hh; inversion Hh]. intros Hc. inversion Hc.
  - now apply w_hash.
Qed.

(* --- results --- *)
Lemma walk_start t a : wf A t -> size_of t < 2 ^ 62 -> adr a -> forall g,
  F \/ (exists k, depth k t a /\ (k + K * M <= g)%nat) ->
  okp (fun st' => grow [] st' /\ seenall g t a st') (bad t a) (DC g t a []).
Proof.
  intros Hwt Hst Ha g He. apply walk; try assumption.
  - split; [constructor|intros e []].
  - unfold enough. cbn [length]. rewrite Nat.sub_0_r. exact He.
Qed.
Lemma walk_valid t a g st' : all_fr -> cstr_free t -> (forall n n', key n = key n' -> tyof env n = tyof env n') ->
  grow [] st' -> seenall g t a st' -> forall t' a', reach env R t a t' a' -> valid t' a'.
Proof.
  intros Hfr Hct Hkey (_ & _ & Hgood) [S1 S2] t' a' Hr.
  assert (H : valid t' a' /\ held t' a' st').
  { induction Hr as [|t' a' n s q Hr [_ IH2] Hh Hq].
    - split; [|exact S2]. destruct (S1 Hfr Hct) as (x & Hx). now exists g, x.
    - destruct (Hgood _ (IH2 n s q Hh Hq)) as [[]|(n' & q' & E1 & E2 & E3 & E4)]. cbn [fst snd] in *.
      rewrite Hq in E2. injection E2 as <-. rewrite <- (Hkey _ _ E1). split; [now apply E3|exact E4]. }
  apply H.
Qed.
Lemma M_size : M = (S (length keys) * Z.to_nat (hi - B))%nat.
Proof. unfold univ. rewrite prod_length, map_length, seq_length. reflexivity. Qed.
End Deep.

(* --- the first pass changes no other memory --- *)
Definition wl {X} (P : X -> Prop) (r : res X) : Prop := match r with Ok x => P x | _ => True end.
Lemma wl_bind {X Y} (P : X -> Prop) (Q : Y -> Prop) r k : wl P r -> (forall x, P x -> wl Q (k x)) -> wl Q (bind r k).
Proof. destruct r; cbn; auto. Qed.
Lemma wl_any {X} (r : res X) : wl (fun _ => True) r.
Proof. now destruct r. Qed.
Section Dom.
Variables (env : list ty) (hb fb raw chk strict : bool) (B hi from to : Z).
Definition tame (m : mem) : Prop :=
  (forall z, B <= z < hi -> exists x, m z = Some x /\ (x < 256)%N) /\ (forall z x, m z = Some x -> B <= z < hi).
Lemma rdn_at m n : forall a l, rdn m a n = Some l -> forall z, a <= z < a + Z.of_nat n -> exists x, m z = Some x.
Proof.
  induction n as [|n IH]; intros a l H z Hz; [lia|]. cbn [rdn] in H. destruct (m a) as [x|] eqn:E; [|discriminate].
  destruct (rdn m (a + 1) n) as [l'|] eqn:E'; [|discriminate]. destruct (Z.eq_dec z a) as [->|Ne]; [eauto|]. apply (IH _ _ E'). lia.
Qed.
Lemma rdn_bytes m : tame m -> forall n a l, rdn m a n = Some l -> bytes_ok l.
Proof.
  intros [H1 H2]. unfold bytes_ok. induction n as [|n IH]; intros a l H; cbn [rdn] in H; [injection H as <-; constructor|].
  destruct (m a) as [x|] eqn:E; [|discriminate]. destruct (rdn m (a + 1) n) as [l'|] eqn:E'; [|discriminate]. injection H as <-.
  constructor; [|eapply IH; eassumption]. destruct (H1 a (H2 _ _ E)) as (y & Ey & Hy). congruence.
Qed.
Lemma tame_put m a n l l' : tame m -> rdn m a n = Some l -> length l' = n -> bytes_ok l' -> tame (put_mem m a l').
Proof.
  intros Ht El Ll Bl. pose proof (rdn_at _ _ _ _ El) as Hat. destruct Ht as [H1 H2]. split.
  - intros z Hz. unfold put_mem. destruct (_ && _) eqn:E; [|now apply H1].
    destruct (nth_error l' (Z.to_nat (z - a))) as [x|] eqn:En; [|apply nth_error_None in En; lia].
    exists x. split; [reflexivity|]. apply nth_error_In in En. unfold bytes_ok in Bl. rewrite Forall_forall in Bl. now apply Bl.
  - intros z x. unfold put_mem. destruct (_ && _) eqn:E; [|apply H2]. intros _. destruct (Hat z ltac:(lia)) as (y & Hy). eapply H2; eassumption.
Qed.
Lemma dbytes_some m a n : wl (fun l => rdn m a n = Some l) (dbytes m a n).
Proof. unfold dbytes. destruct (rdn m a n); cbn; auto. Qed.
Lemma t_swap m a w : tame m -> wl tame (swap hb fb m a w).
Proof.
  intros Hm. unfold swap. destruct (Bool.eqb hb fb); [exact Hm|]. eapply wl_bind; [apply dbytes_some|]. intros l El. cbn.
  eapply tame_put; [exact Hm|exact El| |].
  - rewrite rev_length. now apply (rdn_length _ _ _ _ El).
  - unfold bytes_ok. apply Forall_rev. now apply (rdn_bytes m Hm _ _ _ El).
Qed.
Lemma t_ptr m a : tame m -> wl tame (conv_ptr hb fb raw m a).
Proof.
  intros Hm. unfold conv_ptr. destruct raw; [|now apply t_swap]. eapply wl_bind; [apply dbytes_some|]. intros l El. cbv zeta.
  eapply wl_bind; [apply wl_any|]. intros p _. cbn. eapply tame_put; [exact Hm|exact El|apply of_int_length|apply of_int_ok].
Qed.
Lemma t_slot m a T : tame m -> wl tame (conv_slot hb fb raw chk strict from to m a T).
Proof.
  intros Hm. unfold conv_slot. eapply wl_bind; [apply wl_any|]. intros _ _. eapply wl_bind; [now apply t_ptr|]. intros m1 H1.
  eapply wl_bind; [apply wl_any|]. intros _ _. exact H1.
Qed.
Lemma t_fold {I} (g : I -> mem -> res mem) l : (forall i m, tame m -> wl tame (g i m)) -> forall m, tame m -> wl tame (foldM g l m).
Proof. intros Hg. induction l as [|i l IH]; intros m Hm; cbn [foldM]; [exact Hm|]. eapply wl_bind; [now apply Hg|]. exact IH. Qed.
Lemma t_loop (g : nat -> mem -> res mem) c cap : (forall i m, tame m -> wl tame (g i m)) -> forall k i m, tame m -> wl tame (hloop g c cap k i m).
Proof.
  intros Hg. induction k as [|k IH]; intros i m Hm; cbn [hloop]; [exact I|]. destruct (i =? cap)%nat; [exact Hm|].
  eapply wl_bind; [now apply Hg|]. intros m1 H1. eapply wl_bind; [apply wl_any|]. intros t _. eapply wl_bind; [apply wl_any|]. intros j _. now apply IH.
Qed.
Ltac skip := eapply wl_bind; [apply wl_any|]; intros ? _.
Lemma t_conv f : forall t m a, tame m -> wl tame (conv env hb fb raw chk strict from to f t m a).
Proof.
  induction f as [|f IH]; intros t m a Hm; [exact I|]. cbn [conv]. skip.
  destruct t.
  - now apply t_swap.
  - exact Hm.
  - eapply wl_bind; [now apply t_ptr|]. intros m1 H1. skip. exact H1.
  - apply t_fold; [|exact Hm]. intros; now apply IH.
  - skip. destruct (_ =? 0); [exact Hm|now apply IH].
  - skip. skip. destruct (nth_error _ _); [now apply IH|exact I].
  - eapply wl_bind; [now apply t_slot|]. intros m1 H1. skip. skip. destruct x1 as [q|]; [now apply IH|exact H1].
  - eapply wl_bind; [now apply t_slot|]. intros m1 H1. eapply wl_bind; [now apply t_swap|]. intros m2 H2.
    eapply wl_bind; [now apply t_swap|]. intros m3 H3. skip. skip. skip. destruct x2 as [q|].
    + apply t_fold; [|exact H3]. intros; now apply IH.
    + destruct (_ =? 0); [exact H3|exact I].
  - skip. apply wl_bind with (P := tame).
    + destruct (_ =? 0); [|exact Hm]. eapply wl_bind; [now apply t_slot|]. intros m1 H1. now apply t_swap.
    + intros m1 H1. skip. exact H1.
  - exact Hm.
  - eapply wl_bind; [now apply t_slot|]. intros m1 H1. eapply wl_bind; [now apply t_slot|]. intros m2 H2.
    eapply wl_bind; [now apply t_swap|]. intros m3 H3. eapply wl_bind; [now apply t_swap|]. intros m4 H4.
    eapply wl_bind; [now apply t_swap|]. intros m5 H5. skip. skip. skip. skip. destruct x3 as [c|]; [|exact I]. cbv zeta. skip. skip.
    apply t_loop; [|exact H5]. intros i m6 H6. destruct x2 as [e|]; [now apply IH|exact I].
Qed.
End Dom.
