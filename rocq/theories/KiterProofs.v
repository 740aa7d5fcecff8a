From Coq Require Import ZArith.
From Verif Require Import Base FlatModel FlatSpec FlatProofs MmModel MmSpec KiterModel KiterSpec.
From Verif Require MmProofs AliasProofs.

Section P.
Variable kd : kind.
Variable w : N.
Hypothesis w_ok : w = 32%N \/ w = 64%N.
Variable B : Type.
Variable l : list B.
Hypothesis l_ok : (Z.of_nat (length l) < 2 ^ 31)%Z.
Variable deref : nat -> res B.
Hypothesis deref_ok : forall k x, nth_error l k = Some x -> deref k = Ok x.
Notation N_ := (map N.of_nat).
Definition inr (vs : list nat) : Prop := Forall (fun k => k <= length l) vs.

Lemma to_k_ok z k : pos B l z = Some k -> to_k w z = N.of_nat k /\ k <= length l /\ z = Z.of_nat k.
Proof.
  unfold pos. destruct (Z.leb_spec 0 z), (Z.leb_spec z (Z.of_nat (length l))); cbn [andb]; try discriminate. intros [= <-].
  split; [|lia]. unfold to_k. rewrite Z.mod_small; [lia|]. destruct w_ok as [-> | ->]; cbn [Z.of_N]; lia.
Qed.
Lemma idx_N vs r k : nth_error vs r = Some k -> idx (N_ vs) r = Ok (N.of_nat k).
Proof. intros H. unfold idx. rewrite nth_error_map, H. auto. Qed.
Lemma upd_N vs r k : upd r (N.of_nat k) (N_ vs) = N_ (upd r k vs).
Proof. revert r. induction vs as [|v vs IH]; intros [|r]; cbn [upd map]; auto. f_equal. apply IH. Qed.
Lemma inr_nth vs r k : inr vs -> nth_error vs r = Some k -> k <= length l.
Proof. intros H E. apply (proj1 (Forall_forall _ _) H). apply (nth_error_In _ _ E). Qed.
Lemma inr_upd vs r k : inr vs -> k <= length l -> inr (upd r k vs).
Proof. intros H Hk. revert r. induction H as [|v vs Hv H IH]; intros [|r]; cbn [upd]; constructor; auto; apply IH. Qed.
Lemma inr_app vs k : inr vs -> k <= length l -> inr (vs ++ [k]).
Proof. intros H Hk. apply Forall_app. split; [exact H|]. constructor; auto. Qed.
Lemma to_int_ok z : (- 2 ^ 31 <= z < 2 ^ 31)%Z -> to_int z = z.
Proof.
  intros H. unfold to_int. destruct (Z_lt_le_dec z 0) as [L|L].
  - replace (z mod 2 ^ 32)%Z with (z + 2 ^ 32)%Z.
    + destruct (Z.ltb_spec (z + 2 ^ 32) (2 ^ 31)); lia.
    + rewrite <- (Z.mod_small (z + 2 ^ 32) (2 ^ 32)) by lia. rewrite <- Z.add_mod_idemp_r by lia. rewrite Z.mod_same by lia. f_equal. lia.
  - rewrite Z.mod_small by lia. destruct (Z.ltb_spec z (2 ^ 31)); lia.
Qed.
Lemma cmp_ok c j k : k_cmp c (N.of_nat j) (N.of_nat k) = means_cmp c j k.
Proof.
  destruct c; cbn [k_cmp means_cmp].
  - destruct (N.ltb_spec (N.of_nat j) (N.of_nat k)), (Nat.ltb_spec j k); auto; lia.
  - destruct (N.leb_spec (N.of_nat j) (N.of_nat k)), (Nat.leb_spec j k); auto; lia.
  - destruct (N.ltb_spec (N.of_nat k) (N.of_nat j)), (Nat.ltb_spec k j); auto; lia.
  - destruct (N.leb_spec (N.of_nat k) (N.of_nat j)), (Nat.leb_spec k j); auto; lia.
  - destruct (N.eqb_spec (N.of_nat j) (N.of_nat k)), (Nat.eqb_spec j k); auto; lia.
  - destruct (N.eqb_spec (N.of_nat j) (N.of_nat k)), (Nat.eqb_spec j k); auto; lia.
Qed.
Lemma move_ok vs r n f vs' x (g : N -> N) : inr vs -> move B l vs r n f = Some (vs', x) ->
  (forall i, g i = to_k w (Z.of_N i + n)) ->
  exists k p, nth_error vs r = Some k /\ idx (N_ vs) r = Ok (N.of_nat k) /\ upd r (g (N.of_nat k)) (N_ vs) = N_ (upd r p vs) /\
    vs' = upd r p vs ++ f k /\ x = KNone B /\ inr (upd r p vs) /\ k <= length l.
Proof.
  intros H E G. unfold move in E. destruct (nth_error vs r) as [k|] eqn:Ek; [|discriminate].
  destruct (pos B l (Z.of_nat k + n)) as [p|] eqn:P; [|discriminate]. injection E as <- <-. destruct (to_k_ok _ _ P) as (T & Hp & _).
  exists k, p. split; auto. split; [apply idx_N; auto|]. split; [rewrite G, nat_N_Z, T; apply upd_N|]. split; auto. split; auto.
  split; [apply inr_upd; auto|]. apply (inr_nth vs r k H Ek).
Qed.
Lemma make_ok vs z vs' x : inr vs -> make B l vs z = Some (vs', x) ->
  N_ vs ++ [to_k w z] = N_ vs' /\ x = KNone B /\ inr vs'.
Proof.
  intros H E. unfold make in E. destruct (pos B l z) as [p|] eqn:P; [|discriminate]. injection E as <- <-.
  destruct (to_k_ok _ _ P) as (T & Hp & _). rewrite T, map_app. split; auto. split; auto. apply inr_app; auto.
Qed.
Lemma read_ok vs z vs' x : read B l vs z = Some (vs', x) -> exists v, deref (N.to_nat (to_k w z)) = Ok v /\ vs' = vs /\ x = KVal B v.
Proof.
  unfold read. intros E. destruct (pos B l z) as [p|] eqn:P; [|discriminate].
  destruct (nth_error l p) as [v|] eqn:V; [|discriminate]. injection E as <- <-. destruct (to_k_ok _ _ P) as (T & _). rewrite T, Nat2N.id.
  exists v. split; auto.
Qed.
Lemma k_step_ok vs o vs' x : inr vs -> sound kd o = true -> k_spec B l vs o = Some (vs', x) ->
  k_step kd w B deref (N.of_nat (length l)) (N_ vs) o = Ok (N_ vs', x) /\ inr vs'.
Proof.
  intros H S E. destruct o; cbn [k_spec k_step] in *.
  - destruct (make_ok vs _ vs' x H E) as (Q & -> & I). split; auto. rewrite <- Q. reflexivity.
  - destruct (make_ok vs _ vs' x H E) as (Q & -> & I). split; auto. rewrite <- Q.
    replace (to_k w (Z.of_nat (length l))) with (N.of_nat (length l)); auto.
    unfold to_k. rewrite Z.mod_small; [lia|]. destruct w_ok as [-> | ->]; cbn [Z.of_N]; lia.
  - destruct (move_ok vs r _ _ vs' x (k_inc w) H E) as (k & p & _ & -> & U & -> & -> & I & _); auto.
    cbn [bind]. rewrite U, app_nil_r. auto.
  - destruct (move_ok vs r _ _ vs' x (k_dec kd w) H E) as (k & p & _ & -> & U & -> & -> & I & _).
    { intros i. unfold k_dec. destruct kd; [auto|discriminate]. }
    cbn [bind]. rewrite U, app_nil_r. auto.
  - destruct (move_ok vs r _ _ vs' x (k_inc w) H E) as (k & p & _ & -> & U & -> & -> & I & Hk); auto.
    cbn [bind]. rewrite U, map_app. split; auto. apply inr_app; auto.
  - destruct (move_ok vs r _ _ vs' x (k_dec kd w) H E) as (k & p & _ & -> & U & -> & -> & I & Hk).
    { intros i. unfold k_dec. destruct kd; [auto|discriminate]. }
    cbn [bind]. rewrite U, map_app. split; auto. apply inr_app; auto.
  - destruct (move_ok vs r _ _ vs' x (fun i => k_add w i n) H E) as (k & p & _ & -> & U & -> & -> & I & _); auto.
    cbn [bind]. rewrite U, app_nil_r. auto.
  - destruct (move_ok vs r _ _ vs' x (fun i => k_sub w i n) H E) as (k & p & _ & -> & U & -> & -> & I & _); auto.
    cbn [bind]. rewrite U, app_nil_r. auto.
  - destruct (nth_error vs r) as [k|] eqn:Ek; [|discriminate]. rewrite (idx_N _ _ _ Ek). cbn [bind].
    destruct (make_ok vs _ vs' x H E) as (<- & -> & I). split; auto. unfold k_plus. rewrite nat_N_Z. auto.
  - destruct (nth_error vs r) as [k|] eqn:Ek; [|discriminate]. rewrite (idx_N _ _ _ Ek). cbn [bind].
    destruct (make_ok vs _ vs' x H E) as (<- & -> & I). split; auto. unfold k_minus. rewrite nat_N_Z. destruct kd; [discriminate|auto].
  - destruct (nth_error vs r) as [j|] eqn:Ej; [|discriminate]. destruct (nth_error vs s) as [k|] eqn:Ek; [|discriminate].
    injection E as <- <-. rewrite (idx_N _ _ _ Ej), (idx_N _ _ _ Ek). cbn [bind].
    pose proof (inr_nth _ _ _ H Ej). pose proof (inr_nth _ _ _ H Ek). unfold k_diff. rewrite !nat_N_Z. rewrite !to_int_ok by lia.
    split; auto. destruct kd; auto. unfold in_int.
    destruct (Z.leb_spec (- 2 ^ 31) (Z.of_nat j - Z.of_nat k)), (Z.ltb_spec (Z.of_nat j - Z.of_nat k) (2 ^ 31)); auto; lia.
  - destruct (nth_error vs r) as [j|] eqn:Ej; [|discriminate]. destruct (nth_error vs s) as [k|] eqn:Ek; [|discriminate].
    injection E as <- <-. rewrite (idx_N _ _ _ Ej), (idx_N _ _ _ Ek). cbn [bind]. rewrite cmp_ok. auto.
  - destruct (nth_error vs r) as [k|] eqn:Ek; [|discriminate]. rewrite (idx_N _ _ _ Ek). cbn [bind].
    unfold read in E. destruct (pos B l (Z.of_nat k)) as [p|] eqn:P; [|discriminate]. destruct (to_k_ok _ _ P) as (_ & _ & Q).
    assert (p = k) by lia. subst p. destruct (nth_error l k) as [v|] eqn:V; [|discriminate]. injection E as <- <-.
    rewrite Nat2N.id, (deref_ok _ _ V). auto.
  - destruct (nth_error vs r) as [k|] eqn:Ek; [|discriminate]. rewrite (idx_N _ _ _ Ek). cbn [bind].
    destruct (read_ok vs _ vs' x E) as (v & D & -> & ->). unfold k_add. rewrite nat_N_Z, D. auto.
Qed.
Lemma k_run_ok ops : forall vs xs, inr vs -> Forall (fun o => sound kd o = true) ops -> k_means B l vs ops = Some xs ->
  k_run kd w B deref (N.of_nat (length l)) (N_ vs) ops = Ok xs.
Proof.
  induction ops as [|o ops IH]; intros vs xs H S E; cbn [k_means k_run] in *; [injection E as <-; auto|].
  inversion S as [|? ? S1 S2]; subst. destruct (k_spec B l vs o) as [(vs', x)|] eqn:Eo; [|discriminate].
  destruct (k_means B l vs' ops) as [ys|] eqn:Ey; [|discriminate]. injection E as <-.
  destruct (k_step_ok vs o vs' x H S1 Eo) as (-> & I). cbn [bind]. rewrite (IH vs' ys I S2 Ey). auto.
Qed.
End P.

Lemma fw_iter A w ops ks outs prog xs m : w = 32%N \/ w = 64%N ->
  shist A (fw_spec A) ([], [], false) ops = Some ((ks, [], true), outs) -> hist A (fw_step A) fw_new ops = Ok (m, outs) ->
  (Z.of_nat (length ks) < 2 ^ 31)%Z -> Forall (fun o => sound Fws o = true) prog -> k_means _ ks [] prog = Some xs ->
  fw_prog w m prog = Ok xs.
Proof.
  intros Hw E1 E2 HL S E. assert (R : FR A m (ks, [], true)).
  { refine (AliasProofs.hist_sim_eq A (fw_step A) _ (FR A) (fw_step_ok A) ops _ _ _ outs m _ E1 E2). cbn. auto. }
  destruct R as (D & _ & _ & I). unfold fw_prog.
  assert (Q : fw_last m = N.of_nat (length ks)).
  { unfold fw_last. rewrite I, offs_length, Z.mod_small; lia. }
  rewrite Q. apply (k_run_ok Fws w Hw (list A) ks HL (fw_entry m)) with (vs := []); auto.
  - intros k x Hx. assert (Hk : k < length ks) by (apply nth_error_Some; congruence). unfold fw_entry. rewrite I, offs_length.
    destruct (Nat.ltb_spec (k + 1) (length ks + 1)); [|lia]. rewrite (fw_get_ok A m ks k []); auto; try (rewrite I; auto).
    f_equal. apply nth_error_nth. auto.
  - constructor.
Qed.
Lemma mm_iter A dflt lmax ops l e outs prog xs m : lmax < 32 ->
  shist A (mm_spec A lmax) ([], 0) ops = Some ((l, e), outs) -> hist A (mm_step A dflt lmax) (mm_new lmax) ops = Ok (m, outs) ->
  (Z.of_nat (length l) < 2 ^ 31)%Z -> Forall (fun o => sound Mut o = true) prog -> k_means _ l [] prog = Some xs ->
  mm_prog m prog = Ok xs.
Proof.
  intros HM E1 E2 HL S E. pose proof (AliasProofs.mm_reached A dflt lmax ops l e outs m HM E1 E2) as I. unfold mm_prog.
  assert (Q : mm_last m = N.of_nat (length l)).
  { unfold mm_last. rewrite (MmProofs.inv_len _ _ _ _ I), Z.mod_small; lia. }
  rewrite Q. apply (k_run_ok Mut 32 (or_introl eq_refl) (list A) l HL (mm_at A m)) with (vs := []); auto.
  - intros k x Hx. rewrite (MmProofs.at_ok A lmax HM m l k I), Hx. auto.
  - constructor.
Qed.
Lemma k_run_forwards kd w B deref last ops : forall vs, k_run kd w B deref last vs ops = k_run kd w B deref last vs (map (forwards kd) ops).
Proof.
  induction ops as [|o ops IH]; intros vs; cbn [map k_run]; auto.
  assert (E : k_step kd w B deref last vs o = k_step kd w B deref last vs (forwards kd o)) by (destruct kd, o; reflexivity).
  rewrite <- E. destruct (k_step kd w B deref last vs o) as [(vs', x)| | |]; cbn [bind]; auto. rewrite IH. auto.
Qed.
Lemma forwards_sound kd prog : Forall (fun o => exists_op kd o = true) prog -> Forall (fun o => sound kd o = true) (map (forwards kd) prog).
Proof. induction 1 as [|o prog H _ IH]; constructor; auto. destruct kd, o; try discriminate; reflexivity. Qed.
