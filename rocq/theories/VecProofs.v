From Verif Require Import Base ArithModel ArithProofs VecModel VecSpec.

Section Cmp.
Variable A : Type.
Variables (eqA ltA : A -> A -> bool).
Notation vec := (vec A).
(* ---- comparisons ---- *)
Lemma std_equal_spec xs : forall ys, std_equal A eqA xs ys = true <-> Forall2 (fun x y => eqA x y = true) xs ys.
Proof.
  induction xs as [|x xs IH]; intros [|y ys]; cbn; split; intros H; try discriminate; try (inversion H; fail); auto.
  - apply andb_true_iff in H as [H1 H2]. constructor; auto. apply IH; auto.
  - inversion H; subst. apply andb_true_iff. split; auto. apply IH; auto.
Qed.
Lemma std_lex_spec xs : forall ys, std_lex A ltA xs ys = true <-> lex A (fun x y => ltA x y = true) xs ys.
Proof.
  induction xs as [|x xs IH]; intros [|y ys]; cbn; split; intros H; try discriminate; try (inversion H; fail).
  - constructor.
  - reflexivity.
  - destruct (ltA x y) eqn:E1; [apply lex_head; auto|]. destruct (ltA y x) eqn:E2; [discriminate|].
    apply lex_tail; try congruence. apply IH; auto.
  - inversion H; subst; [rewrite H1; auto|]. destruct (ltA x y); [tauto|]. destruct (ltA y x); [tauto|].
    apply IH; auto.
Qed.

Lemma bool_iff b b' P : (b = true <-> P) -> (b' = true <-> P) -> b = b'.
Proof. destruct b, b'; intros H1 H2; auto; exfalso; intuition congruence. Qed.
Lemma not_iff b P : (b = true <-> P) -> (negb b = true <-> ~ P).
Proof. destruct b; cbn; intuition congruence. Qed.

(* ---- order laws ---- *)
Section Laws.
Hypothesis irr : forall x, ltA x x = false.
Hypothesis trans : forall x y z, ltA x y = true -> ltA y z = true -> ltA x z = true.
Hypothesis total : forall x y, ltA x y = false -> ltA y x = false -> x = y.
Notation L := (std_lex A ltA).
Lemma lex_irr xs : L xs xs = false.
Proof. induction xs as [|x xs IH]; cbn; auto. rewrite irr. auto. Qed.
Lemma lex_total xs : forall ys, L xs ys = false -> L ys xs = false -> xs = ys.
Proof.
  induction xs as [|x xs IH]; intros [|y ys]; cbn; intros H1 H2; try discriminate; auto.
  destruct (ltA x y) eqn:E1; [discriminate|]. destruct (ltA y x) eqn:E2; [discriminate|].
  rewrite (total _ _ E1 E2), (IH ys); auto.
Qed.
Lemma lex_trans xs : forall ys zs, L xs ys = true -> L ys zs = true -> L xs zs = true.
Proof.
  induction xs as [|x xs IH]; intros [|y ys] [|z zs]; cbn; intros H1 H2; try discriminate; auto.
  destruct (ltA x y) eqn:E1.
  - destruct (ltA y z) eqn:E2; [rewrite (trans _ _ _ E1 E2); auto|].
    destruct (ltA z y) eqn:E3; [discriminate|]. rewrite <- (total _ _ E2 E3), E1. auto.
  - destruct (ltA y x) eqn:E1'; [discriminate|]. rewrite (total _ _ E1 E1').
    destruct (ltA y z); auto. destruct (ltA z y); [discriminate|]. eauto.
Qed.
End Laws.

Lemma compare_ok (a b : vec) xs ys : contents A a = Ok xs -> contents A b = Ok ys ->
  exists e l g le ge, veq A eqA a b = Ok e /\ vlt A ltA a b = Ok l /\ vgt A ltA a b = Ok g /\
    vle A ltA a b = Ok le /\ vge A ltA a b = Ok ge /\
    (e = true <-> Forall2 (fun x y => eqA x y = true) xs ys) /\
    (l = true <-> lex A (fun x y => ltA x y = true) xs ys) /\
    (g = true <-> lex A (fun x y => ltA x y = true) ys xs) /\
    (le = true <-> ~ lex A (fun x y => ltA x y = true) ys xs) /\
    (ge = true <-> ~ lex A (fun x y => ltA x y = true) xs ys).
Proof.
  intros Ha Hb. unfold vge, vle, vgt, vlt, veq. rewrite Ha, Hb. cbn [bind].
  do 5 eexists. do 5 (split; [reflexivity|]).
  split; [apply std_equal_spec|]. split; [apply std_lex_spec|]. split; [apply std_lex_spec|].
  split; apply not_iff, std_lex_spec.
Qed.
Lemma vlt_is (a b : vec) xs ys : contents A a = Ok xs -> contents A b = Ok ys -> vlt A ltA a b = Ok (std_lex A ltA xs ys).
Proof. intros Ha Hb. unfold vlt. rewrite Ha, Hb. reflexivity. Qed.
Lemma order_ok :
  (forall x, ltA x x = false) ->
  (forall x y z, ltA x y = true -> ltA y z = true -> ltA x z = true) ->
  (forall x y, ltA x y = false -> ltA y x = false -> x = y) ->
  (forall (a : vec) xs, contents A a = Ok xs -> vlt A ltA a a = Ok false) /\
  (forall (a b c : vec) xs ys zs, contents A a = Ok xs -> contents A b = Ok ys -> contents A c = Ok zs ->
     vlt A ltA a b = Ok true -> vlt A ltA b c = Ok true -> vlt A ltA a c = Ok true) /\
  (forall (a b : vec) xs ys, contents A a = Ok xs -> contents A b = Ok ys ->
     vlt A ltA a b = Ok false -> vlt A ltA b a = Ok false -> xs = ys).
Proof.
  intros H1 H2 H3. split; [|split].
  - intros a xs Ha. rewrite (vlt_is _ _ _ _ Ha Ha), lex_irr; auto.
  - intros a b c xs ys zs Ha Hb Hc. rewrite (vlt_is _ _ _ _ Ha Hb), (vlt_is _ _ _ _ Hb Hc), (vlt_is _ _ _ _ Ha Hc).
    intros [= E1] [= E2]. rewrite (lex_trans H2 H3 xs ys zs); auto.
  - intros a b xs ys Ha Hb. rewrite (vlt_is _ _ _ _ Ha Hb), (vlt_is _ _ _ _ Hb Ha).
    intros [= E1] [= E2]. apply (lex_total H3); auto.
Qed.
End Cmp.

Section VP.
Variable A : Type.
Variable w : N.
Variable triv : bool.
Hypothesis Hw : npo2_width w.
Notation slot := (slot A).
Notation vec := (vec A).

Lemma nth_error_mid {B} (p : list B) x r : nth_error (p ++ x :: r) (length p) = Some x.
Proof. induction p; cbn; auto. Qed.
Lemma upd_mid {B} (p : list B) x y r : upd (length p) y (p ++ x :: r) = p ++ y :: r.
Proof. induction p as [|z p IH]; cbn; congruence. Qed.

Definition nonraw (s : slot) : Prop := s <> Raw.

Lemma construct_mid p (s : slot) r i x : i = length p ->
  construct A triv (p ++ s :: r) i x = Ok (p ++ Live x :: r, lost A triv s).
Proof. intros ->. unfold construct. rewrite nth_error_mid, upd_mid. reflexivity. Qed.
Lemma assign_mid p (s : slot) r i x : i = length p -> nonraw s ->
  assign A (p ++ s :: r) i x = Ok (p ++ Live x :: r).
Proof. intros -> N. unfold assign. rewrite nth_error_mid, upd_mid. destruct s; auto. now destruct N. Qed.
Lemma destroy_mid p (s : slot) r i : i = length p -> nonraw s ->
  destroy A (p ++ s :: r) i = Ok (p ++ Raw :: r).
Proof. intros -> N. unfold destroy. rewrite nth_error_mid, upd_mid. destruct s; auto. now destruct N. Qed.
Lemma read_mid p x (r : list slot) i : i = length p -> read A (p ++ Live x :: r) i = Ok x.
Proof. intros ->. unfold read. rewrite nth_error_mid. reflexivity. Qed.
Lemma take_mid p x (r : list slot) i : i = length p ->
  take A (p ++ Live x :: r) i = Ok (x, p ++ Gone :: r).
Proof. intros ->. unfold take. rewrite nth_error_mid, upd_mid. reflexivity. Qed.

Ltac snoc := match goal with |- context [?p ++ ?x :: ?r] =>
  replace (p ++ x :: r) with ((p ++ [x]) ++ r) by (rewrite <- app_assoc; reflexivity) end.
Lemma snoc_app {B} (p : list B) x r : p ++ x :: r = (p ++ [x]) ++ r.
Proof. rewrite <- app_assoc. reflexivity. Qed.
Lemma snoc_len {B} (p : list B) x i : i = length p -> S i = length (p ++ [x]).
Proof. intros ->. rewrite app_length. cbn. lia. Qed.

Lemma construct_l_mid xs : forall p (rs r : list slot) i, i = length p -> length rs = length xs ->
  construct_l A triv (p ++ rs ++ r) i xs = Ok (p ++ map Live xs ++ r, lost_all A triv rs).
Proof.
  induction xs as [|x xs IH]; intros p [|s rs] r i Hi L; try discriminate; cbn [construct_l map app]; auto.
  rewrite construct_mid by auto. cbn [bind].
  rewrite snoc_app, (IH (p ++ [Live x])); auto using snoc_len. cbn [bind].
  rewrite <- app_assoc. reflexivity.
Qed.
Lemma assign_l_mid xs : forall p (rs r : list slot) i, i = length p -> length rs = length xs ->
  Forall nonraw rs -> assign_l A (p ++ rs ++ r) i xs = Ok (p ++ map Live xs ++ r).
Proof.
  induction xs as [|x xs IH]; intros p [|s rs] r i Hi L F; try discriminate; cbn [assign_l map app]; auto.
  inversion F; subst. rewrite assign_mid by auto. cbn [bind].
  rewrite snoc_app, (IH (p ++ [Live x])); auto using snoc_len. rewrite <- app_assoc. reflexivity.
Qed.
Lemma read_n_mid xs : forall p (r : list slot) i n, i = length p -> n = length xs ->
  read_n A (p ++ map Live xs ++ r) i n = Ok xs.
Proof.
  induction xs as [|x xs IH]; intros p r i n Hi ->; cbn [read_n length map app]; auto.
  rewrite read_mid by auto. cbn [bind].
  rewrite snoc_app, (IH (p ++ [Live x])); auto using snoc_len.
Qed.
Lemma destroy_n_mid (ls : list slot) : forall p r i n, i = length p -> n = length ls ->
  Forall nonraw ls -> destroy_n A (p ++ ls ++ r) i n = Ok (p ++ repeat Raw n ++ r).
Proof.
  induction ls as [|s ls IH]; intros p r i n Hi -> F; cbn [destroy_n length repeat app]; auto.
  inversion F; subst. rewrite destroy_mid by auto. cbn [bind].
  rewrite snoc_app, (IH (p ++ [Raw])); auto using snoc_len. rewrite <- app_assoc. reflexivity.
Qed.
Lemma move_n_mid xs : forall po pm (ms ro rm : list slot) i n, i = length po -> i = length pm ->
  n = length xs -> length ms = length xs ->
  move_n A triv (po ++ map Live xs ++ ro) (pm ++ ms ++ rm) i n =
  Ok (po ++ repeat Gone n ++ ro, pm ++ map Live xs ++ rm).
Proof.
  induction xs as [|x xs IH]; intros po pm [|m ms] ro rm i n H1 H2 -> L; try discriminate;
    cbn [move_n length map app repeat]; auto.
  rewrite take_mid by auto. cbn [bind]. rewrite construct_mid by auto. cbn [bind].
  rewrite (snoc_app po), (snoc_app pm), (IH (po ++ [Gone]) (pm ++ [Live x]) ms); auto using snoc_len.
  rewrite <- !app_assoc. reflexivity.
Qed.
Lemma nonraw_map (xs : list A) : Forall nonraw (map Live xs).
Proof. apply Forall_forall. intros s (x & <- & _)%in_map_iff. discriminate. Qed.
Lemma nonraw_gone n : Forall nonraw (repeat Gone n).
Proof. apply Forall_forall. intros s ->%repeat_spec. discriminate. Qed.

Lemma lost_all_raw (l : list slot) : Forall (eq Raw) l -> lost_all A triv l = 0.
Proof. induction 1 as [|? ? <-]; cbn; auto. Qed.
Lemma lost_all_app a b : lost_all A triv (a ++ b) = lost_all A triv a + lost_all A triv b.
Proof. unfold lost_all. induction a; cbn; auto. rewrite IHa. lia. Qed.
Lemma raw_repeat n : Forall (eq (@Raw A)) (repeat Raw n).
Proof. apply Forall_forall. intros s ->%repeat_spec. reflexivity. Qed.

(* ---- representation ---- *)
Definition small (n : nat) : Prop := (N.of_nat n <= 2 ^ (w - 1))%N.
Definition smallN (n : N) : Prop := (n <= 2 ^ (w - 1))%N.
Definition R (c : Prop) (v : vec) (xs : list A) : Prop :=
  exists rest, v_slots v = map Live xs ++ rest /\ v_used v = length xs /\ small (length (v_slots v)) /\
    (c -> v_leak v = 0 /\ Forall (eq Raw) rest).

Lemma pow_w : (2 ^ w = 2 * 2 ^ (w - 1))%N /\ (0 < 2 ^ (w - 1))%N.
Proof.
  assert (8 <= w)%N by (destruct Hw as [->|[->|[->| ->]]]; lia).
  split; [rewrite <- N.pow_succ_r'; f_equal; lia|apply N.neq_0_lt_0, N.pow_nonzero; lia].
Qed.
Lemma wrapw_id n : smallN n -> wrapw w n = n.
Proof. unfold wrapw, smallN. intros. pose proof pow_w. apply N.mod_small. lia. Qed.
Lemma small_le a b : a <= b -> small b -> small a.
Proof. unfold small. lia. Qed.

Lemma reserve_ok c v xs n : R c v xs -> smallN n ->
  exists v' rest, reserve A w triv v n = Ok v' /\ v_slots v' = map Live xs ++ rest /\
    v_used v' = length xs /\ small (length (v_slots v')) /\ (c -> v_leak v' = 0 /\ Forall (eq Raw) rest) /\
    (n <= N.of_nat (length (v_slots v')))%N.
Proof.
  intros (rest & E & U & Sm & C) Hn. unfold reserve.
  destruct (N.leb_spec (N.max (N.of_nat (length (v_slots v))) n) (N.of_nat (length (v_slots v)))) as [L|L].
  { exists v, rest. repeat split; auto; try (apply C; auto). lia. }
  set (m := N.max _ n) in *.
  assert (Hm : (1 <= m <= 2 ^ (w - 1))%N) by (unfold small, smallN in *; lia).
  pose proof (next_power_of_two_ge w m Hw Hm) as G.
  set (nx := next_power_of_two w m) in *.
  assert (LS : length (v_slots v) = length xs + length rest) by (rewrite E, app_length, map_length; auto).
  replace (N.to_nat nx) with (length xs + (N.to_nat nx - length xs)) by lia.
  rewrite repeat_app, E, U.
  pose proof (move_n_mid xs [] [] (repeat Raw (length xs)) rest (repeat Raw (N.to_nat nx - length xs)) 0 (length xs)
    eq_refl eq_refl eq_refl (repeat_length _ _)) as ME. cbn [app] in ME. rewrite ME. cbn [bind].
  pose proof (destroy_n_mid (repeat Gone (length xs)) [] rest 0 (length xs) eq_refl (eq_sym (repeat_length _ _))
    (nonraw_gone _)) as DE. cbn [app] in DE. rewrite DE. cbn [bind].
  eexists _, _. split; [reflexivity|]. cbn [v_slots v_used v_leak].
  split; [reflexivity|]. split; [auto|].
  rewrite app_length, map_length, repeat_length. split; [unfold small; lia|].
  split; [|lia]. intros Hc. destruct (C Hc) as (C1 & C2). split; [|apply raw_repeat].
  rewrite C1, lost_all_app, !lost_all_raw by auto using raw_repeat. destruct (v_self v); auto.
Qed.

(* a reserve big enough for n more elements splits the slots *)
Lemma split_rest {B} (l : list B) n : n <= length l -> exists a b, l = a ++ b /\ length a = n.
Proof. intros H. exists (firstn n l), (skipn n l). rewrite firstn_skipn, firstn_length. split; auto. lia. Qed.

Lemma reserve_more c v xs k n : R c v xs -> small (length xs + k) ->
  n = (N.of_nat (length xs) + N.of_nat k)%N ->
  exists v' gap rest, reserve A w triv v (wrapw w n) = Ok v' /\ v_slots v' = map Live xs ++ gap ++ rest /\
    length gap = k /\ v_used v' = length xs /\ small (length (v_slots v')) /\
    (c -> v_leak v' = 0 /\ Forall (eq Raw) gap /\ Forall (eq Raw) rest).
Proof.
  intros HR Hs ->. rewrite wrapw_id by (unfold small, smallN in *; lia).
  destruct (reserve_ok c v xs (N.of_nat (length xs) + N.of_nat k)%N HR) as (v' & rest & E & S1 & U & Sm & C & L);
    [unfold small, smallN in *; lia|].
  destruct (split_rest rest k) as (g & r & -> & Lg).
  { rewrite S1, app_length, map_length in L. lia. }
  exists v', g, r. repeat split; auto; try (apply C; auto); destruct (C H) as (_ & F); apply Forall_app in F; tauto.
Qed.

Lemma R_used c v xs : R c v xs -> v_used v = length xs.
Proof. intros (? & _ & ? & _). auto. Qed.

Lemma push_ok c v xs x : R c v xs -> small (length xs + 1) ->
  exists v', push_back A w triv v x = Ok v' /\ R c v' (xs ++ [x]).
Proof.
  intros HR Hs. unfold push_back. rewrite (R_used c v xs HR).
  destruct (reserve_more c v xs 1 _ HR Hs eq_refl) as (v' & g & r & E & S1 & Lg & U & Sm & C).
  change (N.of_nat 1) with 1%N in E. rewrite E. cbn [bind]. rewrite S1, U.
  destruct g as [|s [|? ?]]; try discriminate. cbn [app] in *.
  rewrite construct_mid by (rewrite map_length; auto). cbn [bind].
  eexists. split; [reflexivity|]. exists r. cbn [v_slots v_used v_leak].
  rewrite map_app, <- app_assoc, !app_length. repeat split; auto; try (apply C; assumption).
  - rewrite S1, app_length in Sm. rewrite map_length in *. cbn in *. auto.
  - destruct (C H) as (-> & F & _). inversion F; subst. reflexivity.
Qed.

Lemma push_all_ok c ys : forall v xs, R c v xs -> small (length xs + length ys) ->
  exists v', push_all A w triv v ys = Ok v' /\ R c v' (xs ++ ys).
Proof.
  induction ys as [|y ys IH]; intros v xs HR Hs; cbn [push_all].
  { rewrite app_nil_r. eauto. }
  cbn in Hs. destruct (push_ok c v xs y HR) as (v1 & -> & H1). { eapply small_le; [|eauto]. lia. }
  cbn [bind]. destruct (IH v1 (xs ++ [y]) H1) as (v2 & -> & H2).
  { rewrite app_length. cbn. eapply small_le; [|eauto]. lia. }
  rewrite <- app_assoc in H2. eauto.
Qed.

Lemma rotate_mid p xs ys (r : list slot) a m e : a = length p -> m = a + length xs -> e = m + length ys ->
  rotate A (p ++ map Live xs ++ map Live ys ++ r) a m e =
  Ok (p ++ map Live ys ++ map Live xs ++ r, a + length ys).
Proof.
  intros Ha Hm He. unfold rotate.
  rewrite read_n_mid by (auto; lia). cbn [bind].
  replace (read_n _ (p ++ map Live xs ++ map Live ys ++ r) m (e - m)) with (Ok ys).
  2: { rewrite app_assoc. symmetry. apply read_n_mid; [rewrite app_length, map_length; lia|lia]. }
  cbn [bind].
  replace (map Live xs ++ map Live ys ++ r) with ((map Live xs ++ map Live ys) ++ r) by (symmetry; apply app_assoc).
  rewrite assign_l_mid; auto.
  - cbn [bind]. rewrite map_app, <- app_assoc. repeat f_equal. lia.
  - rewrite !app_length, !map_length. lia.
  - apply Forall_app. auto using nonraw_map.
Qed.
(* the same, on a represented prefix *)
Lemma rotate_R xs ys (r : list slot) i m e : i <= length xs -> m = length xs -> e = m + length ys ->
  rotate A (map Live (xs ++ ys) ++ r) i m e = Ok (map Live (insert_at A i ys xs) ++ r, i + length ys).
Proof.
  intros Hi -> ->. unfold insert_at.
  rewrite <- (firstn_skipn i xs) at 1. rewrite !map_app, <- !app_assoc.
  rewrite rotate_mid; auto.
  - rewrite map_length, firstn_length. lia.
  - rewrite skipn_length. lia.
Qed.

Lemma insert_at_length i ys xs : length (insert_at A i ys xs) = length xs + length ys.
Proof.
  unfold insert_at. rewrite !app_length. pose proof (firstn_skipn i xs) as E.
  apply (f_equal (@length A)) in E. rewrite app_length in E. lia.
Qed.

(* shared by insert of one, of n copies: construct the new elements at the end, then rotate *)
Lemma append_rotate c v xs ys i n : R c v xs -> i <= length xs -> small (length xs + length ys) ->
  n = (N.of_nat (length xs) + N.of_nat (length ys))%N ->
  exists v' l k l', reserve A w triv v (wrapw w n) = Ok v' /\
    construct_l A triv (v_slots v') (length xs) ys = Ok (l, k) /\
    rotate A l i (length xs) (length xs + length ys) = Ok (l', i + length ys) /\
    R c (V l' (length xs + length ys) (v_self v') (v_leak v' + k)) (insert_at A i ys xs).
Proof.
  intros HR Hi Hs Hn.
  destruct (reserve_more c v xs (length ys) n HR Hs Hn) as (v' & g & r & E & S1 & Lg & U & Sm & C).
  exists v', (map Live (xs ++ ys) ++ r), (lost_all A triv g), (map Live (insert_at A i ys xs) ++ r).
  split; [auto|]. split.
  { rewrite S1, construct_l_mid; auto. 2: rewrite map_length; auto. rewrite map_app, <- app_assoc. reflexivity. }
  split; [apply rotate_R; auto|].
  exists r. cbn [v_slots v_used v_leak]. rewrite insert_at_length. repeat split; auto; try (apply C; assumption).
  - rewrite S1 in Sm. rewrite !app_length, map_length in *. rewrite insert_at_length. eapply small_le; [|apply Sm]. lia.
  - destruct (C H) as (-> & F & _). rewrite lost_all_raw; auto.
Qed.

Lemma insert_ok c v xs i x : R c v xs -> i <= length xs -> small (length xs + 1) ->
  exists v', insert A w triv v i x = Ok (v', i + 1) /\ R c v' (insert_at A i [x] xs).
Proof.
  intros HR Hi Hs. unfold insert. rewrite (R_used c v xs HR).
  destruct (append_rotate c v xs [x] i _ HR Hi Hs eq_refl) as (v' & l & k & l' & E1 & E2 & E3 & E4).
  cbn [length] in *. change (N.of_nat 1) with 1%N in E1. rewrite E1. cbn [bind].
  cbn [construct_l] in E2. destruct (construct A triv (v_slots v') (length xs) x) as [(l1, k1)| | |]; try discriminate.
  cbn [bind] in *. injection E2 as -> <-. rewrite E3. cbn [bind].
  eexists. split; [reflexivity|]. rewrite Nat.add_0_r in E4. exact E4.
Qed.
Lemma insert_n_ok c v xs i n x : R c v xs -> i <= length xs -> small (length xs + n) ->
  exists v', insert_n A w triv v i n x = Ok (v', i + n) /\ R c v' (insert_at A i (repeat x n) xs).
Proof.
  intros HR Hi Hs. unfold insert_n. rewrite (R_used c v xs HR).
  destruct (append_rotate c v xs (repeat x n) i (N.of_nat (length xs) + N.of_nat n)%N HR Hi) as (v' & l & k & l' & E1 & E2 & E3 & E4);
    rewrite ?repeat_length in *; auto.
  rewrite E1. cbn [bind]. rewrite E2. cbn [bind]. rewrite E3. cbn [bind]. eauto.
Qed.
Lemma insert_input_ok c v xs i ys : R c v xs -> i <= length xs -> small (length xs + length ys) ->
  exists v', insert_input A w triv v i ys = Ok (v', i + length ys) /\ R c v' (insert_at A i ys xs).
Proof.
  intros HR Hi Hs. unfold insert_input. rewrite (R_used c v xs HR).
  destruct (push_all_ok c ys v xs HR Hs) as (v1 & -> & (r & S1 & U & Sm & C)). cbn [bind].
  rewrite S1, U, app_length, rotate_R by auto. cbn [bind].
  eexists. split; [reflexivity|]. exists r. cbn [v_slots v_used v_leak]. rewrite insert_at_length. repeat split; auto; try (apply C; assumption).
  - rewrite S1 in Sm. rewrite !app_length, map_length in *. rewrite insert_at_length, <- app_length. exact Sm.
Qed.

Lemma set_range_ok c v xs ys : R c v xs -> (c -> xs = []) -> small (length ys) ->
  exists v', set_range A w triv v ys = Ok v' /\ R c v' ys.
Proof.
  intros HR Hc Hs. unfold set_range.
  assert (V : (N.of_nat (length ys) <=? 2 ^ w - 1)%N = true).
  { apply N.leb_le. unfold small in Hs. pose proof pow_w. lia. }
  rewrite V. cbn [verify bind].
  destruct (reserve_ok c v xs (N.of_nat (length ys)) HR Hs) as (v' & rest & -> & S1 & U & Sm & C & L). cbn [bind].
  assert (L' : length ys <= length (v_slots v')) by lia.
  destruct (split_rest (v_slots v') (length ys) L') as (g & r & E & Lg).
  pose proof (construct_l_mid ys [] g r 0 eq_refl Lg) as CE. cbn [app] in CE. rewrite E, CE.
  cbn [bind]. eexists. split; [reflexivity|]. exists r. cbn [v_slots v_used v_leak].
  split; [auto|]. split; [auto|]. split.
  { rewrite E in Sm. rewrite app_length, map_length, <- Lg, <- app_length. exact Sm. }
  intros c'. destruct (C c') as (-> & F). rewrite (Hc c') in *. cbn in S1. subst rest.
  rewrite E in F. apply Forall_app in F. rewrite lost_all_raw; tauto.
Qed.

Lemma set_vec_ok c v xs o ys : R c v xs -> (c -> xs = []) -> R c o ys -> small (length ys) ->
  exists v', set_vec A w triv v o = Ok v' /\ R c v' ys.
Proof.
  intros HR Hc (r & E & U & Sm & C) Hs. unfold set_vec. rewrite E, U.
  pose proof (read_n_mid ys [] r 0 (length ys) eq_refl eq_refl) as RE. cbn [app] in RE. rewrite RE. cbn [bind].
  destruct triv eqn:T; cbn [andb].
  2: { rewrite <- T in *. clear T. eapply set_range_ok; eauto. }
  destruct (Nat.eqb_spec (length ys) 0) as [Z|Z].
  2: { rewrite <- T in *. eapply set_range_ok; eauto. }
  destruct ys; [|discriminate]. eexists. split; [reflexivity|].
  destruct HR as (r' & E' & U' & Sm' & C'). exists (v_slots v). cbn. repeat split; auto; try (apply C; assumption).
  - apply C'; auto.
  - destruct (C' H) as (_ & F). rewrite (Hc H) in E'. cbn in E'. rewrite E'. exact F.
Qed.

(* ---- insert of a forward range ---- *)
Definition G (c : Prop) (used i : nat) (gs : list slot) : Prop :=
  forall k s, nth_error gs k = Some s -> (i + k < used -> nonraw s) /\ (used <= i + k -> c -> s = Raw).

Lemma put_mid c used i p s (r : list slot) x : i = length p -> G c used i [s] ->
  exists k, (if used <=? i then construct A triv (p ++ s :: r) i x
             else let* l := assign A (p ++ s :: r) i x in Ok (l, 0)) = Ok (p ++ Live x :: r, k) /\ (c -> k = 0).
Proof.
  intros Hi HG. destruct (HG 0 s eq_refl) as (H1 & H2). rewrite Nat.add_0_r in *.
  destruct (Nat.leb_spec used i).
  - rewrite construct_mid by auto. eexists. split; [reflexivity|]. intros c'. rewrite (H2 H c'). reflexivity.
  - rewrite assign_mid by auto. cbn [bind]. eauto.
Qed.

Lemma fill_gap_mid c used xs : forall p gs (r : list slot) i, i = length p -> length gs = length xs -> G c used i gs ->
  exists k, fill_gap A triv (p ++ gs ++ r) used i xs = Ok (p ++ map Live xs ++ r, k) /\ (c -> k = 0).
Proof.
  induction xs as [|x xs IH]; intros p [|g gs] r i Hi L HG; try discriminate; cbn [fill_gap map app]; eauto.
  destruct (put_mid c used i p g (gs ++ r) x Hi) as (k & -> & Hk).
  { intros [|[|?]] s E; cbn in E; try discriminate. apply HG; auto. }
  cbn [bind]. rewrite snoc_app. destruct (IH (p ++ [Live x]) gs r (S i)) as (k' & -> & Hk'); auto using snoc_len.
  { intros k' s E. replace (S i + k') with (i + S k') by lia. apply HG; auto. }
  cbn [bind]. rewrite <- app_assoc. eexists. split; [reflexivity|]. intros c'. rewrite Hk, Hk'; auto.
Qed.

Lemma shift_mid c used n : 0 < n -> forall ys p gs (r : list slot) i m, i = length p -> m = length ys -> length gs = n ->
  i + m <= used -> G c used (i + m) gs ->
  exists k gs', shift_right A triv (p ++ map Live ys ++ gs ++ r) used n (rev (seq i m)) =
    Ok (p ++ gs' ++ map Live ys ++ r, k) /\ (c -> k = 0) /\ length gs' = n /\ G c used i gs'.
Proof.
  intros Hn ys. induction ys as [|y ys IH] using rev_ind; intros p gs r i m Hi Hm L Hu HG.
  { subst m. cbn [length rev seq shift_right map app]. exists 0, gs. rewrite Nat.add_0_r in HG. auto. }
  rewrite app_length in Hm. cbn in Hm. rewrite Nat.add_1_r in Hm. subst m.
  rewrite seq_S, rev_app_distr. cbn [rev app shift_right].
  destruct gs as [|g0 gs0] using rev_ind; [cbn in L; lia|]. clear IHgs0.
  rewrite app_length in L. cbn in L.
  rewrite map_app. cbn [map].
  replace (p ++ (map Live ys ++ [Live y]) ++ (gs0 ++ [g0]) ++ r)
    with ((p ++ map Live ys) ++ Live y :: (gs0 ++ g0 :: r)) by (rewrite <- !app_assoc; reflexivity).
  rewrite take_mid by (rewrite app_length, map_length; lia). cbn [bind].
  replace ((p ++ map Live ys) ++ Gone :: gs0 ++ g0 :: r)
    with (((p ++ map Live ys) ++ Gone :: gs0) ++ g0 :: r) by (rewrite <- !app_assoc; reflexivity).
  rewrite (proj2 (Nat.eqb_neq n 0)) by lia. cbn [andb].
  destruct (put_mid c used (i + length ys + n) ((p ++ map Live ys) ++ Gone :: gs0) g0 r y) as (k & -> & Hk).
  { rewrite !app_length, map_length. cbn. lia. }
  { intros [|[|?]] s E; cbn in E; try discriminate. injection E as <-.
    replace (i + length ys + n + 0) with (i + S (length ys) + length gs0) by lia.
    apply HG. apply nth_error_mid. }
  cbn [bind].
  replace (((p ++ map Live ys) ++ Gone :: gs0) ++ Live y :: r)
    with (p ++ map Live ys ++ (Gone :: gs0) ++ (Live y :: r)) by (rewrite <- !app_assoc; reflexivity).
  destruct (IH p (Gone :: gs0) (Live y :: r) i (length ys)) as (k' & gs' & -> & Hk' & L' & HG'); auto.
  { cbn. lia. } { lia. }
  { intros [|k'] s E; cbn in E.
    - injection E as <-. split; [discriminate|]. lia.
    - replace (i + length ys + S k') with (i + S (length ys) + k') by lia. apply HG.
      rewrite nth_error_app1; auto. apply nth_error_Some. congruence. }
  cbn [bind]. eexists _, gs'. split; [f_equal; f_equal; rewrite <- !app_assoc; reflexivity|].
  split; [intros c'; rewrite Hk, Hk'; auto|]. auto.
Qed.
Lemma shift_zero used ys : triv = true -> forall p (r : list slot) i m, i = length p -> m = length ys -> i + m <= used ->
  shift_right A triv (p ++ map Live ys ++ r) used 0 (rev (seq i m)) = Ok (p ++ map Live ys ++ r, 0).
Proof.
  intros T. induction ys as [|y ys IH] using rev_ind; intros p r i m Hi Hm Hu; [subst m; reflexivity|].
  rewrite app_length in Hm. cbn in Hm. rewrite Nat.add_1_r in Hm. subst m.
  rewrite seq_S, rev_app_distr. cbn [rev app shift_right].
  rewrite map_app. cbn [map].
  replace (p ++ (map Live ys ++ [Live y]) ++ r)
    with ((p ++ map Live ys) ++ Live y :: r) by (rewrite <- !app_assoc; reflexivity).
  rewrite take_mid by (rewrite app_length, map_length; lia). cbn [bind]. rewrite Nat.add_0_r.
  destruct (Nat.leb_spec used (i + length ys)); [lia|]. rewrite T at 1. cbn [Nat.eqb negb andb].
  rewrite assign_mid; [|rewrite app_length, map_length; lia|discriminate]. cbn [bind].
  replace ((p ++ map Live ys) ++ Live y :: r) with (p ++ map Live ys ++ (Live y :: r)) by (rewrite <- app_assoc; auto).
  rewrite IH by (auto; lia). reflexivity.
Qed.

Lemma insert_range_ok c v xs i ys : R c v xs -> i <= length xs -> (ys = [] -> triv = true \/ i = length xs) -> small (length xs + length ys) ->
  exists v', insert_range A w triv v i ys = Ok (v', i) /\ R c v' (insert_at A i ys xs).
Proof.
  intros HR Hi He Hs. unfold insert_range. rewrite (R_used c v xs HR).
  destruct (Nat.eqb_spec (length xs) 0) as [Z|Z].
  { destruct xs; [|discriminate]. destruct (set_range_ok c v [] ys HR) as (v' & -> & HR'); auto.
    cbn [bind]. cbn in Hi. assert (i = 0) by lia. subst i. unfold insert_at. cbn. rewrite app_nil_r. eauto. }
  destruct (reserve_more c v xs (length ys) _ HR Hs eq_refl) as (v' & g & r & -> & S1 & Lg & U & Sm & C).
  cbn [bind]. rewrite S1, U.
  replace (map Live xs) with (map Live (firstn i xs) ++ map (@Live A) (skipn i xs)) by (rewrite <- map_app, firstn_skipn; auto).
  rewrite <- app_assoc.
  assert (H : exists k gs', shift_right A triv (map Live (firstn i xs) ++ map Live (skipn i xs) ++ g ++ r) (length xs)
            (length ys) (rev (seq i (length xs - i))) =
            Ok (map Live (firstn i xs) ++ gs' ++ map Live (skipn i xs) ++ r, k) /\ (c -> k = 0) /\
            length gs' = length ys /\ G c (length xs) i gs').
  { destruct (Nat.eq_dec (length ys) 0) as [E0|E0].
    - rewrite E0 in *. destruct g; [|discriminate]. cbn [app].
      assert (E : shift_right A triv (map Live (firstn i xs) ++ map Live (skipn i xs) ++ r) (length xs) 0
                    (rev (seq i (length xs - i))) = Ok (map Live (firstn i xs) ++ map Live (skipn i xs) ++ r, 0)).
      { destruct He as [T|E1]; [destruct ys; [reflexivity|discriminate]| |].
        - apply shift_zero; try (rewrite map_length, firstn_length; lia); try (rewrite skipn_length; lia); auto; lia.
        - subst i. rewrite Nat.sub_diag. reflexivity. }
      rewrite E. exists 0, []. repeat split; auto; destruct k; discriminate.
    - apply shift_mid; try lia; try (rewrite map_length, firstn_length; lia); try (rewrite skipn_length; lia).
      intros k s E. split; [lia|]. intros _ c'. destruct (C c') as (_ & F & _).
      rewrite Forall_forall in F. symmetry. apply F. eapply nth_error_In. eauto. }
  destruct H as (k & gs' & -> & Hk & L' & HG). cbn [bind].
  destruct (fill_gap_mid c (length xs) ys (map Live (firstn i xs)) gs' (map Live (skipn i xs) ++ r) i)
    as (k' & -> & Hk'); auto; [rewrite map_length, firstn_length; lia|].
  cbn [bind]. eexists. split; [reflexivity|]. exists r. cbn [v_slots v_used v_leak].
  rewrite insert_at_length. unfold insert_at. rewrite !map_app, <- !app_assoc. repeat split; auto; try (apply C; assumption).
  - rewrite S1 in Sm. rewrite !app_length, !map_length in *. rewrite firstn_length, skipn_length.
    eapply small_le; [|apply Sm]. lia.
  - destruct (C H) as (-> & _). rewrite Hk, Hk'; auto.
Qed.

(* ---- shrinking operations ---- *)
Lemma resize_ok c v xs n x : R c v xs -> (c -> length xs <= n) -> small n ->
  exists v', resize A w triv v n x = Ok v' /\ R c v' (resized A n x xs).
Proof.
  intros HR Hc Hs. unfold resize.
  destruct (reserve_ok c v xs (N.of_nat n) HR Hs) as (v' & rest & -> & S1 & U & Sm & C & L).
  cbn [bind]. rewrite S1, U. unfold resized.
  destruct (le_lt_dec n (length xs)) as [H|H].
  - replace (n - length xs) with 0 by lia. cbn [repeat construct_l bind app].
    eexists. split; [reflexivity|]. rewrite app_nil_r.
    exists (map Live (skipn n xs) ++ rest). cbn [v_slots v_used v_leak].
    rewrite app_assoc, <- map_app, firstn_skipn, firstn_length, <- S1. repeat split; auto; try lia; try (apply C; assumption).
    + assert (n = length xs) by (specialize (Hc H0); lia). subst n. rewrite skipn_all. apply C; auto.
  - destruct (split_rest rest (n - length xs)) as (g & r & -> & Lg).
    { rewrite S1, app_length, map_length in L. lia. }
    rewrite construct_l_mid by (rewrite ?map_length, ?repeat_length; auto). cbn [bind].
    eexists. split; [reflexivity|]. rewrite firstn_all2 by lia.
    exists r. cbn [v_slots v_used v_leak].
    rewrite map_app, <- app_assoc, !app_length, !map_length, !repeat_length. repeat split; auto; try lia; try (apply C; assumption).
    + rewrite S1, !app_length, map_length in Sm. eapply small_le; [|apply Sm]. lia.
    + destruct (C H0) as (-> & F). apply Forall_app in F. rewrite lost_all_raw; tauto.
    + destruct (C H0) as (_ & F). apply Forall_app in F. tauto.
Qed.

Lemma pop_ok c v xs : R c v xs -> xs <> [] ->
  exists v', pop_back A v = Ok v' /\ R c v' (removelast xs).
Proof.
  intros (r & E & U & Sm & C) Hne. unfold pop_back. rewrite U, E.
  destruct xs as [|x0 xs0] using rev_ind; [congruence|]. clear IHxs0.
  rewrite app_length in *. cbn [length] in *. destruct (Nat.eqb_spec (length xs0 + 1) 0); [lia|].
  rewrite map_app, <- app_assoc. cbn [map app].
  rewrite destroy_mid; [|rewrite map_length; lia|discriminate]. cbn [bind].
  eexists. split; [reflexivity|]. rewrite removelast_last.
  exists (Raw :: r). cbn [v_slots v_used v_leak]. repeat split; auto; try lia; try (apply C; assumption).
  - rewrite E in Sm. rewrite !app_length, !map_length, app_length in *. cbn in *. eapply small_le; [|apply Sm]. lia.
  - constructor; auto. apply C; auto.
Qed.

Lemma destroy_R (r : list slot) xs n : n = length xs ->
  destroy_n A (map Live xs ++ r) 0 n = Ok (repeat Raw n ++ r).
Proof.
  intros ->. pose proof (destroy_n_mid (map Live xs) [] r 0 (length xs) eq_refl) as H. cbn [app] in H.
  rewrite H; auto using nonraw_map. rewrite map_length. auto.
Qed.

Lemma clear_ok c v xs : R c v xs -> exists v', clear A v = Ok v' /\ R c v' [].
Proof.
  intros (r & E & U & Sm & C). unfold clear. rewrite E, destroy_R by auto. cbn [bind].
  eexists. split; [reflexivity|]. exists (repeat Raw (v_used v) ++ r). cbn. repeat split; auto; try (apply C; assumption).
  - rewrite E in Sm. rewrite !app_length, repeat_length, map_length in *. rewrite U. auto.
  - apply Forall_app. split; [apply raw_repeat|apply C; auto].
Qed.

Lemma swap_down_mid ys : forall p x (r : list slot) i n, i = length p -> n = length ys ->
  swap_down A (p ++ Live x :: map Live ys ++ r) i n = Ok (p ++ map Live ys ++ Live x :: r).
Proof.
  induction ys as [|y ys IH]; intros p x r i n Hi ->; cbn [length swap_down map app]; auto.
  unfold swap. rewrite read_mid by auto. cbn [bind].
  rewrite (snoc_app p (Live x)), read_mid by (rewrite app_length; cbn; lia). cbn [bind].
  rewrite <- snoc_app, assign_mid by (auto; discriminate). cbn [bind].
  rewrite (snoc_app p (Live y)), assign_mid; [|rewrite app_length; cbn; lia|discriminate]. cbn [bind].
  rewrite IH; auto using snoc_len. rewrite <- app_assoc. reflexivity.
Qed.

Lemma erase_ok c v xs i : R c v xs -> i < length xs ->
  exists v', erase A v i = Ok (v', i) /\ R c v' (remove A i (i + 1) xs).
Proof.
  intros (r & E & U & Sm & C) Hi. unfold erase. rewrite U, E.
  destruct (Nat.eqb_spec (length xs) 0); [lia|].
  destruct (nth_error xs i) as [x|] eqn:Hx. 2: { apply nth_error_None in Hx. lia. }
  destruct (nth_error_split xs i Hx) as (a & b & -> & La).
  rewrite map_app. cbn [map]. rewrite <- app_assoc. cbn [app]. rewrite app_length in *. cbn [length] in *.
  rewrite swap_down_mid by (rewrite ?map_length; lia). cbn [bind].
  rewrite app_assoc, destroy_mid; [|rewrite app_length, !map_length; lia|discriminate]. cbn [bind].
  eexists. split; [reflexivity|]. unfold remove.
  replace (firstn i (a ++ x :: b)) with a by (rewrite firstn_app, <- La, firstn_all, Nat.sub_diag, firstn_O, app_nil_r; auto).
  replace (skipn (i + 1) (a ++ x :: b)) with b.
  2: { rewrite skipn_app, skipn_all2 by lia. replace (i + 1 - length a) with 1 by lia. reflexivity. }
  exists (Raw :: r). cbn [v_slots v_used v_leak]. rewrite <- map_app, app_length. repeat split; auto; try lia; try (apply C; assumption).
  - rewrite E in Sm. rewrite !app_length, !map_length in *. rewrite app_length in *. cbn in *. eapply small_le; [|apply Sm]. lia.
  - constructor; auto. apply C; auto.
Qed.

Lemma skipn_skip {B} a : forall b (l : list B), skipn a (skipn b l) = skipn (b + a) l.
Proof.
  intros b. induction b as [|b IH]; intros l; cbn [Nat.add skipn]; auto.
  destruct l; auto. apply skipn_nil.
Qed.
Lemma move_down_mid ys : forall p ds (r : list slot) src dst n, dst = length p -> src = dst + length ds ->
  n = length ys -> 0 < length ds -> Forall nonraw ds ->
  exists ds', move_down A (p ++ ds ++ map Live ys ++ r) src dst n = Ok (p ++ map Live ys ++ ds' ++ r) /\
    length ds' = length ds /\ Forall nonraw ds'.
Proof.
  induction ys as [|y ys IH]; intros p ds r src dst n Hd Hs -> L F; cbn [length move_down map app].
  { exists ds. auto. }
  destruct ds as [|d ds]; [cbn in L; lia|]. inversion F; subst.
  rewrite app_assoc, take_mid by (rewrite app_length; auto). cbn [bind].
  rewrite <- app_assoc. cbn [app]. rewrite assign_mid by auto. cbn [bind].
  destruct (IH (p ++ [Live y]) (ds ++ [Gone]) r (S (length p + length (d :: ds))) (S (length p)) (length ys))
    as (ds' & E & L' & F').
  - rewrite app_length. cbn. lia.
  - rewrite app_length. cbn. lia.
  - auto.
  - rewrite app_length. cbn. lia.
  - apply Forall_app. split; auto. constructor; auto. discriminate.
  - exists ds'. rewrite app_length in L'. cbn in *. split; [|split; auto; lia].
    rewrite <- !app_assoc in E. cbn in E. exact E.
Qed.

Lemma erase_range_ok c v xs i j : R c v xs -> i <= j <= length xs ->
  exists v', erase_range A v i j = Ok (v', length (remove A i j xs)) /\ R c v' (remove A i j xs).
Proof.
  intros HR Hij. unfold erase_range. destruct (Nat.eqb_spec i j) as [->|Hne].
  { exists v. unfold remove. rewrite firstn_skipn, (R_used c v xs HR). auto. }
  destruct HR as (r & E & U & Sm & C). rewrite U, E.
  assert (X : xs = firstn i xs ++ firstn (j - i) (skipn i xs) ++ skipn j xs).
  { rewrite <- (firstn_skipn i xs) at 1. f_equal. rewrite <- (firstn_skipn (j - i) (skipn i xs)) at 1. f_equal.
    rewrite skipn_skip. f_equal. lia. }
  remember (firstn i xs) as a. remember (firstn (j - i) (skipn i xs)) as d. remember (skipn j xs) as b.
  assert (La : length a = i) by (subst a; rewrite firstn_length; lia).
  assert (Lb : length b = length xs - j) by (subst b; apply skipn_length).
  assert (Ld : length d = j - i) by (apply (f_equal (@length A)) in X; rewrite !app_length in X; lia).
  unfold remove. rewrite <- Heqa, <- Heqb.
  replace (map Live xs) with (map Live a ++ map Live d ++ map (@Live A) b) by (rewrite X, !map_app; auto).
  rewrite <- !app_assoc.
  destruct (move_down_mid b (map Live a) (map Live d) r j i (length xs - j)) as (ds & -> & L1 & F1);
    rewrite ?map_length; try lia; auto using nonraw_map.
  cbn [bind]. rewrite app_assoc.
  rewrite map_length in L1.
  rewrite (destroy_n_mid ds); auto; try (rewrite app_length, !map_length; lia). 2: lia.
  cbn [bind]. eexists. split; [rewrite app_length, La, Lb; reflexivity|].
  exists (repeat Raw (length xs - (i + (length xs - j))) ++ r). cbn [v_slots v_used v_leak].
  rewrite map_app, <- !app_assoc. rewrite app_length. repeat split; auto; try lia; try (apply C; assumption).
  - rewrite E in Sm. rewrite !app_length, !map_length, repeat_length in *. eapply small_le; [|apply Sm]. lia.
  - apply Forall_app. split; [apply raw_repeat|apply C; auto].
Qed.

Lemma nth_error_R c v xs i x : R c v xs -> nth_error xs i = Some x -> nth_error (v_slots v) i = Some (Live x).
Proof.
  intros (r & E & _) H. rewrite E, nth_error_app1.
  - rewrite nth_error_map, H. reflexivity.
  - rewrite map_length. apply nth_error_Some. congruence.
Qed.
Lemma read_R c v xs i x : R c v xs -> nth_error xs i = Some x -> read A (v_slots v) i = Ok x.
Proof. intros H1 H2. unfold read. erewrite nth_error_R; eauto. Qed.
Lemma contents_R c v xs : R c v xs -> contents A v = Ok xs.
Proof.
  intros (r & E & U & _). unfold contents. rewrite E, U.
  pose proof (read_n_mid xs [] r 0 (length xs) eq_refl eq_refl). auto.
Qed.

Lemma write_ok c v xs i x : R c v xs -> i < length xs ->
  exists l, assign A (v_slots v) i x = Ok l /\ R c (V l (v_used v) (v_self v) (v_leak v)) (upd i x xs).
Proof.
  intros (r & E & U & Sm & C) Hi. rewrite E.
  destruct (nth_error xs i) as [y|] eqn:Hx. 2: { apply nth_error_None in Hx. lia. }
  destruct (nth_error_split xs i Hx) as (a & b & -> & La).
  rewrite map_app. cbn [map]. rewrite <- app_assoc. cbn [app].
  rewrite assign_mid; [|rewrite map_length; auto|discriminate].
  eexists. split; [reflexivity|]. exists r. cbn [v_slots v_used v_leak].
  rewrite <- La, upd_mid, map_app, <- app_assoc. repeat split; auto; try (apply C; auto).
  - rewrite U, !app_length. auto.
  - rewrite E in Sm. rewrite !app_length, !map_length in *. rewrite app_length in Sm. cbn in *.
    eapply small_le; [|apply Sm]. rewrite ?app_length, ?map_length. cbn. rewrite ?app_length, ?map_length. lia.
Qed.

Lemma deallocate_ok c v xs : R c v xs -> exists v', deallocate A triv v = Ok v' /\ (c -> v_leak v' = 0) /\
  (exists ys, R c v' ys).
Proof.
  intros HR. pose proof HR as (r & E & U & Sm & C). unfold deallocate.
  destruct (negb (v_self v) || (length (v_slots v) =? 0)).
  { exists v. split; auto. split; [intros; apply C; auto|eauto]. }
  rewrite E, destroy_R by auto. cbn [bind]. eexists. split; [reflexivity|]. cbn [v_leak].
  assert (Z : c -> v_leak v + lost_all A triv (repeat Raw (v_used v) ++ r) = 0).
  { intros c'. destruct (C c') as (-> & F). rewrite lost_all_app, !lost_all_raw by auto using raw_repeat. auto. }
  split; auto. exists [], []. cbn. repeat split; auto. unfold small. cbn. lia.
Qed.

Lemma upd_upd {B} (l : list B) i x y : upd i x (upd i y l) = upd i x l.
Proof. revert i; induction l as [|z l IH]; intros [|i]; cbn; congruence. Qed.
Lemma nth_error_upd_neq {B} (l : list B) i j x : i <> j -> nth_error (upd i x l) j = nth_error l j.
Proof. intros H. rewrite nth_error_upd. destruct (Nat.eqb_spec i j); tauto. Qed.

(* ---- one step ---- *)
Definition Sim (c : Prop) : list vec -> list (list A) -> Prop := Forall2 (R c).

Lemma Sim_nth c vs st r xs : Sim c vs st -> nth_error st r = Some xs ->
  exists v, nth_error vs r = Some v /\ R c v xs.
Proof.
  intros H. revert r. induction H as [|v x vs st Hv Hs IH]; intros [|r]; cbn; try discriminate; eauto.
  intros [= <-]. eauto.
Qed.
Lemma Sim_upd c vs st r v xs : Sim c vs st -> R c v xs -> Sim c (upd r v vs) (upd r xs st).
Proof.
  intros H HR. revert r. induction H; intros [|r]; cbn; constructor; auto.
  apply IHForall2.
Qed.
Lemma Sim_upd_same c vs st r v xs : Sim c vs st -> nth_error st r = Some xs -> R c v xs -> Sim c (upd r v vs) st.
Proof.
  intros H. revert r. induction H; intros [|r]; cbn; try discriminate; intros E HR.
  - injection E as ->. constructor; auto.
  - constructor; auto. eapply IHForall2; eauto.
Qed.
Lemma obj_nth (vs : list vec) r v : nth_error vs r = Some v -> obj A vs r = Ok v.
Proof. unfold obj. intros ->. reflexivity. Qed.

Lemma upto_ok c vs st st' r P f k : Sim c vs st -> on A small r P f st st' ->
  (forall v xs, nth_error st r = Some xs -> R c v xs -> P xs -> small (length (f xs)) ->
     exists v', k v = Ok v' /\ R c v' (f xs)) ->
  exists vs', upto A vs r k = Ok (vs', ONone) /\ Sim c vs' st'.
Proof.
  intros HS HO HK. destruct HO as [st xs Hn HP Hl].
  destruct (Sim_nth c vs st r xs HS Hn) as (v & Hv & HR).
  destruct (HK v xs Hn HR HP Hl) as (v' & E & HR'). unfold upto. rewrite (obj_nth vs r v Hv). cbn [bind].
  rewrite E. cbn [bind]. eexists. split; [reflexivity|]. apply Sim_upd; auto.
Qed.
Lemma upto1_ok c vs st st' r P f k pf x : Sim c vs st -> on A small r P f st st' ->
  (forall xs, nth_error st' r = Some (f xs) -> x = pf xs) ->
  (forall v xs, nth_error st r = Some xs -> R c v xs -> P xs -> small (length (f xs)) ->
     exists v', k v = Ok (v', pf xs) /\ R c v' (f xs)) ->
  exists vs', upto1 A vs r k = Ok (vs', ONum x) /\ Sim c vs' st'.
Proof.
  intros HS HO HX HK. destruct HO as [st xs Hn HP Hl].
  destruct (Sim_nth c vs st r xs HS Hn) as (v & Hv & HR).
  destruct (HK v xs Hn HR HP Hl) as (v' & E & HR'). unfold upto1. rewrite (obj_nth vs r v Hv). cbn [bind].
  rewrite E. cbn [bind]. eexists. split; [rewrite <- (HX xs); [reflexivity|]|]. { apply nth_error_upd_eq. apply nth_error_Some. congruence. } apply Sim_upd; auto.
Qed.
Lemma ask_ok {B} vs r v (k : vec -> res B) f b : nth_error vs r = Some v -> k v = Ok b ->
  ask A vs r k f = Ok (vs, f b).
Proof. intros H1 H2. unfold ask. rewrite (obj_nth vs r v H1). cbn [bind]. rewrite H2. reflexivity. Qed.

Variable dflt : A.
Variables (eqA ltA : A -> A -> bool).
Theorem step_ok c vs st o st' x : Sim c vs st -> spec A small smallN dflt eqA ltA st o st' x ->
  (c -> keeps_objects A st o) ->
  exists vs', step A w triv dflt eqA ltA vs o = Ok (vs', x) /\ Sim c vs' st'.
Proof.
  intros HS H HK. inversion H; subst; cbn [step keeps_objects] in *.
  - eapply upto_ok; eauto. intros v xs Hn HR _ Hl. cbv beta in Hl |- *. apply push_ok; auto. rewrite app_length in Hl. auto.
  - eapply upto1_ok with (pf := fun _ => i + 1); [eauto|eauto|reflexivity|]. intros v xs Hn HR Hi Hl. rewrite insert_at_length in Hl.
    destruct (insert_ok c v xs i x0 HR Hi Hl) as (v' & ? & ?). eauto.
  - eapply upto1_ok with (pf := fun _ => i + n); [eauto|eauto|reflexivity|]. intros v xs Hn HR Hi Hl. rewrite insert_at_length, repeat_length in Hl.
    destruct (insert_n_ok c v xs i n x0 HR Hi Hl) as (v' & ? & ?). eauto.
  - eapply upto1_ok with (pf := fun _ => i + length ys); [eauto|eauto|reflexivity|]. intros v xs Hn HR Hi Hl. rewrite insert_at_length in Hl.
    destruct (insert_input_ok c v xs i ys HR Hi Hl) as (v' & ? & ?). eauto.
  - eapply upto1_ok with (pf := fun _ => i); [eauto|eauto|reflexivity|]. intros v xs Hn HR [Hi He] Hl. rewrite insert_at_length in Hl.
    destruct (insert_range_ok c v xs i ys HR Hi (fun e => or_intror (He e)) Hl) as (v' & ? & ?). eauto.
  - eapply upto_ok; eauto. intros v xs Hn HR _ Hl. eapply set_range_ok; eauto. intros c'. specialize (HK c'). congruence.
  - eapply upto_ok; eauto. intros v xs Hn HR _ Hl. apply resize_ok; [auto|intros c'; apply HK; auto|].
    unfold resized in Hl. rewrite app_length, firstn_length, repeat_length in Hl. eapply small_le; [|eauto]. lia.
  - eapply upto_ok; eauto. intros v xs Hn HR _ Hl. apply resize_ok; [auto|intros c'; apply HK; auto|].
    unfold resized in Hl. rewrite app_length, firstn_length, repeat_length in Hl. eapply small_le; [|eauto]. lia.
  - eapply upto_ok; eauto. intros v xs Hn HR _ Hl.
    destruct (reserve_ok c v xs n HR) as (v' & rest & E & E1 & E2 & E3 & E4 & _); auto.
    exists v'. split; auto. exists rest. auto.
  - eapply upto_ok; eauto. intros v xs Hn HR Hne Hl. apply pop_ok; auto.
  - eapply upto_ok; eauto. intros v xs Hn HR _ Hl. eapply clear_ok; eauto.
  - eapply upto1_ok with (pf := fun _ => i); [eauto|eauto|reflexivity|]. intros v xs Hn HR Hi Hl. destruct (erase_ok c v xs i HR Hi) as (v' & ? & ?). eauto.
  - eapply upto1_ok with (pf := fun xs => length (remove A i j xs)); [eauto|eauto|intros; congruence|]. intros v xs Hn HR Hi Hl. apply erase_range_ok; auto.
  - eapply upto_ok; eauto. intros v xs Hn HR Hi Hl. destruct (write_ok c v xs i x0 HR Hi) as (l & -> & ?). cbn [bind]. eauto.
  - (* Copy *)
    destruct (Sim_nth c vs st r' ys HS H0) as (o & Ho & HRo). rewrite (obj_nth vs r' o Ho). cbn [bind].
    eapply upto_ok; eauto. intros v xs Hn HR _ Hl. cbn beta in *.
    destruct (Nat.eqb_spec r r') as [->|Hne].
    + assert (xs = ys) by congruence. subst. eauto.
    + eapply set_vec_ok; eauto. intros c'. destruct (HK c'); congruence.
  - (* Move *)
    destruct (Sim_nth c vs st r xs HS H0) as (v & Hv & HR). rewrite (obj_nth vs r v Hv). cbn [bind].
    destruct (deallocate_ok c v xs HR) as (v1 & -> & L1 & (zs & HR1)). cbn [bind].
    destruct (Sim_nth c vs st r' ys HS H1) as (o & Ho & HRo).
    assert (Hlr : r < length vs) by (apply nth_error_Some; congruence).
    destruct (Nat.eq_dec r r') as [->|Hne].
    + rewrite (obj_nth _ r' v1) by (apply nth_error_upd_eq; auto). cbn [bind].
      rewrite upd_upd, (obj_nth _ r' _ (nth_error_upd_eq vs r' _ Hlr)). cbn [bind].
      eexists. split; [reflexivity|]. rewrite !upd_upd. apply Sim_upd; auto.
      exists []. cbn. repeat split; auto; unfold small; cbn; lia.
    + rewrite (obj_nth _ r' o) by (rewrite nth_error_upd_neq by auto; auto). cbn [bind]. rewrite upd_upd.
      rewrite (obj_nth _ r' o) by (rewrite nth_error_upd_neq by auto; auto). cbn [bind].
      eexists. split; [reflexivity|]. destruct HRo as (q & Q1 & Q2 & Q3 & Q4). apply Sim_upd; [apply Sim_upd; auto|].
      * exists q. cbn. repeat split; auto. apply Q4; auto.
      * exists []. cbn. repeat split; auto; [unfold small; cbn; lia|apply Q4; auto].
  - (* New *)
    eapply upto_ok; eauto. intros v xs Hn HR _ Hl. destruct (deallocate_ok c v xs HR) as (v1 & -> & L1 & _).
    cbn [bind]. eexists. split; [reflexivity|]. exists []. cbn. repeat split; auto; unfold small; cbn; lia.
  - eapply upto_ok; eauto. intros v xs Hn HR _ Hl. destruct (deallocate_ok c v xs HR) as (v1 & -> & L1 & _).
    cbn [bind]. eexists. split; [reflexivity|]. exists []. cbn. rewrite app_nil_r, map_length. repeat split; auto; try (apply C; assumption).
  - destruct (Sim_nth c vs st' r xs HS H0) as (v & Hv & HR). rewrite (obj_nth vs r v Hv). cbn [bind].
    unfold at_. rewrite (R_used c v xs HR). destruct (Nat.leb_spec (length xs) i) as [L|L].
    { apply nth_error_None in L. congruence. }
    rewrite (read_R c v xs i _ HR H1). eauto.
  - destruct (Sim_nth c vs st' r xs HS H0) as (v & Hv & HR). rewrite (obj_nth vs r v Hv). cbn [bind].
    unfold at_. rewrite (R_used c v xs HR). destruct (Nat.leb_spec (length xs) i) as [L|L]; [eauto|lia].
  - destruct (Sim_nth c vs st' r xs HS H0) as (v & Hv & HR). erewrite ask_ok; eauto. eapply read_R; eauto.
  - destruct (Sim_nth c vs st' r _ HS H0) as (v & Hv & HR). erewrite ask_ok; eauto. eapply read_R; eauto.
  - destruct (Sim_nth c vs st' r _ HS H0) as (v & Hv & HR). erewrite ask_ok; eauto.
    rewrite (R_used c v _ HR), app_length. cbn [length]. destruct (Nat.eqb_spec (length xs + 1) 0); [lia|].
    eapply read_R; eauto. rewrite Nat.add_sub. apply nth_error_mid.
  - destruct (Sim_nth c vs st' r _ HS H0) as (v & Hv & HR). erewrite ask_ok; eauto. cbn beta.
    rewrite (R_used c v _ HR). auto.
  - destruct (Sim_nth c vs st' r _ HS H0) as (v & Hv & HR). erewrite ask_ok; eauto. eapply contents_R; eauto.
  - destruct (Sim_nth c vs st' r _ HS H0) as (v & Hv & HR). destruct (Sim_nth c vs st' r' _ HS H1) as (o & Ho & HRo).
    rewrite (obj_nth vs r' o Ho). cbn [bind]. erewrite ask_ok; eauto.
    unfold veq. rewrite (contents_R c v xs HR), (contents_R c o ys HRo). cbn [bind]. f_equal.
    eapply bool_iff; eauto using std_equal_spec.
  - destruct (Sim_nth c vs st' r _ HS H0) as (v & Hv & HR). destruct (Sim_nth c vs st' r' _ HS H1) as (o & Ho & HRo).
    rewrite (obj_nth vs r' o Ho). cbn [bind]. erewrite ask_ok; eauto.
    unfold vlt. rewrite (contents_R c v xs HR), (contents_R c o ys HRo). cbn [bind]. f_equal.
    eapply bool_iff; eauto using std_lex_spec.
  - destruct (Sim_nth c vs st' r _ HS H0) as (v & Hv & HR). destruct (Sim_nth c vs st' r' _ HS H1) as (o & Ho & HRo).
    rewrite (obj_nth vs r' o Ho). cbn [bind]. erewrite ask_ok; eauto.
    unfold vgt, vlt. rewrite (contents_R c v xs HR), (contents_R c o ys HRo). cbn [bind]. f_equal.
    eapply bool_iff; eauto using std_lex_spec.
  - destruct (Sim_nth c vs st' r _ HS H0) as (v & Hv & HR). destruct (Sim_nth c vs st' r' _ HS H1) as (o & Ho & HRo).
    rewrite (obj_nth vs r' o Ho). cbn [bind]. erewrite ask_ok; eauto.
    unfold vle, vgt, vlt. rewrite (contents_R c v xs HR), (contents_R c o ys HRo). cbn [bind]. f_equal.
    eapply bool_iff; eauto using std_lex_spec, not_iff.
  - destruct (Sim_nth c vs st' r _ HS H0) as (v & Hv & HR). destruct (Sim_nth c vs st' r' _ HS H1) as (o & Ho & HRo).
    rewrite (obj_nth vs r' o Ho). cbn [bind]. erewrite ask_ok; eauto.
    unfold vge, vlt. rewrite (contents_R c v xs HR), (contents_R c o ys HRo). cbn [bind]. f_equal.
    eapply bool_iff; eauto using std_lex_spec, not_iff.
Qed.

Lemma Sim_init c n : Sim c (repeat vnew n) (repeat [] n).
Proof.
  induction n; cbn; constructor; auto. exists []. cbn. repeat split; auto. unfold small. cbn. lia.
Qed.

Theorem run_ok vs st ops st' xs : Sim False vs st -> history A small smallN dflt eqA ltA st ops st' xs ->
  exists vs', run A w triv dflt eqA ltA vs ops = Ok (vs', xs) /\ Sim False vs' st'.
Proof.
  intros HS H. revert vs HS. induction H; intros vs HS; cbn [run]; eauto.
  destruct (step_ok False vs st o st1 x HS H) as (vs1 & -> & HS1); [tauto|]. cbn [bind].
  destruct (IHhistory vs1 HS1) as (vs2 & -> & HS2). cbn [bind]. eauto.
Qed.
Theorem run_history n ops st' xs : history A small smallN dflt eqA ltA (repeat [] n) ops st' xs ->
  exists vs', run A w triv dflt eqA ltA (repeat vnew n) ops = Ok (vs', xs) /\
    map (contents A) vs' = map Ok st'.
Proof.
  intros H. destruct (run_ok _ _ _ _ _ (Sim_init False n) H) as (vs' & E & HS). exists vs'. split; auto.
  clear E H. induction HS as [|v xs0 vs0 st0 HR HS IH]; cbn; auto. rewrite (contents_R _ _ _ HR). congruence.
Qed.
Theorem run_tidy vs st ops : Sim True vs st -> tidy A small smallN dflt eqA ltA st ops ->
  exists vs' xs, run A w triv dflt eqA ltA vs ops = Ok (vs', xs) /\
    Forall (fun v => v_leak v = 0 /\ forall i, v_used v <= i < length (v_slots v) -> nth_error (v_slots v) i = Some Raw) vs'.
Proof.
  intros HS H. revert vs HS. induction H; intros vs HS; cbn [run].
  - eexists _, _. split; [reflexivity|]. induction HS as [|v xs vs st (r & E & U & Sm & C) HS IH]; constructor; auto.
    destruct (C I) as (C1 & C2). split; auto. intros i Hi. rewrite E in *. rewrite app_length, map_length in Hi.
    rewrite nth_error_app2 by (rewrite map_length; lia). rewrite map_length.
    destruct (nth_error r (i - length xs)) as [s|] eqn:En.
    + rewrite Forall_forall in C2. f_equal. symmetry. apply C2. eapply nth_error_In; eauto.
    + apply nth_error_None in En. lia.
  - destruct (step_ok True vs st o st1 x HS H0) as (vs1 & -> & HS1); auto. cbn [bind].
    destruct (IHtidy vs1 HS1) as (vs2 & xs & -> & HS2). cbn [bind]. eauto.
Qed.

Lemma self_move_empty vs v r vs' o : nth_error vs r = Some v -> step A w triv dflt eqA ltA vs (Move r r) = Ok (vs', o) ->
  exists v', nth_error vs' r = Some v' /\ contents A v' = Ok [].
Proof.
  intros E H. cbn [step] in H. unfold obj in H. rewrite E in H. cbn [bind] in H.
  destruct (deallocate A triv v) as [v1| | |]; try discriminate. cbn [bind] in H.
  assert (L : r < length vs) by (apply nth_error_Some; congruence).
  rewrite nth_error_upd_eq in H by exact L. cbn [bind] in H.
  rewrite nth_error_upd_eq in H by (rewrite upd_length; exact L). cbn [bind] in H. injection H as <- <-.
  rewrite nth_error_upd_eq by (rewrite !upd_length; exact L). eexists. split; reflexivity.
Qed.

End VP.
