(* Putting serializer, header and checked deserializer together. *)
From Verif Require Import Base Bytes HeaderModel HeaderSpec HeaderProofs HashModel HashSpec HashBits HashInv HashProofs HashRefine
  SerialModel SerialSpec SerialMem SerialPost SerialSer SerialTop SerialDeser SerialRead.
Local Open Scope Z_scope.

(* ---- tables without tombstones ---- *)
Lemma clean_empty : tab_empty clean_table.
Proof.
  intros size growth ctrl H. unfold clean_table in H. cbn [N.to_nat Nat.eqb negb orb] in H.
  repeat (apply andb_prop in H as [H ?]). destruct (list_eq_dec N.eq_dec ctrl (firstn 9 empty_group)); [assumption|discriminate].
Qed.
Lemma count_slots l : forallb (fun c => is_empty c || is_full c) l = true ->
  (count is_empty l + count is_full l + count is_deleted l)%N = N.of_nat (length l).
Proof.
  induction l as [|c l IH]; [reflexivity|]. cbn [forallb]. intros H. apply andb_prop in H as [Hc H]. specialize (IH H).
  rewrite !count_cons. cbn [length].
  assert (is_empty c = true -> is_full c = false /\ is_deleted c = false).
  { unfold is_empty, is_full, is_deleted, EMPTY, DELETED. intros. lia. }
  assert (is_full c = true -> is_deleted c = false).
  { unfold is_full, is_deleted, DELETED. intros. lia. }
  destruct (is_empty c), (is_full c), (is_deleted c); try lia; intuition discriminate.
Qed.
Lemma sub64_le x y : (y <= x)%N -> (sub64 x y <= x - y)%N.
Proof.
  intros H. unfold sub64, wrap64. pose proof (N.mod_upper_bound y W64 ltac:(discriminate)) as Hy.
  pose proof (N.div_mod' y W64) as E.
  replace (x + (W64 - y mod W64))%N with ((x - y) + (y / W64 + 1) * W64)%N by lia.
  rewrite N.mod_add by discriminate. apply N.mod_le. discriminate.
Qed.
Lemma clean_accepted s c g l : clean_table s c g l = true -> ctrl_tab s c g l = true.
Proof.
  intros H. unfold clean_table in H. set (n := N.to_nat c) in *.
  repeat (apply andb_prop in H as [H ?]).
  apply Nat.eqb_eq in H. rename H5 into Hf, H4 into He, H3 into Ht, H2 into Hs, H1 into Hg. clear H0.
  unfold ctrl_tab. replace (Z.of_N c) with (Z.of_nat n) by (unfold n; lia).
  destruct (count_growth_ok l n H (seq 0 n)) as (tg & Etg).
  { apply Forall_forall. intros i Hi. apply in_seq in Hi. lia. }
  unfold check_ctrl. rewrite Nat2Z.id.
  rewrite (nth_error_nth' l 0%N) by lia. rewrite He. cbn [verify bind].
  rewrite <- (firstn_skipn n l) at 1. rewrite forallb_app.
  assert (V1 : forallb (fun c => is_empty c || is_deleted c || is_full c || (c =? END)%N) (firstn n l) = true).
  { rewrite forallb_forall in *. intros x Hx. apply Hf in Hx. destruct (is_empty x), (is_full x), (is_deleted x); cbn [orb] in Hx |- *; congruence. }
  assert (V2 : forallb (fun c => is_empty c || is_deleted c || is_full c || (c =? END)%N) (skipn n l) = true).
  { rewrite forallb_forall in *. intros x Hx. apply Ht in Hx. destruct (is_empty x), (is_full x), (is_deleted x); cbn [orb] in Hx |- *; congruence. }
  rewrite V1, V2. cbn [andb verify bind]. rewrite Etg. cbn [bind].
  replace (Z.of_N s =? Z.of_N (count is_full (firstn n l))) with true by lia. cbn [verify bind].
  rewrite (count_slots _ Hf). rewrite firstn_length. replace (Z.of_N (N.of_nat (Nat.min n (length l))) =? Z.of_nat n) with true by lia.
  cbn [verify bind]. rewrite N2Z.id.
  pose proof (sub64_le (N.of_nat (capacity_to_growth n)) s ltac:(lia)) as Hsub.
  match goal with |- context [verify ?b] => replace b with true by lia end. reflexivity.
Qed.

(* every table built by a history whose growth budget was not eaten by tombstones is clean *)
Lemma count_cnt p l : count p l = N.of_nat (cnt p l).
Proof.
  unfold count. f_equal. induction l as [|c l IH]; [reflexivity|]. cbn. destruct (p c); cbn; lia.
Qed.

Definition tomb_free (ctrl : list N) : Prop := Forall (fun c => is_deleted c = false) ctrl.

Lemma Forall_upd {X} (P : X -> Prop) i x l : P x -> Forall P l -> Forall P (upd i x l).
Proof.
  intros Hx. revert i; induction l as [|y l IH]; intros i H; destruct i; cbn; try assumption; inversion H; subst;
    constructor; auto.
Qed.

Lemma cb_firstn k l i : (i < k)%nat -> nth i (firstn k l) 0%N = cb l i.
Proof.
  intros H. unfold cb. revert k i H. induction l; intros [|k] [|i] H; cbn; try lia; auto.
  apply IHl. lia.
Qed.

Section Reach.
Variables (K V : Type) (hash : K -> N) (keq : K -> K -> bool) (dv : V) (max_cap : nat).
Notation tbl := (tbl K V).
Notation free := (fun t : tbl => tomb_free (t_ctrl K V t)).

Lemma set_ctrl_free ctrl cap i h ctrl' : tomb_free ctrl -> set_ctrl ctrl cap i (h2 h) = Ok ctrl' -> tomb_free ctrl'.
Proof.
  unfold set_ctrl. intros H. destruct (_ && _)%bool; [|discriminate]. intros E. injection E as <-.
  assert (is_deleted (h2 h) = false) by apply full_not_deleted, h2_full.
  repeat apply Forall_upd; assumption.
Qed.
Lemma reset_free cap : tomb_free (reset_ctrl cap).
Proof.
  unfold reset_ctrl. apply Forall_upd; [reflexivity|]. apply Forall_forall. intros x Hx. apply repeat_spec in Hx as ->. reflexivity.
Qed.
Lemma resize_loop_free cap old : forall ctrl ent ctrl' ent', tomb_free ctrl ->
  resize_loop K V hash cap old ctrl ent = Ok (ctrl', ent') -> tomb_free ctrl'.
Proof.
  induction old as [|[c x] old IH]; intros ctrl ent ctrl' ent' H E; cbn [resize_loop] in E.
  - now injection E as <- _.
  - destruct (is_full c); [|eauto]. destruct x as [e|]; [|discriminate].
    destruct (find_first_non_full _ _ _) as [i| | |]; try discriminate. cbn [bind] in E.
    destruct (set_ctrl _ _ _ _) as [c1| | |] eqn:Es; try discriminate. cbn [bind] in E.
    destruct (put_ent _ _ _ _ _) as [e1| | |]; try discriminate. cbn [bind] in E.
    eapply IH; [|exact E]. eapply set_ctrl_free; eassumption.
Qed.
Lemma resize_free t n t' : resize K V hash max_cap t n = Ok t' -> free t'.
Proof.
  unfold resize. destruct (max_cap <? n)%nat; [discriminate|].
  destruct (resize_loop _ _ _ _ _ _ _) as [[ctrl ent]| | |] eqn:E; try discriminate. cbn [bind]. intros H. injection H as <-.
  eapply resize_loop_free; [|exact E]. apply reset_free.
Qed.
Lemma prepare_free t h t' i : free t -> prepare_insert K V hash max_cap t h = Ok (t', i) -> free t'.
Proof.
  unfold prepare_insert. intros Hf. destruct (find_first_non_full _ _ _) as [tg| | |]; try discriminate. cbn [bind].
  destruct (rd_ctrl K V t tg) as [c| | |]; try discriminate. cbn [bind].
  destruct ((t_growth K V t =? 0)%N && negb (is_deleted c))%bool.
  - destruct (rehash_and_grow_if_necessary _ _ _ _ _) as [t1| | |] eqn:E; try discriminate. cbn [bind].
    destruct (find_first_non_full _ _ _) as [tg'| | |]; try discriminate. cbn [bind].
    destruct (rd_ctrl K V t1 tg') as [c'| | |]; try discriminate. cbn [bind].
    destruct (set_ctrl _ _ _ _) as [c1| | |] eqn:Es; try discriminate. cbn [bind]. intros H. injection H as <- _.
    eapply set_ctrl_free; [|exact Es]. eapply resize_free. exact E.
  - cbn [bind]. destruct (rd_ctrl K V t tg) as [c'| | |]; try discriminate. cbn [bind].
    destruct (set_ctrl _ _ _ _) as [c1| | |] eqn:Es; try discriminate. cbn [bind]. intros H. injection H as <- _.
    eapply set_ctrl_free; [|exact Es]. exact Hf.
Qed.
Lemma fopi_free t k t' i b : free t -> find_or_prepare_insert K V hash keq max_cap t k = Ok (t', i, b) -> free t'.
Proof.
  unfold find_or_prepare_insert. intros Hf. destruct (find_ _ _ _ _ _ _) as [[j|]| | |]; try discriminate; cbn [bind].
  - intros H. now injection H as <- _ _.
  - destruct (prepare_insert _ _ _ _ _ _) as [[t1 j]| | |] eqn:E; try discriminate. cbn [bind]. intros H. injection H as <- _ _.
    eapply prepare_free; eassumption.
Qed.
Lemma set_ent_free (t : tbl) i x t' : free t -> set_ent K V t i x = Ok t' -> free t'.
Proof.
  unfold set_ent. intros Hf. destruct (put_ent _ _ _ _ _); try discriminate. cbn [bind]. intros H. now injection H as <-.
Qed.
Lemma emplace_free t e t' i b : free t -> emplace K V hash keq max_cap t e = Ok (t', i, b) -> free t'.
Proof.
  unfold emplace. intros Hf. destruct (find_or_prepare_insert _ _ _ _ _ _ _) as [[[t1 j] ins]| | |] eqn:E; try discriminate. cbn [bind].
  apply fopi_free in E; [|exact Hf]. destruct ins.
  - destruct (set_ent _ _ _ _ _) as [t2| | |] eqn:Es; try discriminate. cbn [bind]. intros H. injection H as <- _ _.
    eapply set_ent_free; eassumption.
  - intros H. now injection H as <- _ _.
Qed.
Lemma bracket_free t k t' i : free t -> bracket K V hash keq dv max_cap t k = Ok (t', i) -> free t'.
Proof.
  unfold bracket. intros Hf. destruct (find_or_prepare_insert _ _ _ _ _ _ _) as [[[t1 j] ins]| | |] eqn:E; try discriminate. cbn [bind].
  apply fopi_free in E; [|exact Hf]. destruct ins.
  - destruct (set_ent _ _ _ _ _) as [t2| | |] eqn:Es; try discriminate. cbn [bind]. intros H. injection H as <- _.
    eapply set_ent_free; eassumption.
  - intros H. now injection H as <- _.
Qed.
Lemma emplace_all_free l : forall t t', free t -> emplace_all K V hash keq max_cap t l = Ok t' -> free t'.
Proof.
  induction l as [|e l IH]; intros t t' Hf; cbn [emplace_all].
  - intros H. now injection H as <-.
  - destruct (emplace _ _ _ _ _ _ _) as [[[t1 j] ins]| | |] eqn:E; try discriminate. cbn [bind]. intros H.
    eapply IH; [|exact H]. eapply emplace_free; eassumption.
Qed.
Lemma empty_free : free (empty_tbl K V).
Proof. repeat constructor. Qed.

Definition is_erase (o : op K V) : bool := match o with Erase _ _ _ => true | _ => false end.

Ltac fin := let H := fresh in intros H; injection H as <- _.
Lemma step_free t o t' x : is_erase o = false -> free t -> HashModel.step K V hash keq dv max_cap t o = Ok (t', x) -> free t'.
Proof.
  intros Hne Hf. destruct o; cbn [HashModel.step is_erase] in *; try discriminate.
  - destruct (emplace _ _ _ _ _ _ _) as [[[t1 j] ins]| | |] eqn:E; try discriminate. cbn [bind].
    destruct (rd_ent _ _ _ _); try discriminate. cbn [bind]. fin. eapply emplace_free; eassumption.
  - destruct (bracket _ _ _ _ _ _ _ _) as [[t1 j]| | |] eqn:E; try discriminate. cbn [bind].
    destruct (rd_ent _ _ _ _); try discriminate. cbn [bind]. destruct (set_ent _ _ _ _ _) as [t2| | |] eqn:Es; try discriminate.
    cbn [bind]. fin. eapply set_ent_free; [|exact Es]. eapply bracket_free; eassumption.
  - destruct (bracket _ _ _ _ _ _ _ _) as [[t1 j]| | |] eqn:E; try discriminate. cbn [bind].
    destruct (rd_ent _ _ _ _); try discriminate. cbn [bind]. fin. eapply bracket_free; eassumption.
  - destruct (find_ _ _ _ _ _ _) as [[i|]| | |]; try discriminate; cbn [bind]; [|fin; exact Hf].
    destruct (rd_ent _ _ _ _); try discriminate. cbn [bind]. fin. exact Hf.
  - destruct (find_ _ _ _ _ _ _) as [[i|]| | |]; try discriminate; cbn [bind]; [|fin; exact Hf].
    destruct (rd_ent _ _ _ _); try discriminate. cbn [bind]. fin. exact Hf.
  - destruct (find_ _ _ _ _ _ _) as [[i|]| | |]; try discriminate; cbn [bind]; [|fin; exact Hf].
    destruct (rd_ent _ _ _ _); try discriminate. cbn [bind]. fin. exact Hf.
  - unfold clear. destruct (_ =? 0)%nat; cbn [bind]; [fin; exact Hf|].
    destruct (destroy_all _ _ _); try discriminate. cbn [bind]. fin. apply empty_free.
  - destruct (rehash _ _ _ _ _) as [t1| | |] eqn:E; try discriminate. cbn [bind]. fin. eapply resize_free. exact E.
  - fin. exact Hf.
  - destruct (iterate _ _ _); try discriminate. cbn [bind]. fin. exact Hf.
  - unfold copy_construct. destruct (_ =? 0)%N; cbn [bind]; [fin; apply empty_free|].
    destruct (iterate _ _ _) as [l| | |]; try discriminate. cbn [bind].
    destruct (emplace_all _ _ _ _ _ _ _) as [t1| | |] eqn:E; try discriminate. cbn [bind]. fin.
    eapply emplace_all_free; [|exact E]. apply empty_free.
Qed.
Lemma run_free ops : forall t t' xs, forallb (fun o => negb (is_erase o)) ops = true -> free t ->
  run K V hash keq dv max_cap t ops = Ok (t', xs) -> free t'.
Proof.
  induction ops as [|o ops IH]; intros t t' xs Hn Hf; cbn [run].
  - fin. exact Hf.
  - cbn [forallb] in Hn. apply andb_prop in Hn as [Ho Hn].
    destruct (HashModel.step _ _ _ _ _ _ _ _) as [[t1 x]| | |] eqn:E; try discriminate. cbn [bind].
    destruct (run _ _ _ _ _ _ _ _) as [[t2 ys]| | |] eqn:E2; try discriminate. cbn [bind]. fin.
    eapply IH; [exact Hn| |exact E2]. eapply step_free; [|exact Hf|exact E]. now destruct (is_erase o).
Qed.
Lemma run_app ops1 : forall t ops2, run K V hash keq dv max_cap t (ops1 ++ ops2) =
  (let* ' (t, xs) := run K V hash keq dv max_cap t ops1 in
   let* ' (t, ys) := run K V hash keq dv max_cap t ops2 in Ok (t, xs ++ ys)).
Proof.
  induction ops1 as [|o ops1 IH]; intros t ops2; cbn [app run].
  - cbn [bind]. destruct (run _ _ _ _ _ _ t ops2) as [[t2 ys]| | |]; reflexivity.
  - destruct (HashModel.step _ _ _ _ _ _ t o) as [[t1 x]| | |]; try reflexivity. cbn [bind]. rewrite IH.
    destruct (run _ _ _ _ _ _ t1 ops1) as [[t2 ys]| | |]; try reflexivity. cbn [bind].
    destruct (run _ _ _ _ _ _ t2 ops2) as [[t3 zs]| | |]; reflexivity.
Qed.
(* a history that erases nothing after its last rehash *)
Lemma rehash_free ops1 ops2 t xs : forallb (fun o => negb (is_erase o)) ops2 = true ->
  run K V hash keq dv max_cap (empty_tbl K V) (ops1 ++ Rehash K V :: ops2) = Ok (t, xs) -> free t.
Proof.
  intros Hn. rewrite run_app. destruct (run _ _ _ _ _ _ _ ops1) as [[t1 ys]| | |]; try discriminate. cbn [bind run HashModel.step].
  destruct (rehash _ _ _ _ _) as [t2| | |] eqn:E; try discriminate. cbn [bind].
  destruct (run _ _ _ _ _ _ _ ops2) as [[t3 zs]| | |] eqn:E2; try discriminate. cbn [bind]. fin.
  eapply run_free; [exact Hn| |exact E2]. eapply resize_free. exact E.
Qed.

(* a table of capacity 0 is the initial one *)
Definition zero (t : tbl) : Prop := t_cap K V t = 0%nat ->
  t_ent K V t = [] /\ t_size K V t = 0%N /\ t_growth K V t = 0%N /\ firstn 9 (t_ctrl K V t) = firstn 9 empty_group.
Lemma empty_zero : zero (empty_tbl K V).
Proof. intros _. repeat split. Qed.
Lemma resize_cap t n t' : resize K V hash max_cap t n = Ok t' -> t_cap K V t' = n.
Proof.
  unfold resize. destruct (max_cap <? n)%nat; [discriminate|].
  destruct (resize_loop _ _ _ _ _ _ _) as [[ctrl ent]| | |]; try discriminate. cbn [bind]. intros H. now injection H as <-.
Qed.
Lemma rehash_zero t t' : zero t -> rehash K V hash max_cap t = Ok t' -> zero t'.
Proof.
  intros Hz E. unfold rehash in E. pose proof (resize_cap _ _ _ E) as Hc. intros H0. rewrite H0 in Hc.
  destruct (Hz (eq_sym Hc)) as (H1 & H2 & H3 & _). unfold resize in E. rewrite <- Hc, H1, H2 in E.
  destruct (max_cap <? 0)%nat; [discriminate|]. cbn in E. injection E as <-. repeat split.
Qed.
Lemma rhg_zero t t' : rehash_and_grow_if_necessary K V hash max_cap t = Ok t' -> t_cap K V t' <> 0%nat.
Proof.
  unfold rehash_and_grow_if_necessary. intros E. apply resize_cap in E. destruct (Nat.eqb_spec (t_cap K V t) 0); lia.
Qed.
Lemma landn_0 n : landn n 0 = 0%nat.
Proof. unfold landn. now rewrite N.land_0_r. Qed.
Lemma ffl_zero fuel : forall ctrl s i, find_first_loop fuel ctrl 0 s = Ok i -> i = 0%nat.
Proof.
  induction fuel as [|fuel IH]; intros ctrl s i; cbn [find_first_loop]; [discriminate|].
  destruct (group ctrl (fst s)); try discriminate. cbn [bind]. destruct (_ =? 0)%N; [apply IH|].
  intros H. injection H as <-. apply landn_0.
Qed.
Lemma prepare_zero t h t' i : zero t -> prepare_insert K V hash max_cap t h = Ok (t', i) -> t_cap K V t' <> 0%nat.
Proof.
  unfold prepare_insert. intros Hz. destruct (find_first_non_full _ _ _) as [tg| | |] eqn:Ef; try discriminate. cbn [bind].
  destruct (rd_ctrl K V t tg) as [c| | |] eqn:Ec; try discriminate. cbn [bind].
  destruct ((t_growth K V t =? 0)%N && negb (is_deleted c))%bool eqn:G.
  - clear Ef. destruct (rehash_and_grow_if_necessary _ _ _ _ _) as [t1| | |] eqn:E; try discriminate. cbn [bind].
    destruct (find_first_non_full _ _ _) as [tg'| | |]; try discriminate. cbn [bind].
    destruct (rd_ctrl K V t1 tg') as [c'| | |]; try discriminate. cbn [bind].
    destruct (set_ctrl _ _ _ _) as [c1| | |]; try discriminate. cbn [bind]. intros H. injection H as <- _.
    cbn [t_cap]. eapply rhg_zero. exact E.
  - cbn [bind]. rewrite Ec. cbn [bind].
    destruct (set_ctrl _ _ _ _) as [c1| | |]; try discriminate. cbn [bind]. intros H. injection H as <- _. cbn [t_cap].
    intros H0. destruct (Hz H0) as (_ & _ & H3 & H4). rewrite H3 in G. cbn [N.eqb andb] in G.
    rewrite H0 in Ef. apply ffl_zero in Ef. subst tg. unfold rd_ctrl in Ec.
    destruct (t_ctrl K V t) as [|x l]; [discriminate|]. cbn in H4. injection H4 as -> _. cbn in Ec. injection Ec as <-.
    discriminate G.
Qed.
Lemma fopi_zero t k t' i b : zero t -> find_or_prepare_insert K V hash keq max_cap t k = Ok (t', i, b) -> zero t'.
Proof.
  unfold find_or_prepare_insert. intros Hf. destruct (find_ _ _ _ _ _ _) as [[j|]| | |]; try discriminate; cbn [bind].
  - intros H. now injection H as <- _ _.
  - destruct (prepare_insert _ _ _ _ _ _) as [[t1 j]| | |] eqn:E; try discriminate. cbn [bind]. intros H. injection H as <- _ _.
    intros H0. apply prepare_zero in E; [contradiction|exact Hf].
Qed.
Lemma set_ent_zero (t : tbl) i x t' : zero t -> set_ent K V t i x = Ok t' -> zero t'.
Proof.
  unfold set_ent, put_ent. intros Hf. destruct (i <? length (t_ent K V t))%nat eqn:L; try discriminate. cbn [bind]. intros H.
  injection H as <-. intros H0. destruct (Hf H0) as (H1 & _). rewrite H1 in L. discriminate.
Qed.
Lemma emplace_zero t e t' i b : zero t -> emplace K V hash keq max_cap t e = Ok (t', i, b) -> zero t'.
Proof.
  unfold emplace. intros Hf. destruct (find_or_prepare_insert _ _ _ _ _ _ _) as [[[t1 j] ins]| | |] eqn:E; try discriminate. cbn [bind].
  apply fopi_zero in E; [|exact Hf]. destruct ins.
  - destruct (set_ent _ _ _ _ _) as [t2| | |] eqn:Es; try discriminate. cbn [bind]. intros H. injection H as <- _ _.
    eapply set_ent_zero; eassumption.
  - intros H. now injection H as <- _ _.
Qed.
Lemma bracket_zero t k t' i : zero t -> bracket K V hash keq dv max_cap t k = Ok (t', i) -> zero t'.
Proof.
  unfold bracket. intros Hf. destruct (find_or_prepare_insert _ _ _ _ _ _ _) as [[[t1 j] ins]| | |] eqn:E; try discriminate. cbn [bind].
  apply fopi_zero in E; [|exact Hf]. destruct ins.
  - destruct (set_ent _ _ _ _ _) as [t2| | |] eqn:Es; try discriminate. cbn [bind]. intros H. injection H as <- _.
    eapply set_ent_zero; eassumption.
  - intros H. now injection H as <- _.
Qed.
Lemma emplace_all_zero l : forall t t', zero t -> emplace_all K V hash keq max_cap t l = Ok t' -> zero t'.
Proof.
  induction l as [|e l IH]; intros t t' Hf; cbn [emplace_all].
  - intros H. now injection H as <-.
  - destruct (emplace _ _ _ _ _ _ _) as [[[t1 j] ins]| | |] eqn:E; try discriminate. cbn [bind]. intros H.
    eapply IH; [|exact H]. eapply emplace_zero; eassumption.
Qed.
Lemma step_zero t o t' x : zero t -> HashModel.step K V hash keq dv max_cap t o = Ok (t', x) -> zero t'.
Proof.
  intros Hf. destruct o; cbn [HashModel.step] in *.
  - destruct (emplace _ _ _ _ _ _ _) as [[[t1 j] ins]| | |] eqn:E; try discriminate. cbn [bind].
    destruct (rd_ent _ _ _ _); try discriminate. cbn [bind]. fin. eapply emplace_zero; eassumption.
  - destruct (bracket _ _ _ _ _ _ _ _) as [[t1 j]| | |] eqn:E; try discriminate. cbn [bind].
    destruct (rd_ent _ _ _ _); try discriminate. cbn [bind]. destruct (set_ent _ _ _ _ _) as [t2| | |] eqn:Es; try discriminate.
    cbn [bind]. fin. eapply set_ent_zero; [|exact Es]. eapply bracket_zero; eassumption.
  - destruct (bracket _ _ _ _ _ _ _ _) as [[t1 j]| | |] eqn:E; try discriminate. cbn [bind].
    destruct (rd_ent _ _ _ _); try discriminate. cbn [bind]. fin. eapply bracket_zero; eassumption.
  - destruct (find_ _ _ _ _ _ _) as [[i|]| | |]; try discriminate; cbn [bind]; [|fin; exact Hf].
    destruct (rd_ent _ _ _ _); try discriminate. cbn [bind]. fin. exact Hf.
  - destruct (find_ _ _ _ _ _ _) as [[i|]| | |]; try discriminate; cbn [bind]; [|fin; exact Hf].
    destruct (rd_ent _ _ _ _); try discriminate. cbn [bind]. fin. exact Hf.
  - destruct (find_ _ _ _ _ _ _) as [[i|]| | |]; try discriminate; cbn [bind]; [|fin; exact Hf].
    destruct (rd_ent _ _ _ _); try discriminate. cbn [bind]. fin. exact Hf.
  - unfold erase. destruct (find_ _ _ _ _ _ _) as [[i|]| | |]; try discriminate; cbn [bind]; [|fin; exact Hf].
    unfold erase_at. destruct (rd_ent K V t i) as [e| | |] eqn:Er; try discriminate. cbn [bind].
    destruct (set_ent _ _ _ _ _) as [t1| | |] eqn:Es; try discriminate. cbn [bind].
    unfold erase_meta_only. destruct (was_never_full _ _ _ _) as [w| | |]; try discriminate. cbn [bind].
    destruct (set_ctrl _ _ _ _) as [c1| | |]; try discriminate. cbn [bind]. fin. intros H0. cbn [t_cap] in H0.
    assert (Ht : t_cap K V t = 0%nat).
    { unfold set_ent in Es. destruct (put_ent _ _ _ _ _); try discriminate. cbn [bind] in Es. injection Es as <-. exact H0. }
    destruct (Hf Ht) as (H1 & _). unfold rd_ent in Er. rewrite H1 in Er. destruct i; discriminate.
  - unfold clear. destruct (_ =? 0)%nat; cbn [bind]; [fin; exact Hf|].
    destruct (destroy_all _ _ _); try discriminate. cbn [bind]. fin. apply empty_zero.
  - destruct (rehash _ _ _ _ _) as [t1| | |] eqn:E; try discriminate. cbn [bind]. fin. eapply rehash_zero; eassumption.
  - fin. exact Hf.
  - destruct (iterate _ _ _); try discriminate. cbn [bind]. fin. exact Hf.
  - unfold copy_construct. destruct (_ =? 0)%N; cbn [bind]; [fin; apply empty_zero|].
    destruct (iterate _ _ _) as [l| | |]; try discriminate. cbn [bind].
    destruct (emplace_all _ _ _ _ _ _ _) as [t1| | |] eqn:E; try discriminate. cbn [bind]. fin.
    eapply emplace_all_zero; [|exact E]. apply empty_zero.
Qed.
Lemma run_zero ops : forall t t' xs, zero t -> run K V hash keq dv max_cap t ops = Ok (t', xs) -> zero t'.
Proof.
  induction ops as [|o ops IH]; intros t t' xs Hf; cbn [run].
  - fin. exact Hf.
  - destruct (HashModel.step _ _ _ _ _ _ _ _) as [[t1 x]| | |] eqn:E; try discriminate. cbn [bind].
    destruct (run _ _ _ _ _ _ _ _) as [[t2 ys]| | |] eqn:E2; try discriminate. cbn [bind]. fin.
    eapply IH; [|exact E2]. eapply step_zero; eassumption.
Qed.

Hypothesis laws : key_laws K keq hash.
Hypothesis bounded : cap_bounded max_cap.
Lemma free_clean ops t xs : run K V hash keq dv max_cap (empty_tbl K V) ops = Ok (t, xs) -> free t ->
  clean_table (t_size K V t) (N.of_nat (t_cap K V t)) (t_growth K V t) (firstn (t_cap K V t + 9) (t_ctrl K V t)) = true.
Proof.
  intros E Hf. pose proof (run_zero _ _ _ _ empty_zero E) as Hz. eapply reach in E as (HI & _); [|exact laws|exact bounded].
  pose proof (I_J _ _ _ _ _ _ _ _ HI) as HJ. pose proof (J_len _ _ _ _ _ _ HJ) as HL.
  pose proof (Inv_len _ _ _ _ _ _ _ _ HI) as HN. pose proof (I_size _ _ _ _ _ _ _ _ HI) as HS.
  pose proof (I_growth _ _ _ _ _ _ _ _ HI) as HG. pose proof (I_cnt _ _ _ _ _ _ _ _ HI) as HC.
  pose proof (J_end _ _ _ _ _ _ HJ) as He. pose proof (J_ok _ _ _ _ _ _ HJ) as Hok.
  pose proof (J_slot _ _ _ _ _ _ HJ) as Hsl. pose proof (J_mir _ _ _ _ _ _ HJ) as Hm.
  cbv beta in Hf.
  set (cap := t_cap K V t) in *. set (ctrl := t_ctrl K V t) in *.
  assert (Hd : forall c, In c ctrl -> is_deleted c = false) by (now apply Forall_forall).
  assert (Ho : forall c, In c ctrl -> is_empty c || is_full c || (c =? END)%N = true).
  { intros c Hc. rewrite Forall_forall in Hok. pose proof (Hok c Hc) as H1. pose proof (Hd c Hc) as H2.
    unfold ctrl_ok in H1. unfold is_deleted, is_empty, is_full, DELETED, EMPTY, END in *. lia. }
  assert (Hff : firstn cap (firstn (cap + 9) ctrl) = firstn cap ctrl).
  { rewrite firstn_firstn. f_equal. lia. }
  unfold clean_table. rewrite Nat2N.id, Hff. rewrite firstn_length.
  assert (Hnd : ndel cap ctrl = 0%nat).
  { unfold ndel. assert (Hi : forall c, In c (firstn cap ctrl) -> is_deleted c = false).
    { intros c Hc. apply Hd. rewrite <- (firstn_skipn cap ctrl). apply in_or_app. now left. }
    clear - Hi. induction (firstn cap ctrl) as [|c l IH]; [reflexivity|]. cbn. rewrite (Hi c) by now left.
    cbn. apply IH. intros. apply Hi. now right. }
  repeat (apply andb_true_intro; split).
  - apply Nat.eqb_eq. lia.
  - apply forallb_forall. intros c Hc. apply In_nth with (d := 0%N) in Hc as (i & Hi & <-).
    assert (Hi' : (i < cap)%nat) by (rewrite firstn_length in Hi; lia).
    rewrite (cb_firstn cap ctrl i Hi'). unfold cb. specialize (Hsl i Hi'). unfold cb in Hsl.
    specialize (Ho (nth i ctrl 0%N) ltac:(apply nth_In; lia)). destruct (N.eqb_spec (nth i ctrl 0%N) END); [contradiction|].
    now rewrite orb_false_r in Ho.
  - rewrite (cb_firstn (cap + 9) ctrl cap) by lia. rewrite He. reflexivity.
  - apply forallb_forall. intros c Hc. apply Ho. apply (in_or_app (firstn (cap + 9) ctrl) (skipn (cap + 9) ctrl)) || idtac.
    rewrite <- (firstn_skipn (cap + 9) ctrl). apply in_or_app. left.
    rewrite <- (firstn_skipn cap (firstn (cap + 9) ctrl)). apply in_or_app. now right.
  - rewrite count_cnt, HS. fold (nfull cap ctrl). rewrite HN. apply N.eqb_refl.
  - rewrite HS, HG, HN, Hnd. fold ctg. apply N.eqb_eq. rewrite HN, Hnd in HC. lia.
  - destruct (Nat.eqb_spec cap 0) as [Ez|]; [|reflexivity]. cbn [negb orb].
    destruct (Hz Ez) as (_ & _ & _ & Hz'). rewrite Ez. cbn [plus]. fold ctrl in Hz'. rewrite Hz'.
    destruct (list_eq_dec _ _ _) as [|Hne]; [reflexivity|]. now contradiction Hne.
Qed.
End Reach.

(* ---- length of the finished buffer ---- *)
Lemma put_len pos d b : (pos + length d <= length b)%nat -> length (put pos d b) = length b.
Proof. intros H. unfold put. rewrite !app_length, firstn_length, skipn_length. lia. Qed.
Lemma write_at_len b pos d b' : buf_write_at b pos d = Ok b' -> length b' = length b.
Proof.
  unfold buf_write_at. destruct (Nat.leb_spec (pos + length d) (length b)); cbn [verify bind]; [|discriminate].
  intros H'. injection H' as <-. now apply put_len.
Qed.
Lemma patch_len s pos d s' : patch s pos d = Ok s' -> length (s_buf s') = length (s_buf s).
Proof.
  unfold patch. destruct (buf_write_at _ _ _) eqn:E; cbn [bind]; try discriminate.
  intros H. injection H as <-. cbn [s_buf]. eapply write_at_len; eauto.
Qed.
Lemma resolve_len be s p pos b s' : resolve be s p pos b = Ok s' -> length (s_buf s') = length (s_buf s).
Proof.
  unfold resolve. destruct p as [q|]; [|apply patch_len].
  destruct (find_off q (s_offs s)); [apply patch_len|].
  destruct (resolve_range s q); [apply patch_len|].
  destruct b; [|intros H; injection H as <-; reflexivity].
  destruct (patch_off be s pos NULLPTR_OFFSET) as [s1| | |] eqn:E; cbn [bind]; try discriminate.
  intros H. injection H as <-. exact (patch_len _ _ _ _ E).
Qed.
Lemma flush_len be s s' : flush_pending be s = Ok s' -> length (s_buf s') = length (s_buf s).
Proof.
  unfold flush_pending. generalize (s_pend s) as l. intros l. revert s. induction l as [|x l IH]; cbn [foldM]; intros s H.
  - now injection H as <-.
  - destruct (resolve be s (fst x) (snd x) false) as [s1| | |] eqn:E; cbn [bind] in H; try discriminate.
    rewrite (IH _ H). eapply resolve_len; eauto.
Qed.
Lemma finish_len hb m b io out : serialize_finish hb m b io = Ok out -> length out = length b.
Proof.
  unfold serialize_finish. destruct (is_mode_enabled m WITH_INTEGRITY); [apply write_at_len|].
  intros H. now injection H as <-.
Qed.

Lemma tyof_ok (P : ty -> Prop) env n : P (TInt 1) -> Forall P env -> P (tyof env n).
Proof.
  intros H0 H. unfold tyof. destruct (nth_in_or_default n env (TInt 1)) as [Hi | ->]; [|exact H0].
  rewrite Forall_forall in H. now apply H.
Qed.

(* ---- what the checked reader accepts ---- *)
Section Accept.
Variables (env : list ty) (A : Z) (t : ty).
Hypothesis Ht : types_ok A env t.
Variables (be strict : bool) (m th : N) (f : nat) (B : Z) (b : list N).
Hypothesis HB : 0 < B < 2 ^ 62.
Hypothesis Hlen : Z.of_nat (length b) < 2 ^ 62.
Hypothesis Hb : bytes_ok b.
Let el := B + Z.of_nat (data_start m).

Lemma start_small : Z.of_nat (data_start m) <= 16.
Proof. unfold data_start, integrity_start. destruct (_ || _)%bool, (_ || _)%bool; lia. Qed.

Lemma agree_root : agrees strict (all_free env /\ cstr_free t)
  (deser env be strict (at_base B b) B (B + Z.of_nat (length b)) f t el)
  (dec env (plain be (at_base B b) true (Some (B, B + Z.of_nat (length b))) ctrl_tab) f t el).
Proof.
  destruct Ht as (Hwf & _ & Hwt & Hs). inversion Hs; subst.
  refine (deser_agrees env A Hwf B b HB Hlen Hb be strict _ f t Hwt _ el _); auto.
  - intros n. apply tyof_ok; [cbn; lia|assumption].
  - unfold addr, el. pose proof start_small. lia.
Qed.

Lemma accepted v tr : check be m th b = Ok tt ->
  image_at env be B b ctrl_tab f t el v tr ->
  deserialize env be strict m th f t B b = Ok el.
Proof.
  intros Hc Hd. unfold deserialize. rewrite Hc. cbn [bind]. fold el.
  pose proof agree_root as Hag. unfold image_at in Hd. rewrite Hd in Hag. unfold agrees in Hag.
  destruct (deser _ _ _ _ _ _ _ _ _) as [[]| | |]; try discriminate; [reflexivity|destruct Hag; discriminate].
Qed.

Lemma accepted_inv r : no_cstring env t -> deserialize env be strict m th f t B b = Ok r ->
  r = el /\ check be m th b = Ok tt /\ exists v tr, image_at env be B b ctrl_tab f t el v tr.
Proof.
  intros [Hc1 Hc2] H. unfold deserialize in H. destruct (check be m th b) as [[]| | |]; cbn [bind] in H; try discriminate.
  fold el in H. pose proof agree_root as Hag.
  destruct (deser _ _ _ _ _ _ _ _ _) as [[]| | |]; cbn [bind] in H; try discriminate. injection H as <-.
  split; [reflexivity|]. split; [reflexivity|].
  destruct Hag as ([v tr] & Hd); [split; [|exact Hc1]; intros n; apply tyof_ok; [constructor|exact Hc2]|].
  exists v, tr. exact Hd.
Qed.

Lemma never_ub : strict = false -> deserialize env be strict m th f t B b <> UB.
Proof.
  intros Es H. unfold deserialize in H.
  destruct (check_cases be m th b Hb) as [E|E]; rewrite E in H; cbn [bind] in H; [|discriminate].
  fold el in H. pose proof agree_root as Hag. unfold agrees in Hag.
  destruct (deser _ _ _ _ _ _ _ _ _) as [[]| | |]; cbn [bind] in H; try discriminate. destruct Hag. congruence.
Qed.
End Accept.

(* ---- round trip through serialize and deserialize ---- *)
Section Trip.
Variables (env : list ty) (A : Z) (t : ty).
Hypothesis Ht : types_ok A env t.
Variables (be_src rel : bool) (src : mem).
Hypothesis Hsrc : total_mem src.
Variables (m th : N).
Hypothesis Hwm : writer_mode m.
Hypothesis Hth : (th < W64)%N.
Hypothesis Hroot : Z.of_nat (data_start m) mod align_of t = 0.
Variables (f : nat) (a : Z) (v : val) (tr : list ev).
Hypothesis Hg : graph_at env be_src rel src f t a v tr.
Let be := is_mode_enabled m SERIALIZE_BIG_ENDIAN.

Lemma trip : (exists root b io pos s, sbytes src a (Z.to_nat (size_of t)) = Ok root /\
     serialize_start be_src m th (fun _ => 0%nat) root (Z.to_nat (align_of t)) = (b, io, pos) /\
     ser env be_src be rel src f t a (Z.of_nat pos) (St b [] [] []) = Ok s /\ 2 ^ 62 < Z.of_nat (length (s_buf s))) \/
  exists out, serialize env be_src rel m th src f t a = Ok out /\
    bytes_ok out /\ check be_src m th out = Ok tt /\ Z.of_nat (length out) <= 2 ^ 62 /\
    forall B, 0 < B < 2 ^ 62 -> (A | B) ->
    exists tr', image_at env be B out clean_table f t (B + Z.of_nat (data_start m)) v tr' /\ mirrors tr tr' /\
      tidy tr' /\ starts (B + Z.of_nat (data_start m)) tr'.
Proof.
  destruct Ht as (Hwf & HA & Hwt & _). destruct Hg as (Hd & Hdis & Hfit).
  exact (roundtrip env A Hwf be_src be rel src Hsrc clean_table clean_empty m th eq_refl f t a v tr
           HA Hwt Hwm Hth Hroot Hd Hdis Hfit).
Qed.

Lemma trip_apart out : serialize env be_src rel m th src f t a = Ok out -> Z.of_nat (length out) < 2 ^ 62 ->
  bytes_ok out /\ check be m th out = Ok tt /\
  forall B, 0 < B < 2 ^ 62 -> (A | B) ->
    (exists tr', image_at env be B out clean_table f t (B + Z.of_nat (data_start m)) v tr' /\ mirrors tr tr' /\
       tidy tr' /\ starts (B + Z.of_nat (data_start m)) tr') /\
    forall strict, deserialize env be strict m th f t B out = Ok (B + Z.of_nat (data_start m)).
Proof.
  intros Ho Hl. destruct trip as [(root & b & io & pos & s & E1 & E2 & E3 & E4)|(out' & E1 & E2 & E3 & E4 & E5)].
  { exfalso. unfold serialize in Ho. rewrite E1 in Ho. cbn [bind] in Ho. rewrite E2 in Ho. fold be in Ho.
    rewrite E3 in Ho. cbn [bind] in Ho. destruct (flush_pending be s) eqn:E5; cbn [bind] in Ho; try discriminate.
    apply finish_len in Ho. apply flush_len in E5. lia. }
  assert (out' = out) by congruence. subst out'.
  assert (Hck : check be m th out = Ok tt).
  { rewrite check_char in E3 |- * by exact E2. exact E3. }
  split; [exact E2|]. split; [exact Hck|]. intros B HB HA. destruct (E5 B HB HA) as (tr' & Hi & Hm & Hs).
  split; [exists tr'; auto|]. intros strict.
  apply (accepted env A t Ht be strict m th f B out HB Hl E2 v tr' Hck).
  unfold image_at in *.
  eapply dec_frame; [|exact Hi|intros ? ? ? ? ?; reflexivity].
  unfold wider, plain. cbn. repeat split; auto; try lia. exact clean_accepted.
Qed.
Lemma trip_ok out : serialize env be_src rel m th src f t a = Ok out -> Z.of_nat (length out) < 2 ^ 62 ->
  bytes_ok out /\ check be m th out = Ok tt /\
  forall B, 0 < B < 2 ^ 62 -> (A | B) ->
    (exists tr', image_at env be B out clean_table f t (B + Z.of_nat (data_start m)) v tr' /\ mirrors tr tr') /\
    forall strict, deserialize env be strict m th f t B out = Ok (B + Z.of_nat (data_start m)).
Proof.
  intros Ho Hl. destruct (trip_apart out Ho Hl) as (H1 & H2 & H3). split; [exact H1|]. split; [exact H2|].
  intros B HB HA. destruct (H3 B HB HA) as ((tr' & K1 & K2 & _) & K3). split; [exists tr'; auto|exact K3].
Qed.
End Trip.
