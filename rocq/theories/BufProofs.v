(* Proofs about the model of buffer.h. *)
From Verif Require Import Base BufModel BufSpec.
Local Open Scope N_scope.

Lemma nth_upd {A} i (x : A) l k : (i < length l)%nat -> nth_error (upd i x l) k = if (k =? i)%nat then Some x else nth_error l k.
Proof. intros L. destruct (Nat.eqb_spec k i) as [->|N]; [apply nth_error_upd_eq; exact L|apply nth_error_upd_neq; auto]. Qed.
Lemma blk_del h a c : blk (filter (fun b => negb (fst b =? a)) h) c = if c =? a then None else blk h c.
Proof.
  unfold blk. induction h as [|[x b] h IH]; cbn [filter find fst snd]; [destruct (c =? a); reflexivity|]. destruct (N.eqb_spec x a) as [->|N]; cbn [negb].
  - rewrite IH. destruct (N.eqb_spec c a) as [Q|Q]; [reflexivity|]. destruct (N.eqb_spec a c); [congruence|reflexivity].
  - cbn [find fst snd]. destruct (N.eqb_spec x c) as [Q|Q]; [destruct (N.eqb_spec c a); [congruence|reflexivity]|]. exact IH.
Qed.
Lemma blk_put h a b c : blk (put h a b) c = if c =? a then Some b else blk h c.
Proof.
  unfold put. pose proof (blk_del h a c) as D. unfold blk in D |- *. cbn [find fst]. destruct (N.eqb_spec a c) as [->|Q]; [rewrite N.eqb_refl; reflexivity|]. rewrite D. destruct (N.eqb_spec c a); [congruence|reflexivity].
Qed.
Lemma alive_nth vs v x : alive vs v = Some x -> nth_error vs v = Some (Some x).
Proof. unfold alive. destruct (nth_error vs v) as [[y|]|]; congruence. Qed.
Lemma unborn_nth vs v : unborn vs v = true -> nth_error vs v = Some None.
Proof. unfold unborn. destruct (nth_error vs v) as [[y|]|]; congruence. Qed.
Lemma nth_lt {A} (l : list A) v x : nth_error l v = Some x -> (v < length l)%nat.
Proof. intros E. apply nth_error_Some. congruence. Qed.
Lemma var_ok s vs v a b : holds s vs -> nth_error vs v = Some (Some (a, b)) -> var s v = Ok (Hd a (length b)).
Proof. intros H E. unfold var. rewrite (h_var _ _ H _ _ E). reflexivity. Qed.
Lemma dead_ok s vs v : holds s vs -> nth_error vs v = Some None -> dead s v = true.
Proof. intros H E. unfold dead. rewrite (h_var _ _ H _ _ E). reflexivity. Qed.

(* the memory of the state after one variable has changed *)
Definition hx (x : option aval) : option hd := match x with Some (a, b) => Some (Hd a (length b)) | None => None end.
Lemma change s vs v x y h : holds s vs -> nth_error vs v = Some x ->
  (forall a b, y = Some (a, b) -> (if a =? 0 then b = [] else blk h a = Some b) /\ (a <> 0 -> forall w c, w <> v -> nth_error vs w <> Some (Some (a, c)))) ->
  (forall w a b, w <> v -> nth_error vs w = Some (Some (a, b)) -> a <> 0 -> blk h a = blk (blocks s) a) ->
  (forall a, blk h a <> None -> (exists b, y = Some (a, b) /\ a <> 0) \/ (blk (blocks s) a <> None /\ (forall b, x <> Some (a, b)))) ->
  holds (with_ s h v (hx y)) (upd v y vs).
Proof.
  intros H E Y O N. pose proof (nth_lt _ _ _ E) as L. assert (L' : (v < length (vars s))%nat) by (rewrite (h_len _ _ H); exact L). split; cbn [with_ blocks vars].
  - rewrite !upd_length. apply (h_len _ _ H).
  - intros w z Hz. rewrite nth_upd in Hz by assumption. rewrite nth_upd by assumption. destruct (Nat.eqb_spec w v) as [->|Nw]; [injection Hz as <-; reflexivity|exact (h_var _ _ H _ _ Hz)].
  - intros w a b Hz. rewrite nth_upd in Hz by assumption. destruct (Nat.eqb_spec w v) as [->|Nw]; [injection Hz as Hz; apply (Y _ _ Hz)|]. pose proof (h_blk _ _ H _ _ _ Hz) as B. destruct (N.eqb_spec a 0) as [->|Na]; [exact B|].
    rewrite (O _ _ _ Nw Hz Na). exact B.
  - intros w1 w2 a b c H1 H2 Na. rewrite nth_upd in H1 by assumption. rewrite nth_upd in H2 by assumption. destruct (Nat.eqb_spec w1 v) as [->|N1], (Nat.eqb_spec w2 v) as [->|N2]; [reflexivity| | |exact (h_one _ _ H _ _ _ _ _ H1 H2 Na)].
    + injection H1 as H1. destruct (proj2 (Y _ _ H1) Na _ _ N2 H2).
    + injection H2 as H2. destruct (proj2 (Y _ _ H2) Na _ _ N1 H1).
  - intros a Ha. destruct (N a Ha) as [(b & Hy & Na)|[Hb Hx]].
    + split; [exact Na|]. exists v, b. rewrite nth_upd by assumption. rewrite Nat.eqb_refl. congruence.
    + destruct (h_own _ _ H _ Hb) as (Na & w & b & Hw). split; [exact Na|]. exists w, b. rewrite nth_upd by assumption. destruct (Nat.eqb_spec w v) as [->|]; [|exact Hw]. rewrite E in Hw. injection Hw as Hw. destruct (Hx b Hw).
Qed.
(* taking away what a variable owns *)
Lemma freed s vs v a b : holds s vs -> nth_error vs v = Some (Some (a, b)) ->
  exists h, free (blocks s) (Hd a (length b)) = Ok (h, null) /\ (forall c, blk h c = if c =? a then None else blk (blocks s) c).
Proof.
  intros H E. unfold free. cbn [buf]. pose proof (h_blk _ _ H _ _ _ E) as B. destruct (N.eqb_spec a 0) as [->|Na].
  - subst b. exists (blocks s). split; [reflexivity|]. intros c. destruct (N.eqb_spec c 0) as [->|]; [|reflexivity]. destruct (blk (blocks s) 0) as [b|] eqn:E0; [|reflexivity]. destruct (h_own _ _ H 0) as [Z _]; congruence.
  - unfold free_. rewrite B. cbn [bind]. eexists. split; [reflexivity|]. intros c. apply blk_del.
Qed.
Lemma give_up s vs v a b h y : holds s vs -> nth_error vs v = Some (Some (a, b)) -> (forall c, blk h c = if c =? a then None else blk (blocks s) c) -> y = Some nothing \/ y = None ->
  holds (with_ s h v (hx y)) (upd v y vs).
Proof.
  intros H E B Y. eapply change; [exact H|exact E| | |].
  - intros a' b' ->. destruct Y as [Y|Y]; [|discriminate]. injection Y as -> ->. split; [reflexivity|congruence].
  - intros w a' b' Nw Hw Na. rewrite B. destruct (N.eqb_spec a' a) as [->|]; [|reflexivity]. destruct Nw. exact (h_one _ _ H _ _ _ _ _ Hw E Na).
  - intros c Hc. right. rewrite B in Hc. destruct (N.eqb_spec c a) as [Q|Nc]; [contradiction|]. split; [exact Hc|]. intros b' E'. congruence.
Qed.
(* two variables change places: w gives what it has to v, which owns nothing *)
Lemma hand_over s vs v w x a b : holds s vs -> v <> w -> nth_error vs v = Some x -> x = None \/ x = Some nothing -> nth_error vs w = Some (Some (a, b)) ->
  holds (with_ (with_ s (blocks s) v (Some (Hd a (length b)))) (blocks s) w (Some null)) (upd w (Some nothing) (upd v (Some (a, b)) vs)).
Proof.
  intros H Nvw Ev X Ew. pose proof (nth_lt _ _ _ Ev) as Lv. pose proof (nth_lt _ _ _ Ew) as Lw. pose proof (h_len _ _ H) as Le.
  assert (G : forall k z, nth_error (upd w (Some nothing) (upd v (Some (a, b)) vs)) k = Some (Some z) -> (k = w /\ z = nothing) \/ (k = v /\ z = (a, b)) \/ (k <> w /\ k <> v /\ nth_error vs k = Some (Some z))).
  { intros k z. rewrite nth_upd by (rewrite upd_length; lia). destruct (Nat.eqb_spec k w); [intros [= <-]; auto|]. rewrite nth_upd by lia. destruct (Nat.eqb_spec k v); [intros [= <-]; auto|auto]. }
  split; cbn [with_ blocks vars].
  - rewrite !upd_length. exact Le.
  - intros k z Hz. rewrite nth_upd in Hz by (rewrite upd_length; lia). rewrite nth_upd by (rewrite upd_length; lia). destruct (Nat.eqb_spec k w) as [->|Nk]; [injection Hz as <-; reflexivity|]. rewrite nth_upd in Hz by lia. rewrite nth_upd by lia.
    destruct (Nat.eqb_spec k v) as [->|Nk']; [injection Hz as <-; reflexivity|exact (h_var _ _ H _ _ Hz)].
  - intros k a' b' Hz. destruct (G _ _ Hz) as [[_ E]|[[_ E]|(_ & _ & E)]]; [injection E as -> ->; reflexivity|injection E as -> ->; exact (h_blk _ _ H _ _ _ Ew)|exact (h_blk _ _ H _ _ _ E)].
  - intros k m a' b' c' H1 H2 Na. destruct (G _ _ H1) as [[-> E]|[[-> E]|(N1 & N2 & E)]]; [injection E as -> ->; congruence| |].
    + destruct (G _ _ H2) as [[-> F]|[[-> F]|(N3 & N4 & F)]]; [injection F as -> ->; congruence|reflexivity|]. injection E as -> ->. destruct N3. exact (h_one _ _ H _ _ _ _ _ F Ew Na).
    + destruct (G _ _ H2) as [[-> F]|[[-> F]|(N3 & N4 & F)]]; [injection F as -> ->; congruence| |exact (h_one _ _ H _ _ _ _ _ E F Na)]. injection F as -> ->. destruct N1. exact (h_one _ _ H _ _ _ _ _ E Ew Na).
  - intros c Hc. destruct (h_own _ _ H c Hc) as (Na & k & b' & Ek). split; [exact Na|]. destruct (Nat.eq_dec k w) as [->|Nk].
    + exists v, b'. rewrite nth_upd by (rewrite upd_length; lia). destruct (Nat.eqb_spec v w); [contradiction|]. rewrite nth_upd by lia. rewrite Nat.eqb_refl. congruence.
    + exists k, b'. rewrite nth_upd by (rewrite upd_length; lia). destruct (Nat.eqb_spec k w); [contradiction|]. rewrite nth_upd by lia. destruct (Nat.eqb_spec k v) as [->|]; [|exact Ek]. rewrite Ev in Ek. destruct X as [-> | ->]; [discriminate|].
      injection Ek as <- _. contradiction.
Qed.
Lemma construct_ok s vs v a b h vs' r : holds s vs -> construct vs v a b = Some (vs', r) -> (forall c, blk h c = if c =? a then Some b else blk (blocks s) c) ->
  holds (fst (made s v (if a =? 0 then None else Some (h, Hd a (length b))))) vs' /\ snd (made s v (if a =? 0 then None else Some (h, Hd a (length b)))) = r.
Proof.
  intros H C B. unfold construct in C. destruct (unborn vs v) eqn:U; [|discriminate]. apply unborn_nth in U. destruct (N.eqb_spec a 0) as [->|Na]; [injection C as <- <-; auto|].
  destruct (fresh vs a) eqn:F; [|discriminate]. injection C as <- <-. cbn [made fst snd]. split; [|reflexivity].
  assert (Fr : forall w c, nth_error vs w <> Some (Some (a, c))).
  { intros w c E. unfold fresh in F. rewrite forallb_forall in F. apply nth_error_In in E. specialize (F _ E). cbn in F. rewrite N.eqb_refl in F. discriminate. }
  apply (change s vs v None (Some (a, b)) h H U).
  - intros a' b' E. injection E as <- <-. destruct (N.eqb_spec a 0); [contradiction|]. split; [rewrite B, N.eqb_refl; reflexivity|intros _ w c _; apply Fr].
  - intros w a' b' _ E _. rewrite B. destruct (N.eqb_spec a' a) as [->|]; [destruct (Fr _ _ E)|reflexivity].
  - intros c Hc. rewrite B in Hc. destruct (N.eqb_spec c a) as [Q|]; [left; exists b; split; congruence|]. right. split; [exact Hc|discriminate].
Qed.
Lemma construct_dead s vs v a b r : holds s vs -> construct vs v a b = Some r -> dead s v = true.
Proof. intros H C. unfold construct in C. destruct (unborn vs v) eqn:U; [|discriminate]. eapply dead_ok; [exact H|apply unborn_nth; exact U]. Qed.
Lemma from_ok s l n a : (n <= length l)%nat -> exists h, from (blocks s) l n a = Ok (if a =? 0 then None else Some (h, Hd a n)) /\ (forall c, blk h c = if c =? a then Some (map Some (firstn n l)) else blk (blocks s) c).
Proof.
  intros L. unfold from, make. exists (put (put (blocks s) a (repeat None n)) a (map Some (firstn n l))). split.
  - destruct (N.eqb_spec a 0) as [->|Na]; [reflexivity|]. cbn [buf size]. unfold memcpy. rewrite blk_put, N.eqb_refl, repeat_length. destruct (Nat.leb_spec n (length l)); [|lia]. rewrite Nat.leb_refl. cbn [andb bind].
    rewrite skipn_all2 by (rewrite repeat_length; lia). rewrite app_nil_r. reflexivity.
  - intros c. rewrite !blk_put. destruct (c =? a); reflexivity.
Qed.
Lemma cstr_ok : forall s b, cstr s = Some b -> strlen s = Ok (length b) /\ firstn (length b) s = b /\ (length b <= length s)%nat.
Proof.
  induction s as [|c s IH]; intros b E; cbn [cstr strlen] in *; [discriminate|]. destruct (c =? 0); [injection E as <-; cbn; auto with arith|]. destruct (cstr s) as [b'|]; [|discriminate]. injection E as <-.
  destruct (IH b' eq_refl) as (-> & E2 & L). cbn. rewrite E2. split; [reflexivity|]. split; [reflexivity|lia].
Qed.
Lemma all_ok h x b : blk h (buf x) = Some b -> forall n i l, known (firstn n (skipn i b)) = Some l -> (i + n <= length b)%nat -> all h x i n = Ok l.
Proof.
  intros B. induction n as [|n IH]; intros i l K L; cbn [all]; [cbn in K; congruence|]. destruct (nth_error b i) as [c|] eqn:E; [|apply nth_error_None in E; lia].
  assert (Sk : skipn i b = c :: skipn (i + 1) b). { clear - E. revert i E. induction b as [|y b IH]; intros [|i] E; try discriminate E; cbn in *; [congruence|]. apply IH. exact E. }
  rewrite Sk in K. cbn [firstn known] in K. destruct c as [c|]; [|discriminate]. destruct (known (firstn n (skipn (i + 1) b))) as [l'|] eqn:E'; [|discriminate]. injection K as <-.
  unfold get. rewrite B, E. cbn [bind]. rewrite (IH _ _ E') by lia. reflexivity.
Qed.

Lemma step_ok s vs o vs' r : holds s vs -> astep vs o = Some (vs', r) -> exists s', step s o = Ok (s', r) /\ holds s' vs'.
Proof.
  intros H E. destruct o as [v n a|v str a|v str n a|v w|v w|v|v|v|v|v i|v i c|v|v|v]; cbn [astep step] in *.
  - rewrite (construct_dead _ _ _ _ _ _ H E). pose proof (construct_ok s vs v a _ (put (blocks s) a (repeat None n)) vs' r H E (blk_put _ _ _)) as [K1 K2]. rewrite repeat_length in K1, K2. unfold make.
    eexists. split; [|exact K1]. rewrite <- K2. destruct (made _ _ _); reflexivity.
  - destruct (cstr str) as [b|] eqn:Ec; [|discriminate]. destruct (cstr_ok _ _ Ec) as (-> & Eb & Lb). cbn [bind]. rewrite (construct_dead _ _ _ _ _ _ H E). destruct (from_ok s str (length b) a Lb) as (h & -> & B). cbn [bind].
    rewrite Eb in B. pose proof (construct_ok s vs v a _ h vs' r H E B) as [K1 K2]. rewrite map_length in K1, K2. eexists. split; [|exact K1]. rewrite <- K2. destruct (made _ _ _); reflexivity.
  - destruct (Nat.leb_spec n (length str)) as [L|]; [|discriminate]. rewrite (construct_dead _ _ _ _ _ _ H E). destruct (from_ok s str n a L) as (h & -> & B). cbn [bind].
    pose proof (construct_ok s vs v a _ h vs' r H E B) as [K1 K2]. rewrite map_length, firstn_length, Nat.min_l in K1, K2 by exact L. eexists. split; [|exact K1]. rewrite <- K2. destruct (made _ _ _); reflexivity.
  - destruct (alive vs w) as [[a b]|] eqn:Ew; [|discriminate]. apply alive_nth in Ew. destruct (unborn vs v) eqn:U; [|discriminate]. apply unborn_nth in U. injection E as <- <-. rewrite (dead_ok _ _ _ H U), (var_ok _ _ _ _ _ H Ew). cbn [bind].
    eexists. split; [reflexivity|]. assert (v <> w) by congruence. exact (hand_over s vs v w None a b H ltac:(assumption) U (or_introl eq_refl) Ew).
  - destruct (alive vs v) as [[a0 b0]|] eqn:Ev; [|discriminate]. destruct (alive vs w) as [[a b]|] eqn:Ew; [|discriminate]. apply alive_nth in Ev, Ew. injection E as <- <-. rewrite (var_ok _ _ _ _ _ H Ev), (var_ok _ _ _ _ _ H Ew). cbn [bind].
    destruct (Nat.eqb_spec v w) as [->|N]; [eauto|]. destruct (freed _ _ _ _ _ H Ev) as (h & F & B). cbn [buf].
    assert (X : exists x0, (if a0 =? 0 then Ok (blocks s, Hd a0 (length b0)) else free (blocks s) (Hd a0 (length b0))) = Ok (h, x0)).
    { unfold free in F |- *. cbn [buf] in F |- *. destruct (a0 =? 0); [injection F as F _; rewrite F; eauto|rewrite F; eauto]. }
    destruct X as (x0 & ->). cbn [bind]. eexists. split; [reflexivity|].
    pose proof (give_up s vs v a0 b0 h (Some nothing) H Ev B (or_introl eq_refl)) as H1. pose proof (nth_lt _ _ _ Ev) as Lv.
    pose proof (hand_over _ _ v w (Some nothing) a b H1 N) as K. rewrite nth_upd, Nat.eqb_refl in K by exact Lv. specialize (K eq_refl (or_intror eq_refl)). rewrite nth_upd in K by exact Lv.
    destruct (Nat.eqb_spec w v) as [|Nw]; [congruence|]. specialize (K Ew). unfold with_ in K |- *. cbn [blocks vars hx] in K |- *.
    assert (UU : forall (A : Type) (x y : A) l, upd v x (upd v y l) = upd v x l).
    { clear. intros A x y l. revert v. induction l as [|z l IH]; intros [|v]; cbn; try reflexivity. f_equal. apply IH. }
    rewrite !UU in K. exact K.
  - destruct (unborn vs v) eqn:U; [|discriminate]. apply unborn_nth in U. injection E as <- <-. rewrite (dead_ok _ _ _ H U). eexists. split; [reflexivity|]. apply (change s vs v None (Some nothing) (blocks s) H U).
    + intros a b E. injection E as <- <-. split; [reflexivity|congruence].
    + auto.
    + intros a Ha. right. split; [exact Ha|discriminate].
  - destruct (alive vs v) as [[a b]|] eqn:Ev; [|discriminate]. apply alive_nth in Ev. injection E as <- <-. rewrite (var_ok _ _ _ _ _ H Ev). cbn [bind]. destruct (freed _ _ _ _ _ H Ev) as (h & -> & B). cbn [bind]. eexists. split; [reflexivity|].
    exact (give_up s vs v a b h (Some nothing) H Ev B (or_introl eq_refl)).
  - destruct (alive vs v) as [[a b]|] eqn:Ev; [|discriminate]. apply alive_nth in Ev. destruct (N.eqb_spec a 0) as [->|]; [|discriminate]. injection E as <- <-. rewrite (var_ok _ _ _ _ _ H Ev). cbn [bind]. eexists. split; [reflexivity|].
    pose proof (h_blk _ _ H _ _ _ Ev) as B. cbn in B. subst b. assert (UU : forall (A : Type) (x : A) l, nth_error l v = Some x -> upd v x l = l).
    { clear. intros A x l. revert v. induction l as [|z l IH]; intros [|v] E; cbn in *; try reflexivity; [congruence|]. f_equal. apply IH. exact E. }
    unfold with_, null. rewrite UU by exact (h_var _ _ H _ _ Ev). destruct s; exact H.
  - destruct (alive vs v) as [[a b]|] eqn:Ev; [|discriminate]. apply alive_nth in Ev. injection E as <- <-. rewrite (var_ok _ _ _ _ _ H Ev). cbn [bind]. destruct (freed _ _ _ _ _ H Ev) as (h & -> & B). cbn [bind]. eexists. split; [reflexivity|].
    exact (give_up s vs v a b h None H Ev B (or_intror eq_refl)).
  - destruct (alive vs v) as [[a b]|] eqn:Ev; [|discriminate]. apply alive_nth in Ev. destruct (nth_error b i) as [[c|]|] eqn:Ei; try discriminate. injection E as <- <-. rewrite (var_ok _ _ _ _ _ H Ev). cbn [bind]. unfold get. cbn [buf].
    pose proof (h_blk _ _ H _ _ _ Ev) as B. destruct (N.eqb_spec a 0) as [->|Na]; [subst b; destruct i; discriminate|]. rewrite B, Ei. cbn [bind]. eauto.
  - destruct (alive vs v) as [[a b]|] eqn:Ev; [|discriminate]. apply alive_nth in Ev. destruct (Nat.ltb_spec i (length b)) as [L|]; [|discriminate]. injection E as <- <-. rewrite (var_ok _ _ _ _ _ H Ev). cbn [bind]. unfold set_. cbn [buf].
    pose proof (h_blk _ _ H _ _ _ Ev) as B. destruct (N.eqb_spec a 0) as [->|Na]; [subst b; cbn in L; lia|]. rewrite B. destruct (Nat.ltb_spec i (length b)); [|lia]. cbn [bind]. eexists. split; [reflexivity|].
    pose proof (change s vs v (Some (a, b)) (Some (a, upd i (Some c) b)) (put (blocks s) a (upd i (Some c) b)) H Ev) as K. cbn [hx] in K. rewrite upd_length in K. apply K.
    + intros a' b' E. injection E as <- <-. destruct (N.eqb_spec a 0); [contradiction|]. split; [rewrite blk_put, N.eqb_refl; reflexivity|]. intros _ w c' Nw Ew. apply Nw. exact (h_one _ _ H _ _ _ _ _ Ew Ev Na).
    + intros w a' b' Nw Ew Na'. rewrite blk_put. destruct (N.eqb_spec a' a) as [->|]; [|reflexivity]. destruct Nw. exact (h_one _ _ H _ _ _ _ _ Ew Ev Na).
    + intros c' Hc. rewrite blk_put in Hc. destruct (N.eqb_spec c' a) as [Q|Nc]; [left; exists (upd i (Some c) b); split; congruence|]. right. split; [exact Hc|]. intros b' E. congruence.
  - destruct (alive vs v) as [[a b]|] eqn:Ev; [|discriminate]. apply alive_nth in Ev. injection E as <- <-. rewrite (var_ok _ _ _ _ _ H Ev). cbn [bind]. eauto.
  - destruct (alive vs v) as [[a b]|] eqn:Ev; [|discriminate]. apply alive_nth in Ev. injection E as <- <-. rewrite (var_ok _ _ _ _ _ H Ev). cbn [bind]. eauto.
  - destruct (alive vs v) as [[a b]|] eqn:Ev; [|discriminate]. apply alive_nth in Ev. destruct (known b) as [l|] eqn:K; [|discriminate]. injection E as <- <-. rewrite (var_ok _ _ _ _ _ H Ev). cbn [bind size].
    pose proof (h_blk _ _ H _ _ _ Ev) as B. destruct (N.eqb_spec a 0) as [->|Na]; [subst b; injection K as <-; cbn [length all bind]; eauto|].
    rewrite (all_ok (blocks s) (Hd a (length b)) b B (length b) 0 l); [cbn [bind]; eauto|cbn [skipn]; rewrite firstn_all; exact K|lia].
Qed.
Lemma run_ok : forall os s vs vs' l, holds s vs -> arun vs os = Some (vs', l) -> exists s', run s os = Ok (s', l) /\ holds s' vs'.
Proof.
  induction os as [|o os IH]; intros s vs vs' l H E; cbn [arun run] in *; [injection E as <- <-; eauto|]. destruct (astep vs o) as [[vs1 a]|] eqn:E1; [|discriminate]. destruct (arun vs1 os) as [[vs2 l2]|] eqn:E2; [|discriminate]. injection E as <- <-.
  destruct (step_ok _ _ _ _ _ H E1) as (s1 & -> & H1). cbn [bind]. destruct (IH _ _ _ _ H1 E2) as (s2 & -> & H2). cbn [bind]. eauto.
Qed.
Lemma start_holds n : holds (start n) (repeat None n).
Proof.
  assert (R : forall v (x : option aval), nth_error (repeat None n) v = Some x -> x = None) by (intros v x E; apply nth_error_In in E; apply repeat_spec in E; exact E).
  split; cbn [start blocks vars].
  - rewrite !repeat_length. reflexivity.
  - intros v x E. rewrite (R _ _ E). assert (L : (v < n)%nat) by (apply nth_lt in E; rewrite repeat_length in E; exact E). apply nth_error_repeat. exact L.
  - intros v a b E. apply R in E. discriminate.
  - intros v w a b c E. apply R in E. discriminate.
  - intros a Ha. contradiction Ha. reflexivity.
Qed.
Lemma finish_ok : forall n v s vs, holds s vs -> (forall k, (k < v)%nat -> nth_error vs k = Some None) -> (v + n = length vs)%nat ->
  exists s', finish s v n = Ok s' /\ forall a, blk (blocks s') a = None.
Proof.
  induction n as [|n IH]; intros v s vs H D L; cbn [finish].
  - exists s. split; [reflexivity|]. intros a. destruct (blk (blocks s) a) as [b|] eqn:E; [|reflexivity]. destruct (h_own _ _ H a) as (_ & w & c & Ew); [congruence|]. pose proof (nth_lt _ _ _ Ew). rewrite D in Ew by lia. discriminate.
  - destruct (nth_error vs v) as [[[a b]|]|] eqn:Ev; [| |apply nth_error_None in Ev; lia].
    + unfold dead. rewrite (h_var _ _ H _ _ Ev). assert (A : astep vs (Drop v) = Some (upd v None vs, Quiet)) by (cbn [astep]; unfold alive; rewrite Ev; reflexivity).
      destruct (step_ok _ _ _ _ _ H A) as (s1 & -> & H1). cbn [bind]. apply (IH (v + 1)%nat s1 _ H1); [|rewrite upd_length; lia]. intros k Hk. rewrite nth_upd by lia. destruct (Nat.eqb_spec k v); [reflexivity|apply D; lia].
    + rewrite (dead_ok _ _ _ H Ev). cbn [bind]. apply (IH (v + 1)%nat s vs H); [|lia]. intros k Hk. destruct (Nat.eq_dec k v) as [->|]; [exact Ev|apply D; lia].
Qed.
