From Verif Require Import Base HoldModel HoldSpec.

Definition shape (a : handle) : wrapped :=
  match a with
  | Nothing => empty
  | Has Heap k => Wr None (Some k) true
  | Has c k => Wr (Some (c, k)) (Some k) false
  | Spent Mmap k => Wr (Some (Mmap, k)) (Some k) false
  | Spent _ k => Wr None (Some k) false
  end.
Definition id (a : handle) : option nat := match a with Nothing => None | Has _ k | Spent _ k => Some k end.
Definition cell_of (a : handle) : cell :=
  match a with Nothing => Cell false false | Has _ _ => Cell true true | Spent Mmap _ => Cell true false | Spent _ _ => Cell false false end.
Definition fine (a : handle) : Prop := match a with Spent Heap _ => False | _ => True end.

Record Inv (w : world) (n : nat) (hs : list handle) : Prop := {
  i_n : length (cells w) = n;
  i_h : handles w = map shape hs;
  i_f : Forall fine hs;
  i_c : forall i a k, nth_error hs i = Some a -> id a = Some k -> nth_error (cells w) k = Some (cell_of a);
  i_u : forall i j a b k, nth_error hs i = Some a -> nth_error hs j = Some b -> id a = Some k -> id b = Some k -> i = j;
  i_m : forall k c, nth_error (cells w) k = Some c -> (forall i a, nth_error hs i = Some a -> id a <> Some k) -> mem c = false
}.

Lemma map_upd : forall {A B} (f : A -> B) i x l, map f (upd i x l) = upd i (f x) (map f l).
Proof. intros A B f i x l. revert i. induction l; intros [|i]; cbn; congruence. Qed.

Lemma nth_some : forall {A} (l : list A) i x, nth_error l i = Some x -> nth_ l i = Ok x.
Proof. intros. unfold nth_. rewrite H. reflexivity. Qed.

Lemma lt_some : forall {A} (l : list A) i, i < length l -> exists x, nth_error l i = Some x.
Proof. intros A l i H. apply nth_error_Some in H. destruct (nth_error l i); [eauto|congruence]. Qed.

(* dropping what handle i has *)
Definition gone (a : handle) (cs : list cell) : list cell :=
  match a with
  | Nothing => cs
  | Has Heap k => upd k (Cell false false) cs
  | Has _ k => upd k (Cell false true) cs
  | Spent Mmap k => upd k (Cell false false) cs
  | Spent _ _ => cs
  end.

Lemma upd_upd : forall {A} (l : list A) i x y, upd i x (upd i y l) = upd i x l.
Proof. intros A l. induction l; intros [|i] x y; cbn; auto. rewrite IHl. reflexivity. Qed.

Lemma drop1 : forall a cs, (forall k, id a = Some k -> nth_error cs k = Some (cell_of a)) -> fine a ->
  (let* cs := release cs (w_mem (shape a)) in el_reset cs (w_el (shape a)) (w_self (shape a))) = Ok (gone a cs).
Proof.
  intros a cs H F. destruct a as [|[] k|[] k]; cbn in *; auto; specialize (H k eq_refl);
    try (rewrite (nth_some _ _ _ H); reflexivity); try contradiction.
  unfold destroy. rewrite (nth_some _ _ _ H). cbn. unfold nth_.
  rewrite nth_error_upd_eq by (apply nth_error_Some; congruence). cbn. rewrite upd_upd. reflexivity.
Qed.
Lemma drop2 : forall a cs, (forall k, id a = Some k -> nth_error cs k = Some (cell_of a)) -> fine a ->
  (let* cs := el_reset cs (w_el (shape a)) (w_self (shape a)) in release cs (w_mem (shape a))) = Ok (gone a cs).
Proof.
  intros a cs H F. destruct a as [|[] k|[] k]; cbn in *; auto; specialize (H k eq_refl);
    try (rewrite (nth_some _ _ _ H); reflexivity); try contradiction.
  unfold destroy. rewrite (nth_some _ _ _ H). cbn. unfold nth_.
  rewrite nth_error_upd_eq by (apply nth_error_Some; congruence). cbn. rewrite upd_upd. reflexivity.
Qed.

Lemma gone_len : forall a cs, length (gone a cs) = length cs.
Proof. intros [|[] k|[] k] cs; cbn; auto using upd_length. Qed.
Lemma gone_other : forall a cs k, id a <> Some k -> nth_error (gone a cs) k = nth_error cs k.
Proof. intros [|[] j|[] j] cs k H; cbn in *; auto; apply nth_error_upd_neq; congruence. Qed.
Lemma gone_same : forall a cs k c, (forall k, id a = Some k -> nth_error cs k = Some (cell_of a)) -> id a = Some k ->
  nth_error (gone a cs) k = Some c -> mem c = false.
Proof.
  intros a cs k c H E N. specialize (H k E). assert (k < length cs) by (apply nth_error_Some; congruence).
  destruct a as [|[] j|[] j]; cbn in *; try discriminate; injection E as ->;
    try (rewrite nth_error_upd_eq in N by auto; injection N as <-; reflexivity); rewrite H in N; injection N as <-; reflexivity.
Qed.

(* the state in which handle i has been dropped and holds nothing *)
Lemma drop_inv : forall w n hs i a, Inv w n hs -> nth_error hs i = Some a ->
  Inv (World (gone a (cells w)) (upd i empty (handles w))) n (upd i Nothing hs).
Proof.
  intros w n hs i a [N H F C U M] E. assert (L : i < length hs) by (apply nth_error_Some; congruence).
  assert (X : forall k, id a = Some k -> nth_error (cells w) k = Some (cell_of a)) by (intros k; apply (C i); auto).
  assert (O : forall j b, nth_error (upd i Nothing hs) j = Some b -> id b <> None -> j <> i /\ nth_error hs j = Some b).
  { intros j b Hj Hb. destruct (Nat.eq_dec j i) as [->|Q].
    - rewrite nth_error_upd_eq in Hj by auto. injection Hj as <-. cbn in Hb. congruence.
    - rewrite nth_error_upd_neq in Hj by auto. auto. }
  split; cbn [cells handles].
  - rewrite gone_len. auto.
  - rewrite H, map_upd. reflexivity.
  - apply upd_Forall; auto. exact I.
  - intros j b k Hj Hb. destruct (O j b Hj) as (Q & Hj'); [congruence|].
    rewrite gone_other. { eapply C; eauto. } intros Ha. apply Q. eapply U; eauto.
  - intros j1 j2 b1 b2 k H1 H2 I1 I2. destruct (O j1 b1 H1) as (_ & ?); [congruence|].
    destruct (O j2 b2 H2) as (_ & ?); [congruence|]. eapply U; eauto.
  - intros k c Hc Hn. destruct (id a) as [ka|] eqn:Ia.
    + destruct (Nat.eq_dec ka k) as [->|Q].
      * apply (gone_same a (cells w) k c); auto. intros k0 Hk. apply X. congruence.
      * rewrite gone_other in Hc by congruence. apply (M k c Hc). intros j b Hj Hb.
        destruct (Nat.eq_dec j i) as [->|Qj]. { assert (b = a) by congruence. subst b. congruence. }
        apply (Hn j b); auto. rewrite nth_error_upd_neq; auto.
    + rewrite gone_other in Hc by congruence. apply (M k c Hc). intros j b Hj Hb.
      destruct (Nat.eq_dec j i) as [->|Qj]. { assert (b = a) by congruence. subst b. congruence. }
      apply (Hn j b); auto. rewrite nth_error_upd_neq; auto.
Qed.

(* moving what handle j has to an empty place *)
Lemma move_inv : forall w n hs i j b, Inv w n hs -> nth_error hs i = Some Nothing -> nth_error hs j = Some b -> i <> j ->
  Inv (World (cells w) (upd j empty (upd i (shape b) (handles w)))) n (upd j Nothing (upd i b hs)).
Proof.
  intros w n hs i j b [N H F C U M] Ei Ej Q.
  assert (Li : i < length hs) by (apply nth_error_Some; congruence).
  assert (Lj : j < length hs) by (apply nth_error_Some; congruence).
  set (f := fun x => if x =? i then j else x).
  assert (O : forall x a, nth_error (upd j Nothing (upd i b hs)) x = Some a -> id a <> None ->
     x <> j /\ nth_error hs (f x) = Some a).
  { intros x a Hx Ha. destruct (Nat.eq_dec x j) as [->|Qj].
    { rewrite nth_error_upd_eq in Hx by (rewrite upd_length; auto). injection Hx as <-. cbn in Ha. congruence. }
    rewrite nth_error_upd_neq in Hx by auto. split; auto. unfold f. destruct (Nat.eqb_spec x i) as [->|Qi].
    - rewrite nth_error_upd_eq in Hx by auto. congruence.
    - rewrite nth_error_upd_neq in Hx by auto. auto. }
  split; cbn [cells handles]; auto.
  - rewrite H, !map_upd. reflexivity.
  - apply upd_Forall; [|exact I]. apply upd_Forall; auto. rewrite Forall_forall in F. apply F. eapply nth_error_In; eauto.
  - intros x a k Hx Ha. destruct (O x a Hx) as (_ & Hx'); [congruence|]. eapply C; eauto.
  - intros x y a a' k Hx Hy Ix Iy. destruct (O x a Hx) as (? & Hx'); [congruence|]. destruct (O y a' Hy) as (? & Hy'); [congruence|].
    pose proof (U _ _ _ _ _ Hx' Hy' Ix Iy) as E. unfold f in E.
    destruct (Nat.eqb_spec x i), (Nat.eqb_spec y i); congruence.
  - intros k c Hc Hn. apply (M k c Hc). intros x a Hx Ha.
    destruct (Nat.eq_dec x j) as [->|Qj].
    + assert (a = b) by congruence. subst a. apply (Hn i b); auto.
      rewrite nth_error_upd_neq by auto. apply nth_error_upd_eq; auto.
    + destruct (Nat.eq_dec x i) as [->|Qi]. { rewrite Ei in Hx. injection Hx as <-. discriminate. }
      apply (Hn x a); auto. rewrite !nth_error_upd_neq; auto.
Qed.

Lemma new_inv : forall w n hs, Inv w n hs -> Inv (World (cells w) (handles w ++ [empty])) n (hs ++ [Nothing]).
Proof.
  intros w n hs [N H F C U M].
  assert (O : forall x a, nth_error (hs ++ [Nothing]) x = Some a -> id a <> None -> nth_error hs x = Some a).
  { intros x a Hx Ha. destruct (Nat.lt_ge_cases x (length hs)); [rewrite nth_error_app1 in Hx; auto|].
    rewrite nth_error_app2 in Hx by auto. destruct (x - length hs) as [|[]]; cbn in Hx; try discriminate.
    injection Hx as <-. cbn in Ha. congruence. }
  split; cbn [cells handles]; auto.
  - rewrite map_app, H. reflexivity.
  - apply Forall_app. split; auto. repeat constructor.
  - intros x a k Hx Ha. apply (C x a k); auto. apply O; auto. congruence.
  - intros x y a b k Hx Hy Ia Ib. apply (U x y a b k); auto; apply O; auto; congruence.
  - intros k c Hc Hn. apply (M k c Hc). intros x a Hx. apply (Hn x a). rewrite nth_error_app1; auto.
    apply nth_error_Some. congruence.
Qed.

Lemma make_inv : forall w n hs c, Inv w n hs ->
  Inv (World (cells w ++ [Cell true true]) (handles w ++ [shape (Has c n)])) (S n) (hs ++ [Has c n]).
Proof.
  intros w n hs c [N H F C U M].
  assert (B : forall x a k, nth_error hs x = Some a -> id a = Some k -> k < n).
  { intros x a k Hx Ha. rewrite <- N. apply nth_error_Some. rewrite (C x a k Hx Ha). discriminate. }
  assert (O : forall x a, nth_error (hs ++ [Has c n]) x = Some a ->
     nth_error hs x = Some a \/ (x = length hs /\ a = Has c n)).
  { intros x a Hx. destruct (Nat.lt_ge_cases x (length hs)); [rewrite nth_error_app1 in Hx; auto|].
    rewrite nth_error_app2 in Hx by auto. destruct (x - length hs) as [|[]] eqn:E; cbn in Hx; try discriminate.
    injection Hx as <-. right. split; auto. lia. }
  split; cbn [cells handles].
  - rewrite app_length, N. cbn. lia.
  - rewrite map_app, H. reflexivity.
  - apply Forall_app. split; auto. repeat constructor.
  - intros x a k Hx Ha. destruct (O x a Hx) as [Hx'|(-> & ->)].
    + rewrite nth_error_app1 by (rewrite N; eauto). eauto.
    + cbn in Ha. injection Ha as <-. rewrite nth_error_app2 by lia. rewrite N, Nat.sub_diag. reflexivity.
  - intros x y a b k Hx Hy Ia Ib. destruct (O x a Hx) as [Hx'|(-> & ->)], (O y b Hy) as [Hy'|(-> & ->)]; auto.
    + eapply U; eauto.
    + cbn in Ib. injection Ib as <-. pose proof (B _ _ _ Hx' Ia). lia.
    + cbn in Ia. injection Ia as <-. pose proof (B _ _ _ Hy' Ib). lia.
  - intros k d Hd Hn. destruct (Nat.lt_ge_cases k (length (cells w))).
    + rewrite nth_error_app1 in Hd by auto. apply (M k d Hd). intros x a Hx. apply (Hn x a).
      rewrite nth_error_app1; auto. apply nth_error_Some. congruence.
    + exfalso. assert (k < length (cells w ++ [Cell true true])) by (apply nth_error_Some; congruence).
      rewrite app_length in *. cbn in *. apply (Hn (length hs) (Has c n)).
      * rewrite nth_error_app2, Nat.sub_diag; auto.
      * cbn. f_equal. lia.
Qed.

Lemma reset_inv : forall w n hs i c k, Inv w n hs -> nth_error hs i = Some (Has c k) -> c <> Heap ->
  Inv (World (upd k (cell_of (Spent c k)) (cells w)) (upd i (shape (Spent c k)) (handles w))) n (upd i (Spent c k) hs).
Proof.
  intros w n hs i c k [N H F C U M] E Q. assert (L : i < length hs) by (apply nth_error_Some; congruence).
  assert (Lk : k < length (cells w)) by (apply nth_error_Some; rewrite (C i _ k E eq_refl); discriminate).
  assert (O : forall j b, nth_error (upd i (Spent c k) hs) j = Some b ->
     (j = i /\ b = Spent c k) \/ (j <> i /\ nth_error hs j = Some b)).
  { intros j b Hj. destruct (Nat.eq_dec j i) as [->|Qj].
    - rewrite nth_error_upd_eq in Hj by auto. left. split; congruence.
    - rewrite nth_error_upd_neq in Hj by auto. auto. }
  split; cbn [cells handles].
  - rewrite upd_length. auto.
  - rewrite H, map_upd. reflexivity.
  - apply upd_Forall; auto. destruct c; cbn; auto.
  - intros j b k' Hj Hb. destruct (O j b Hj) as [(-> & ->)|(Qj & Hj')].
    + cbn in Hb. injection Hb as <-. rewrite nth_error_upd_eq; auto.
    + rewrite nth_error_upd_neq; [eauto|]. intros <-. apply Qj. eapply U; eauto.
  - intros x y a b k' Hx Hy Ia Ib. destruct (O x a Hx) as [(-> & ->)|(Qx & Hx')], (O y b Hy) as [(-> & ->)|(Qy & Hy')]; auto.
    + cbn in Ia. exfalso. apply Qy. symmetry. eapply U; eauto.
    + cbn in Ib. exfalso. apply Qx. eapply U; eauto.
    + eapply U; eauto.
  - intros k' d Hd Hn. destruct (Nat.eq_dec k' k) as [->|Qk].
    + exfalso. apply (Hn i (Spent c k)); auto. apply nth_error_upd_eq; auto.
    + rewrite nth_error_upd_neq in Hd by auto. apply (M k' d Hd). intros x a Hx Ha.
      destruct (Nat.eq_dec x i) as [->|Qx]. { rewrite E in Hx. injection Hx as <-. cbn in Ha. congruence. }
      apply (Hn x a); auto. rewrite nth_error_upd_neq; auto.
Qed.

Lemma nth_map : forall hs i a, nth_error hs i = Some a -> nth_error (map shape hs) i = Some (shape a).
Proof. intros. rewrite nth_error_map, H. reflexivity. Qed.

Lemma step_ok : forall w n hs o n' hs' x, Inv w n hs -> sstep n hs o = Some (n', hs', x) ->
  exists w', step w o = Ok (w', x) /\ Inv w' n' hs'.
Proof.
  intros w n hs o n' hs' x V E. pose proof V as [N H F C U M]. destruct o as [|c|j|i j|i|i|i|i]; cbn [sstep step] in *.
  - injection E as <- <- <-. eexists. split; [reflexivity|]. apply new_inv; auto.
  - injection E as <- <- <-. eexists. split; [reflexivity|]. rewrite N.
    replace (match c with Heap => _ | _ => _ end) with (shape (Has c n)) by (destruct c; reflexivity).
    apply make_inv; auto.
  - destruct (nth_error hs j) as [h|] eqn:Ej; [|discriminate]. injection E as <- <- <-.
    rewrite H, (nth_some _ _ _ (nth_map _ _ _ Ej)). cbn [bind]. eexists. split; [reflexivity|].
    assert (Lj : j < length hs) by (apply nth_error_Some; congruence).
    pose proof (move_inv _ n _ (length hs) j h (new_inv _ _ _ V)) as K. cbn [cells handles] in K.
    rewrite nth_error_app2, nth_error_app1, Nat.sub_diag in K by lia. specialize (K eq_refl Ej ltac:(lia)).
    assert (A1 : forall {A} (l : list A) x y, upd (length l) y (l ++ [x]) = l ++ [y]).
    { intros A l. induction l; cbn; intros; congruence. }
    assert (A2 : forall {A} (l : list A) k x y, k < length l -> upd k y (l ++ [x]) = upd k y l ++ [x]).
    { intros A l. induction l; intros [|k] u v L; cbn in *; auto; try lia. rewrite IHl by lia. reflexivity. }
    rewrite (A1 _ hs), (A2 _ hs) in K by auto. rewrite H in K.
    replace (length hs) with (length (map shape hs)) in K at 1 by apply map_length.
    rewrite (A1 _ (map shape hs)), (A2 _ (map shape hs)) in K by (rewrite map_length; auto).
    exact K.
  - destruct (nth_error hs i) as [a|] eqn:Ei; [|discriminate]. destruct (nth_error hs j) as [b|] eqn:Ej; [|discriminate].
    destruct (Nat.eqb_spec i j) as [|Q]; [discriminate|]. injection E as <- <- <-.
    rewrite H, (nth_some _ _ _ (nth_map _ _ _ Ei)), (nth_some _ _ _ (nth_map _ _ _ Ej)). cbn [bind].
    assert (X : forall k, id a = Some k -> nth_error (cells w) k = Some (cell_of a)) by (intros k; apply (C i); auto).
    assert (Fa : fine a) by (rewrite Forall_forall in F; apply F; eapply nth_error_In; eauto).
    pose proof (drop1 a (cells w) X Fa) as D.
    destruct (release (cells w) (w_mem (shape a))) as [cs| | |]; cbn [bind] in *; try discriminate. rewrite D. cbn [bind].
    eexists. split; [reflexivity|].
    pose proof (drop_inv w n hs i a V Ei) as K.
    assert (Li : i < length hs) by (apply nth_error_Some; congruence).
    pose proof (move_inv _ n _ i j b K) as K2. cbn [cells handles] in K2.
    rewrite nth_error_upd_eq, nth_error_upd_neq in K2 by auto. specialize (K2 eq_refl Ej Q).
    rewrite !upd_upd, H in K2. exact K2.
  - destruct (Nat.ltb_spec i (length hs)) as [L|]; [|discriminate]. injection E as <- <- <-.
    destruct (lt_some hs i L) as (a & Ei). rewrite H, (nth_some _ _ _ (nth_map _ _ _ Ei)). cbn [bind].
    assert (X : forall k, id a = Some k -> nth_error (cells w) k = Some (cell_of a)) by (intros k; apply (C i); auto).
    assert (Fa : fine a) by (rewrite Forall_forall in F; apply F; eapply nth_error_In; eauto).
    pose proof (drop2 a (cells w) X Fa) as D.
    destruct (el_reset (cells w) (w_el (shape a)) (w_self (shape a))) as [cs| | |]; cbn [bind] in *; try discriminate. rewrite D. cbn [bind].
    eexists. split; [reflexivity|]. rewrite <- H. apply drop_inv; auto.
  - destruct (nth_error hs i) as [a|] eqn:Ei; [|discriminate].
    destruct a as [|c k|]; try discriminate. assert (Q : c <> Heap) by (intros ->; discriminate).
    assert (E' : Some (n, upd i (Spent c k) hs, ANone) = Some (n', hs', x)) by (destruct c; auto; contradiction).
    clear E. injection E' as <- <- <-. rewrite H, (nth_some _ _ _ (nth_map _ _ _ Ei)). cbn [bind].
    pose proof (C i _ k Ei eq_refl) as Ck. cbn [cell_of] in Ck.
    assert (Lk : k < length (cells w)) by (apply nth_error_Some; congruence).
    pose proof (reset_inv w n hs i c k V Ei Q) as K. rewrite H in K.
    destruct c; [contradiction| | |]; cbn [shape w_el w_mem w_self] in *; unfold destroy, release;
      rewrite (nth_some _ _ _ Ck); cbn [bind mem obj andb].
    + eexists. split; [reflexivity|]. cbn [cell_of] in K.
      replace (upd i (Wr (Some (Mmap, k)) (Some k) false) (map shape hs)) with (map shape hs) in K; auto.
      rewrite <- (map_upd shape i (Has Mmap k) hs) at 1.
      f_equal. clear - Ei. revert i Ei. induction hs as [|h hs IH]; intros [|i] Ei; cbn in *; try discriminate; [congruence|]. f_equal. apply IH; auto.
    + unfold nth_. rewrite nth_error_upd_eq by auto. cbn [bind mem obj]. rewrite upd_upd. eexists. split; [reflexivity|exact K].
    + unfold nth_. rewrite nth_error_upd_eq by auto. cbn [bind mem obj]. rewrite upd_upd. eexists. split; [reflexivity|exact K].
  - destruct (nth_error hs i) as [a|] eqn:Ei; [|discriminate]. destruct a as [|c k|]; try discriminate. injection E as <- <- <-.
    rewrite H, (nth_some _ _ _ (nth_map _ _ _ Ei)). cbn [bind]. replace (w_el (shape (Has c k))) with (Some k) by (destruct c; reflexivity).
    rewrite (nth_some _ _ _ (C i _ k Ei eq_refl)). cbn. eauto.
  - destruct (nth_error hs i) as [a|] eqn:Ei; [|discriminate].
    rewrite H, (nth_some _ _ _ (nth_map _ _ _ Ei)). cbn [bind].
    destruct a as [|c k|c k]; injection E as <- <- <-; eexists; (split; [|exact V]); destruct c || idtac; reflexivity.
Qed.

Lemma run_ok : forall ops w n hs n' hs' xs, Inv w n hs -> srun n hs ops = Some (n', hs', xs) ->
  exists w', run w ops = Ok (w', xs) /\ Inv w' n' hs'.
Proof.
  induction ops as [|o ops IH]; intros w n hs n' hs' xs V E; cbn [srun run] in *.
  - injection E as <- <- <-. eauto.
  - destruct (sstep n hs o) as [[[n1 hs1] a]|] eqn:E1; [|discriminate].
    destruct (srun n1 hs1 ops) as [[[n2 hs2] l]|] eqn:E2; [|discriminate]. injection E as <- <- <-.
    destruct (step_ok w n hs o n1 hs1 a V E1) as (w1 & S1 & V1). destruct (IH w1 n1 hs1 n2 hs2 l V1 E2) as (w2 & S2 & V2).
    rewrite S1. cbn [bind fst snd]. rewrite S2. exists w2. split; [reflexivity|exact V2].
Qed.

Lemma inv_exact : forall w n hs, Inv w n hs -> exact w hs.
Proof.
  intros w n hs [N H F C U M] k c Hc. split.
  - intros Hm. assert (D : (exists i a, nth_error hs i = Some a /\ id a = Some k) \/
                           (forall i a, nth_error hs i = Some a -> id a <> Some k)).
    { clear. induction hs as [|h hs IH]. { right. intros [|] a; discriminate. }
      assert (Dk : {id h = Some k} + {id h <> Some k}) by (decide equality; apply Nat.eq_dec). destruct Dk as [E|Q].
      { left. exists 0, h. auto. } destruct IH as [(i & a & A & B)|A]. { left. exists (S i), a. auto. }
      right. intros [|i] a E; cbn in E; [congruence|eauto]. }
    destruct D as [(i & a & Ei & Ia)|D]; [|rewrite (M k c Hc D) in Hm; discriminate].
    exists a. split; [eapply nth_error_In; eauto|]. pose proof (C i a k Ei Ia) as E. rewrite Hc in E. injection E as ->.
    destruct a as [|d j|d j]; cbn in Ia; try discriminate; injection Ia as ->; [left; eauto|].
    destruct d; cbn in Hm; try discriminate. right. reflexivity.
  - intros (h & Hin & K). destruct (In_nth_error _ _ Hin) as (i & Ei).
    assert (Ih : id h = Some k) by (destruct K as [(d & ->) | ->]; reflexivity).
    rewrite (C i h k Ei Ih) in Hc. injection Hc as <-. destruct K as [(d & ->) | ->]; reflexivity.
Qed.
