(* What the serializer does to the bytes it does not patch: they are copied. *)
From Verif Require Import Base Bytes HeaderModel HashModel SerialModel SerialSpec SerialMem SerialPost SerialSer TwinSpec TwinProofs IdemSpec IdemProofs.
Local Open Scope Z_scope.

Section S.
Variables (env : list ty) (A : Z).
Hypothesis Hwf : wf_env A env.
Let Henv : Forall (wf A) env := proj2 (proj2 Hwf).
Variable B : Z.
Hypothesis HB : 0 < B < 2 ^ 62.
Variables (be_src be rel : bool) (src : mem).
Let s1 := Side be_src rel src.
Notation img m := (Side be true m).
Notation M := (M B).

Definition in_slots (new : list (option Z * Z)) (p : Z) : Prop := exists e, In e new /\ snd e <= p < snd e + 8.
(* From s to s' an object at the bytes Own was serialized; only the bytes F of it were patched; P is known of memories that agree with the result but for
   the pointers that are still pending. *)
Definition Pad (Own F : Z -> Prop) (P : mem -> Prop) (s s' : st) : Prop :=
  len s <= len s' /\
  (forall p, 0 <= p < len s -> ~ F p -> M s' (B + p) = M s (B + p)) /\
  exists new, s_pend s' = s_pend s ++ new /\
    (forall p, in_slots new p -> F p \/ len s <= p < len s') /\
    (len s' <= LIM -> forall m, (forall p, 0 <= p < len s' -> m (B + p) <> None) ->
       (forall p, Own p \/ len s <= p < len s' -> ~ in_slots new p -> m (B + p) = M s' (B + p)) -> P m).

Lemma Pad_mono (Own Own' F F' : Z -> Prop) (P P' : mem -> Prop) s s' : Pad Own F P s s' -> (forall p, Own p -> Own' p) -> (forall p, F p -> F' p) ->
  (forall m, P m -> P' m) -> Pad Own' F' P' s s'.
Proof.
  intros (L & C & new & E & I & K) HO HF HP. split; [exact L|]. split; [intros p Hp N; apply C; auto|]. exists new. split; [exact E|].
  split; [intros p Hp; destruct (I p Hp); auto|]. intros HL m Hm H. apply HP, K; [exact HL|exact Hm|]. intros p [Hp|Hp]; apply H; auto.
Qed.
Lemma Pad_refl Own F (P : mem -> Prop) s : (forall m, P m) -> Pad Own F P s s.
Proof.
  intros H. split; [lia|]. split; [reflexivity|]. exists []. rewrite app_nil_r. split; [reflexivity|]. split; [intros p (e & [] & _)|]. auto.
Qed.

Lemma Pad_seq (O1 O2 F1 F2 : Z -> Prop) (P1 P2 : mem -> Prop) s s' s'' :
  (forall p, F2 p -> O2 p) -> (forall p, F1 p -> O1 p) -> (forall p, O1 p -> O2 p -> False) -> (forall p, O1 p -> 0 <= p < len s) -> (forall p, O2 p -> 0 <= p < len s) ->
  Pad O1 F1 P1 s s' -> Pad O2 F2 P2 s' s'' -> Pad (fun p => O1 p \/ O2 p) (fun p => F1 p \/ F2 p) (fun m => P1 m /\ P2 m) s s''.
Proof.
  intros H2 H1 Dis L1 L2 (G1 & C1 & n1 & E1 & I1 & K1) (G2 & C2 & n2 & E2 & I2 & K2). pose proof (len_nonneg s) as N0.
  split; [lia|]. split; [intros p Hp N; rewrite C2, C1 by (try tauto; lia); reflexivity|]. exists (n1 ++ n2). rewrite E2, E1, app_assoc. split; [reflexivity|]. split.
  - intros p (e & Hi & Hp). apply in_app_or in Hi as [Hi|Hi]; [destruct (I1 p)|destruct (I2 p)]; try (exists e; auto; fail); try tauto; right; lia.
  - intros HL m Hm H. split.
    + apply K1; [lia|intros; apply Hm; lia|]. intros p Hp Hn. rewrite H.
      * rewrite C2; [reflexivity| |]; [destruct Hp as [Hp|Hp]; [apply L1 in Hp|]; lia|]. intros F. apply H2 in F. destruct Hp as [Hp|Hp]; [eauto|]. apply L2 in F. lia.
      * destruct Hp as [Hp|Hp]; [left; left; exact Hp|right; lia].
      * intros (e & Hi & He). apply in_app_or in Hi as [Hi|Hi]; [apply Hn; exists e; auto|].
        destruct (I2 p) as [F|F]; [exists e; auto| |]; [apply H2 in F; destruct Hp as [Hp|Hp]; [eauto|apply L2 in F; lia]|destruct Hp as [Hp|Hp]; [apply L1 in Hp|]; lia].
    + apply K2; [lia|exact Hm|]. intros p Hp Hn. apply H; [destruct Hp as [Hp|Hp]; [left; right; exact Hp|right; lia]|].
      intros (e & Hi & He). apply in_app_or in Hi as [Hi|Hi]; [|apply Hn; exists e; auto].
      destruct (I1 p) as [F|F]; [exists e; auto| |]; [apply H1 in F; destruct Hp as [Hp|Hp]; [eauto|apply L1 in F; lia]|destruct Hp as [Hp|Hp]; [apply L2 in Hp|]; lia].
Qed.

Lemma Pad_list {X} (g : X -> st -> res st) (Own F : X -> Z -> Prop) (P : X -> mem -> Prop) L : forall items,
  (forall i, In i items -> forall p, Own i p -> 0 <= p < L) -> (forall i, In i items -> forall p, F i p -> Own i p) ->
  ForallOrdPairs (fun i j => forall p, Own i p -> Own j p -> False) items ->
  (forall i, In i items -> forall s s', L <= len s -> g i s = Ok s' -> Pad (Own i) (F i) (P i) s s') ->
  forall s s', L <= len s -> foldM g items s = Ok s' ->
    Pad (fun p => exists i, In i items /\ Own i p) (fun p => exists i, In i items /\ F i p) (fun m => forall i, In i items -> P i m) s s'.
Proof.
  induction items as [|i items IH]; intros HO HF Dis Hg s s' HL Hs.
  - cbn in Hs. injection Hs as <-. apply Pad_refl. intros m i [].
  - cbn [foldM] in Hs. destruct (g i s) as [u| | |] eqn:G; try discriminate. cbn [bind] in Hs. inversion Dis as [|? ? D1 D2]; subst. rewrite Forall_forall in D1.
    pose proof (Hg i (or_introl eq_refl) s u HL G) as K. assert (Lu : len s <= len u) by apply K.
    assert (K2 : Pad (fun p => exists i, In i items /\ Own i p) (fun p => exists i, In i items /\ F i p) (fun m => forall i, In i items -> P i m) u s').
    { apply IH; [intros j J; apply HO; right; exact J|intros j J; apply HF; right; exact J|exact D2|intros j J; apply Hg; right; exact J|lia|exact Hs]. }
    eapply Pad_mono; [eapply Pad_seq; [| | | | |exact K|exact K2]| | |].
    + intros p (j & J & Fp). exists j. split; [exact J|]. apply HF; [right; exact J|exact Fp].
    + apply HF. left. reflexivity.
    + intros p Op (j & J & Oj). exact (D1 j J p Op Oj).
    + intros p Op. pose proof (HO i (or_introl eq_refl) p Op). lia.
    + intros p (j & J & Oj). pose proof (HO j (or_intror J) p Oj). lia.
    + intros p [Op|(j & J & Oj)]; [exists i; split; [left; reflexivity|exact Op]|exists j; split; [right; exact J|exact Oj]].
    + intros p [Op|(j & J & Oj)]; [exists i; split; [left; reflexivity|exact Op]|exists j; split; [right; exact J|exact Oj]].
    + intros m [Pi Pj] j [<-|J]; auto.
Qed.

(* an object, its words patched (F), and the block it owns, serialized in place *)
Lemma Pad_own (Own F Inner Fi : Z -> Prop) (P P' : mem -> Prop) s0 s2 s' :
  (forall p, Own p -> 0 <= p < len s0) -> (forall p, Inner p -> len s0 <= p < len s2) -> (forall p, Fi p -> Inner p) ->
  len s0 <= len s2 -> s_pend s2 = s_pend s0 -> (forall p, 0 <= p < len s0 -> ~ F p -> M s2 (B + p) = M s0 (B + p)) ->
  Pad Inner Fi P s2 s' ->
  (len s' <= LIM -> forall m, (forall p, 0 <= p < len s' -> m (B + p) <> None) -> P m ->
     (forall p, Own p \/ len s0 <= p < len s2 -> ~ Fi p -> m (B + p) = M s2 (B + p)) -> P' m) ->
  Pad Own F P' s0 s'.
Proof.
  intros HO HI HF L E C0 (G & C & new & En & I & K) HP. pose proof (len_nonneg s0) as N0.
  split; [lia|]. split.
  { intros p Hp N. rewrite C; [apply C0; assumption|lia|]. intros X. apply HF, HI in X. lia. }
  exists new. rewrite En, E. split; [reflexivity|]. split.
  { intros p Hp. right. destruct (I p Hp) as [X|X]; [apply HF, HI in X|]; lia. }
  intros HL m Hm H. apply HP; [exact HL|exact Hm| |].
  - apply K; [exact HL|exact Hm|]. intros p Hp Hn. apply H; [|exact Hn]. right. destruct Hp as [Hp|Hp]; [apply HI in Hp|]; lia.
  - intros p Hp Nf. rewrite H.
    + apply C; [destruct Hp as [Hp|Hp]; [apply HO in Hp|]; lia|exact Nf].
    + destruct Hp as [Hp|Hp]; [left; exact Hp|right; lia].
    + intros X. destruct (I p X) as [Y|Y]; [exact (Nf Y)|]. destruct Hp as [Hp|Hp]; [apply HO in Hp|]; lia.
Qed.
(* nothing owned *)
Lemma Pad_leaf (Own F : Z -> Prop) (P : mem -> Prop) s0 s2 :
  (forall p, Own p -> 0 <= p < len s0) -> len s0 <= len s2 -> s_pend s2 = s_pend s0 -> (forall p, 0 <= p < len s0 -> ~ F p -> M s2 (B + p) = M s0 (B + p)) ->
  (len s2 <= LIM -> forall m, (forall p, Own p \/ len s0 <= p < len s2 -> m (B + p) = M s2 (B + p)) -> P m) -> Pad Own F P s0 s2.
Proof.
  intros HO L E C K. apply (Pad_own Own F (fun _ => False) (fun _ => False) (fun _ => True) P s0 s2 s2); try tauto.
  - apply Pad_refl. auto.
  - intros HL m _ _ H. apply K; [exact HL|]. intros p Hp. apply H; tauto.
Qed.

(* ---------------- single steps ---------------- *)
Lemma patch_inv s p w x s' : 0 <= p -> patch_int be s p w x = Ok s' -> patched B s s' p (of_int be w x) /\ p + Z.of_nat w <= len s.
Proof.
  intros N H. assert (L : p + Z.of_nat w <= len s).
  { unfold patch_int, patch, buf_write_at in H. destruct (_ <=? _)%nat eqn:E; [|discriminate]. rewrite of_int_length in E. unfold len. lia. }
  destruct (patch_int_ok B be s p w x N L) as (u & E & Pt). split; [congruence|exact L].
Qed.
Lemma off_inv s p o s' : 0 <= p -> patch_off be s p o = Ok s' -> patched B s s' p (of_int be 8 (u_of_z o)) /\ p + 8 <= len s.
Proof. intros N H. apply (patch_inv s p 8); assumption. Qed.
Lemma patched_outw s s' p w x q : patched B s s' p (of_int be w x) -> ~ (p <= q < p + Z.of_nat w) -> M s' (B + q) = M s (B + q).
Proof. intros H N. eapply patched_out; [exact H|]. rewrite of_int_length. lia. Qed.

Definition touched (s s' : st) (lo hi : Z) : Prop :=
  len s' = len s /\ s_pend s' = s_pend s /\ forall p, ~ (lo <= p < hi) -> M s' (B + p) = M s (B + p).
Lemma patched_touched s s' p w x : patched B s s' p (of_int be w x) -> touched s s' p (p + Z.of_nat w).
Proof.
  intros H. split; [apply H|]. split; [apply H|]. intros q N. eapply patched_outw; eassumption.
Qed.
Lemma touched_trans s s' s'' lo hi : touched s s' lo hi -> forall lo' hi', touched s' s'' lo' hi' -> forall l h, l <= lo -> l <= lo' -> hi <= h -> hi' <= h -> touched s s'' l h.
Proof.
  intros (L1 & E1 & C1) lo' hi' (L2 & E2 & C2) l h ? ? ? ?. split; [lia|]. split; [congruence|]. intros p N. rewrite C2, C1 by lia. reflexivity.
Qed.

(* a pointer word, read back *)
Lemma word_back (m : mem) s s' pos o : patched B s s' pos (of_int be 8 (u_of_z o)) -> (forall p, pos <= p < pos + 8 -> m (B + p) = M s' (B + p)) ->
  ptr_at (img m) (B + pos) = Some (ptr_of true (B + pos) (u_of_z o)).
Proof.
  intros H K. unfold ptr_at, int_at. cbn [d_mem d_be d_rel]. destruct (patched_same_int B be s s' pos 8 (u_of_z o) H (u_of_z_bound o)) as [E1 E2].
  rewrite (rdn_ext m (M s')), E1, E2; [reflexivity|]. intros z Hz. replace z with (B + (z - B)) by lia. apply K. lia.
Qed.

Notation ser := (ser env be_src be rel src).
Notation Own t pos := (fun p => pos <= p < pos + size_of t).
Notation free := (free s1).
Definition Padt f t a pos := Pad (Own t pos) (fun p => free f t a (p - pos)) (fun m => pads env s1 (img m) f t a (B + pos)).

Lemma sint_inv a w x : sint be_src src a w = Ok x -> int_at s1 a w = Some x.
Proof. unfold sint, sbytes, int_at. cbn [s1 d_mem d_be]. destruct (rdn src a w); [|discriminate]. cbn. congruence. Qed.
Lemma sptr_inv a p : sptr be_src rel src a = Ok p -> ptr_at s1 a = Some p.
Proof.
  unfold sptr, ptr_at. intros H. destruct (sint be_src src a 8) as [x| | |] eqn:E; try discriminate. rewrite (sint_inv _ _ _ E). cbn in *. congruence.
Qed.
Lemma sbytes_nth a n d k : sbytes src a n = Ok d -> (k < n)%nat -> length d = n /\ exists x, src (a + Z.of_nat k) = Some x /\ nth_error d k = Some x.
Proof.
  unfold sbytes. destruct (rdn src a n) as [l|] eqn:E; [|discriminate]. intros [= <-] H. pose proof (rdn_length _ _ _ _ E) as L. split; [exact L|].
  rewrite (rdn_nth _ _ _ _ _ E H). destruct (nth_error l k) eqn:N; [eauto|]. apply nth_error_None in N. lia.
Qed.
Lemma sbytes_len a n d : sbytes src a n = Ok d -> length d = n.
Proof. unfold sbytes. destruct (rdn src a n) as [l|] eqn:E; [|discriminate]. intros [= <-]. eapply rdn_length. exact E. Qed.

(* a copied block in memory m, but for Fi *)
Lemma copied_but (m : mem) q n d s' start (Fi G : Z -> Prop) hi : sbytes src q (Z.to_nat n) = Ok d -> 0 <= n -> start + n <= hi -> 0 <= start ->
  (forall p, 0 <= p < hi -> m (B + p) <> None) -> (forall p, start <= p < start + n -> ~ Fi p -> m (B + p) = M s' (B + p)) ->
  (forall z, B + start <= z < B + start + n -> M s' z = nth_error d (Z.to_nat (z - B - start))) ->
  (forall k, 0 <= k < n -> Fi (start + k) \/ ~ Fi (start + k)) -> (forall k, 0 <= k < n -> Fi (start + k) -> G k) ->
  same_but s1 (img m) q (B + start) n G.
Proof.
  intros Hd N L Ns Hm H Hc Hx HG k K. destruct (sbytes_nth _ _ _ (Z.to_nat k) Hd ltac:(lia)) as (Ld & x & X & Y). rewrite Z2Nat.id in X by lia.
  assert (Ex : exists y, m (B + start + k) = Some y).
  { replace (B + start + k) with (B + (start + k)) by lia. specialize (Hm (start + k) ltac:(lia)). destruct (m (B + (start + k))); [eauto|contradiction]. }
  destruct Ex as (y & Ey). exists x, y. split; [exact X|]. split; [exact Ey|]. destruct (Hx k K) as [F|F]; [left; apply HG; assumption|right].
  specialize (H (start + k) ltac:(lia) F). rewrite Hc in H by lia. replace (Z.to_nat (B + (start + k) - B - start)) with (Z.to_nat k) in H by lia.
  replace (B + start + k) with (B + (start + k)) in Ey by lia. congruence.
Qed.

Lemma free_dec f : forall t a k, wf A t -> free f t a k \/ ~ free f t a k.
Proof.
  induction f as [|f IH]; intros t a k W; [right; intros []|]. destruct t as [w|w|n|fs sz al|t off sz al|ts off sz al|n|w ix n| | |n]; cbn [TwinSpec.free]; try lia.
  - inversion W as [| | |? ? ? _ _ _ Wf _| | | | | | |]; subst.
    assert (G : forall l, (forall o t, In (o, t) l -> wf A t) -> (exists o t, In (o, t) l /\ free f t (a + o) (k - o)) \/ ~ (exists o t, In (o, t) l /\ free f t (a + o) (k - o))).
    { clear - IH. induction l as [|[o t] l IHl]; intros Wl; [right; intros (o & t & [] & _)|].
      destruct (IH t (a + o) (k - o) (Wl o t (or_introl eq_refl))) as [F|F]; [left; exists o, t; split; [left; reflexivity|exact F]|].
      destruct IHl as [G|G]; [intros o' t' I; apply (Wl o' t'); right; exact I|left; destruct G as (o' & t' & I & G); exists o', t'; split; [right; exact I|exact G]|].
      right. intros (o' & t' & [E|I] & F'); [injection E as <- <-; contradiction|]. apply G. exists o', t'. auto. }
    apply G. intros o t I. apply (Wf o t I).
  - inversion W; subst. destruct (int_at s1 a 1) as [[|]|]; try tauto. apply IH. assumption.
  - inversion W as [| | | | |? ? ? ? _ _ No _ _ Wf| | | | |]; subst. destruct (int_at s1 a 1) as [i|]; [|tauto].
    destruct (nth_error ts (N.to_nat i)) as [t|] eqn:E; [|lia]. destruct (IH t (a + off) (k - off)) as [Q|Q]; [apply Wf; eapply nth_error_In; exact E|tauto|].
    destruct (Z.eq_dec k 0); tauto.
  - destruct (int_at s1 a 1) as [[|]|]; try tauto. lia.
  - destruct (int_at s1 (a + 15) 1) as [r|]; [|tauto]. lia.
Qed.
Lemma exists_dec (Q : nat -> Prop) n : (forall i, (i < n)%nat -> Q i \/ ~ Q i) -> (exists i, (i < n)%nat /\ Q i) \/ ~ (exists i, (i < n)%nat /\ Q i).
Proof.
  induction n as [|n IH]; intros H; [right; intros (i & I & _); lia|]. destruct (H n ltac:(lia)) as [K|K]; [left; exists n; split; [lia|exact K]|].
  destruct IH as [(i & I & K')|K']; [intros i I; apply H; lia|left; exists i; split; [lia|exact K']|]. right. intros (i & I & Qi).
  destruct (Nat.eq_dec i n) as [->|]; [contradiction|]. apply K'. exists i. split; [lia|exact Qi].
Qed.

Lemma bind_ok {X Y} (r : res X) (k : X -> res Y) y : (let* x := r in k x) = Ok y -> exists x, r = Ok x /\ k x = Ok y.
Proof. destruct r; try discriminate. cbn. eauto. Qed.
Lemma tyof_pos n : 0 < size_of (tyof env n).
Proof. apply (wf_basic env A Hwf), (tyof_wf env A Henv). Qed.

Lemma align_nonneg t : wf A t -> 0 <= align_of t.
Proof. intros W. destruct (wf_basic env A Hwf t W) as (_ & H & _). lia. Qed.
Lemma seq_apart (o sz : Z) n : 0 <= sz -> ForallOrdPairs (fun i j : nat => forall p, o + Z.of_nat i * sz <= p < o + Z.of_nat i * sz + sz ->
  o + Z.of_nat j * sz <= p < o + Z.of_nat j * sz + sz -> False) (seq 0 n).
Proof.
  intros N. generalize 0%nat. induction n as [|n IH]; intros k; [constructor|]. cbn [seq]. constructor; [|apply IH]. rewrite Forall_forall. intros j J.
  apply in_seq in J. intros p. nia.
Qed.

(* what a block appended to s, then patched between pos and hi only, gives *)
Lemma block_step s d al sa start s2 lo hi : append s d al = (sa, start) -> 0 <= al -> touched sa s2 lo hi -> 0 <= lo -> hi <= len s ->
  len s <= start /\ len s2 = start + Z.of_nat (length d) /\ s_pend s2 = s_pend s /\
  (forall p, 0 <= p < len s -> ~ (lo <= p < hi) -> M s2 (B + p) = M s (B + p)) /\
  (forall z, B + start <= z < B + start + Z.of_nat (length d) -> M s2 z = nth_error d (Z.to_nat (z - B - start))).
Proof.
  intros Ea Al (L & E & C) N H. pose proof (append_spec B s d al Al) as S. rewrite Ea in S. destruct S as (S1 & S2 & _ & _ & _ & _ & S3 & S4 & S5).
  split; [exact S1|]. split; [lia|]. split; [congruence|]. split.
  - intros p Hp Hn. rewrite C by exact Hn. apply S4. lia.
  - intros z Hz. replace z with (B + (z - B)) at 1 by lia. rewrite C by lia. replace (B + (z - B)) with z by lia. apply S5. lia.
Qed.

Theorem ser_pads f : forall t a pos s s', wf A t -> 0 <= pos -> pos + size_of t <= len s -> ser f t a pos s = Ok s' -> Padt f t a pos s s'.
Proof.
  induction f as [|f IH]; intros t a pos s s' W N L H; [discriminate H|].
  assert (HO : forall p, pos <= p < pos + size_of t -> 0 <= p < len s) by (intros; lia).
  destruct t as [w|w|n|fs sz al|t off sz al|ts off sz al|n|w ix n| | |n]; unfold Padt; cbn [SerialModel.ser TwinSpec.free pads size_of] in *.
  - apply bind_ok in H as (x & X & H). apply patch_inv in H as [H _]; [|exact N]. pose proof (patched_touched _ _ _ _ _ H) as (T1 & T2 & T3).
    apply Pad_leaf; [exact HO|lia|exact T2|intros p Hp F; apply T3; lia|auto].
  - injection H as <-. apply Pad_refl. auto.
  - apply bind_ok in H as (p & X & H).
    assert (Lf : forall o u, patch_off be s pos o = Ok u -> Pad (fun p => pos <= p < pos + 8) (fun p => 0 <= p - pos < 8) (fun _ => True) s u).
    { intros o u U. apply off_inv in U as [U _]; [|exact N]. pose proof (patched_touched _ _ _ _ _ U) as (T1 & T2 & T3).
      apply Pad_leaf; [exact HO|lia|exact T2|intros p' Hp F; apply T3; lia|auto]. }
    unfold resolve in H. destruct p as [q|]; [|eapply Lf; exact H]. destruct (find_off q (s_offs s)); [eapply Lf; exact H|].
    destruct (resolve_range s q); [eapply Lf; exact H|]. apply bind_ok in H as (u & U & H). injection H as <-.
    apply off_inv in U as [U _]; [|exact N]. pose proof (patched_touched _ _ _ _ _ U) as (T1 & T2 & T3). split; [unfold len in *; cbn [s_buf]; lia|].
    split; [intros p' Hp F; apply T3; lia|]. exists [(Some q, pos)]. cbn [s_pend]. rewrite T2. split; [reflexivity|]. split; [|auto].
    intros p' (e & [<-|[]] & Hp). left. cbn [snd] in Hp. lia.
  - inversion W as [| | |? ? ? _ Sz _ Wf Ap| | | | | | |]; subst.
    match type of H with foldM ?g _ _ = _ => pose (g0 := g) end.
    eapply Pad_mono; [apply (Pad_list g0 (fun ot p => pos + fst ot <= p < pos + fst ot + size_of (snd ot)) (fun ot p => free f (snd ot) (a + fst ot) (p - (pos + fst ot)))
      (fun ot m => pads env s1 (img m) f (snd ot) (a + fst ot) (B + (pos + fst ot))) (pos + sz) fs)| | |]; [| | | |exact L|exact H| | |].
    + intros [o t] I p. cbn [fst snd]. destruct (Wf o t I) as (Wt & No & Le & _). lia.
    + intros [o t] I p F. cbn [fst snd] in *. destruct (Wf o t I) as (Wt & No & Le & _). apply (free_in A) in F; [lia|exact Wt].
    + clear - Ap. induction Ap as [|x l H _ IHl]; constructor; [|exact IHl]. rewrite Forall_forall in *. intros y Y p. specialize (H y Y). unfold apart in H. lia.
    + intros [o t] I u u' Lu G. cbn [fst snd] in *. destruct (Wf o t I) as (Wt & No & Le & _). apply IH; [exact Wt|lia|lia|exact G].
    + intros p ([o t] & I & Q). cbn [fst snd] in *. destruct (Wf o t I) as (Wt & No & Le & _). lia.
    + intros p ([o t] & I & Q). cbn [fst snd] in *. exists o, t. split; [exact I|]. replace (p - pos - o) with (p - (pos + o)) by lia. exact Q.
    + intros m Q o t I. replace (B + pos + o) with (B + (pos + o)) by lia. exact (Q (o, t) I).
  - apply bind_ok in H as (v & X & H). apply sint_inv in X. rewrite X. destruct (N.eqb_spec v 0) as [->|E].
    + injection H as <-. apply Pad_refl. intros m b [= <-]. congruence.
    + inversion W; subst. eapply Pad_mono; [apply (IH t (a + off) (pos + off)); [assumption|lia|lia|exact H]| | |].
      * cbn beta. lia.
      * cbn beta. intros p. replace (p - (pos + off)) with (p - pos - off) by lia. destruct v; [contradiction|auto].
      * cbn beta. intros m Q b _ _. replace (B + pos + off) with (B + (pos + off)) by lia. exact Q.
  - apply bind_ok in H as (v & X & H). apply sint_inv in X. rewrite X. apply bind_ok in H as (u & U & H). apply patch_inv in U as [U _]; [|exact N].
    pose proof (patched_touched _ _ _ _ _ U) as (T1 & T2 & T3). destruct (nth_error ts (N.to_nat v)) as [t|] eqn:E; [|discriminate H].
    inversion W as [| | | | |? ? ? ? _ _ No Nz _ Wf| | | | |]; subst. destruct (Wf t) as (Wt & Le & _); [eapply nth_error_In; exact E|].
    assert (Q1 : Pad (fun p => p = pos) (fun p => p = pos) (fun _ => True) s u).
    { apply Pad_leaf; [intros p ->; apply HO; lia|lia|exact T2|intros p Hp F; apply T3; lia|auto]. }
    pose proof (IH t (a + off) (pos + off) u s' Wt ltac:(lia) ltac:(lia) H) as Q2.
    eapply Pad_mono; [eapply Pad_seq; [| | | | |exact Q1|exact Q2]| | |]; cbn beta.
    + intros p F. apply (free_in A) in F; [lia|exact Wt].
    + auto.
    + lia.
    + lia.
    + lia.
    + lia.
    + intros p [->|F]; [left; lia|right]. replace (p - pos - off) with (p - (pos + off)) by lia. exact F.
    + intros m [_ Q] i t' [= <-] E'. rewrite E in E'. injection E' as <-. replace (B + pos + off) with (B + (pos + off)) by lia. exact Q.
  - set (T := tyof env n) in *. assert (WT : wf A T) by apply (tyof_wf env A Henv). pose proof (tyof_pos n) as TP. fold T in TP.
    apply bind_ok in H as (p & X & H). apply sptr_inv in X. destruct p as [q|].
    + apply bind_ok in H as (d & D & H). pose proof (sbytes_len _ _ _ D) as Ld. destruct (append s d (align_of T)) as [sa start] eqn:Ea.
      apply bind_ok in H as (u1 & U1 & H). apply bind_ok in H as (u2 & U2 & H).
      apply off_inv in U1 as [U1 _]; [|exact N]. apply patch_inv in U2 as [U2 _]; [|lia].
      pose proof (patched_touched _ _ _ _ _ U1) as T1. pose proof (patched_touched _ _ _ _ _ U2) as T2.
      pose proof (touched_trans _ _ _ _ _ T1 _ _ T2 pos (pos + 9) ltac:(lia) ltac:(lia) ltac:(lia) ltac:(lia)) as TT.
      destruct (block_step _ _ _ _ _ _ _ _ Ea (align_nonneg _ WT) TT N ltac:(lia)) as (S1 & S2 & S3 & S4 & S5).
      rewrite Ld, Z2Nat.id in S2, S5 by lia.
      match type of H with _ f T q start ?u = _ => set (u3 := u) in H end.
      pose proof (IH T q start u3 s' WT ltac:(lia) ltac:(change (len u3) with (len u2); lia) H) as Q.
      eapply (Pad_own _ _ _ _ _ _ s u3); [exact HO| | | | | |exact Q|].
      * cbn beta. intros p Hp. change (len u3) with (len u2). lia.
      * cbn beta. intros p F. apply (free_in A) in F; [lia|exact WT].
      * change (len u3) with (len u2). lia.
      * exact S3.
      * intros p Hp F. apply S4; [exact Hp|lia].
      * change (len u3) with (len u2). cbn beta. intros HL m Hm P HC q1 q2 Q1 Q2. rewrite X in Q1. injection Q1 as <-.
        assert (len u2 <= len s') by (apply Q). 
        assert (WB : ptr_at (img m) (B + pos) = Some (ptr_of true (B + pos) (u_of_z (start - pos)))).
        { apply (word_back m sa u1); [exact U1|]. intros p Hp. rewrite HC; [apply T2; lia|left; lia|intros F; apply (free_in A) in F; [lia|exact WT]]. }
        rewrite WB, ptr_word in Q2 by lia.
        injection Q2 as <-. split; [|exact P].
        eapply (copied_but m q (size_of T) d u2 start (fun p => free f T q (p - start))); [exact D|lia| |lia|exact Hm| |exact S5| |].
        -- lia.
        -- intros p Hp F. apply HC; [right; lia|exact F].
        -- intros k K. apply free_dec. exact WT.
        -- intros k K F. replace (start + k - start) with k in F by lia. exact F.
    + apply bind_ok in H as (u1 & U1 & H). apply off_inv in U1 as [U1 _]; [|exact N]. apply patch_inv in H as [U2 _]; [|lia].
      pose proof (patched_touched _ _ _ _ _ U1) as T1. pose proof (patched_touched _ _ _ _ _ U2) as T2.
      pose proof (touched_trans _ _ _ _ _ T1 _ _ T2 pos (pos + 9) ltac:(lia) ltac:(lia) ltac:(lia) ltac:(lia)) as (T3 & T4 & T5).
      apply Pad_leaf; [exact HO|lia|exact T4|intros p Hp F; apply T5; lia|]. intros _ m _ q1 q2 Q1. congruence.
  - set (T := tyof env n) in *. assert (WT : wf A T) by apply (tyof_wf env A Henv). pose proof (tyof_pos n) as TP. fold T in TP.
    apply bind_ok in H as (p & X & H). apply sptr_inv in X. apply bind_ok in H as (used & Y & H). apply sint_inv in Y. apply bind_ok in H as ([sa start] & Ea & H).
    apply bind_ok in H as (u1 & U1 & H). apply bind_ok in H as (u2 & U2 & H). apply bind_ok in H as (u3 & U3 & H). apply bind_ok in H as (u4 & U4 & H).
    apply off_inv in U1 as [U1 _]; [|exact N]. apply patch_inv in U2 as [U2 _]; [|lia]. apply patch_inv in U3 as [U3 _]; [|lia]. apply patch_inv in U4 as [U4 _]; [|lia].
    pose proof (patched_touched _ _ _ _ _ U1) as T1. pose proof (patched_touched _ _ _ _ _ U2) as T2. pose proof (patched_touched _ _ _ _ _ U3) as T3.
    pose proof (patched_touched _ _ _ _ _ U4) as T4.
    assert (TR : touched u1 u4 (pos + 8) (pos + 9 + 2 * Z.of_nat w)).
    { pose proof (touched_trans _ _ _ _ _ T2 _ _ T3 (pos + 8) (pos + 9 + 2 * Z.of_nat w) ltac:(lia) ltac:(lia) ltac:(lia) ltac:(lia)) as K.
      apply (touched_trans _ _ _ _ _ K _ _ T4); lia. }
    assert (TT : touched sa u4 pos (pos + 9 + 2 * Z.of_nat w)) by (apply (touched_trans _ _ _ _ _ T1 _ _ TR); lia).
    destruct (N.eqb_spec used 0) as [Eu|Eu].
    + injection Ea as <- <-. assert (E4 : len s' = len u4 /\ s_pend s' = s_pend u4 /\ s_buf s' = s_buf u4).
      { subst used. cbn [N.to_nat seq foldM] in H. destruct p as [q|]; injection H as <-; [destruct ix|]; auto. }
      destruct E4 as (E4 & E5 & E6). destruct TT as (V1 & V2 & V3). apply Pad_leaf; [exact HO|lia|congruence| |].
      * intros p' Hp F. unfold SerialPost.M in *. rewrite E6. apply V3. lia.
      * intros _ m _ q1 q2 us _ _ Y' NZ. congruence.
    + destruct p as [q|]; [|discriminate Ea]. apply bind_ok in Ea as (d & D & Ea). pose proof (sbytes_len _ _ _ D) as Ld.
      destruct (append s d (align_of T)) as [sb st0] eqn:Eb. injection Ea as -> <-. set (size := size_of T * Z.of_N used) in *.
      assert (Ps : 0 <= size) by (unfold size; nia). cbn [rel_off] in U1.
      destruct (block_step _ _ _ _ _ _ _ _ Eb (align_nonneg _ WT) TT N ltac:(lia)) as (S1 & S2 & S3 & S4 & S5). rewrite Ld, Z2Nat.id in S2, S5 by lia.
      match type of H with foldM ?g _ ?u = _ => pose (g0 := g); set (u5 := u) in H end.
      assert (E5 : len u5 = len u4 /\ s_pend u5 = s_pend u4 /\ s_buf u5 = s_buf u4) by (unfold u5; destruct ix; auto). destruct E5 as (E5 & E6 & E7).
      assert (EM : forall z, M u5 z = M u4 z) by (intros z; unfold SerialPost.M; rewrite E7; reflexivity).
      assert (Q : Pad (fun p => exists i, In i (seq 0 (N.to_nat used)) /\ st0 + Z.of_nat i * size_of T <= p < st0 + Z.of_nat i * size_of T + size_of T)
         (fun p => exists i, In i (seq 0 (N.to_nat used)) /\ free f T (q + Z.of_nat i * size_of T) (p - (st0 + Z.of_nat i * size_of T)))
         (fun m => forall i, In i (seq 0 (N.to_nat used)) -> pads env s1 (img m) f T (q + Z.of_nat i * size_of T) (B + (st0 + Z.of_nat i * size_of T))) u5 s').
      { apply (Pad_list g0 (fun i p => st0 + Z.of_nat i * size_of T <= p < st0 + Z.of_nat i * size_of T + size_of T)
          (fun i p => free f T (q + Z.of_nat i * size_of T) (p - (st0 + Z.of_nat i * size_of T))) 
          (fun i m => pads env s1 (img m) f T (q + Z.of_nat i * size_of T) (B + (st0 + Z.of_nat i * size_of T))) (st0 + size)).
        - intros i I p Hp. apply in_seq in I. unfold size. nia.
        - intros i I p F. apply (free_in A) in F; [lia|exact WT].
        - apply seq_apart. lia.
        - intros i I v v' Lv G. apply in_seq in I. apply IH; [exact WT|nia|unfold size in Lv; nia|exact G].
        - lia.
        - exact H. }
      assert (Fi : forall p, (exists i, In i (seq 0 (N.to_nat used)) /\ free f T (q + Z.of_nat i * size_of T) (p - (st0 + Z.of_nat i * size_of T))) ->
        st0 <= p < st0 + size).
      { intros p (i & I & F). apply in_seq in I. apply (free_in A) in F; [|exact WT]. unfold size. nia. }
      eapply (Pad_own _ _ _ _ _ _ s u5); [exact HO| | | | | |exact Q|].
      * cbn beta. intros p (i & I & Hp). apply in_seq in I. unfold size in *. nia.
      * cbn beta. intros p (i & I & F). exists i. split; [exact I|]. apply (free_in A) in F; [lia|exact WT].
      * lia.
      * congruence.
      * intros p Hp F. rewrite EM. apply S4; [exact Hp|lia].
      * cbn beta. intros HL m Hm P HC q1 q2 us Q1 Q2 Q3 _. rewrite X in Q1. injection Q1 as <-. rewrite Y in Q3. injection Q3 as <-.
        assert (len u5 <= len s') by (apply Q).
        assert (WB : ptr_at (img m) (B + pos) = Some (ptr_of true (B + pos) (u_of_z (st0 - pos)))).
        { apply (word_back m sa u1); [exact U1|]. intros p Hp. rewrite HC, EM; [apply TR; lia|left; lia|intros F; apply Fi in F; lia]. }
        rewrite WB, ptr_word in Q2 by lia.
        injection Q2 as <-. split.
        -- eapply (copied_but m q size d u4 st0 (fun p => exists i, In i (seq 0 (N.to_nat used)) /\ free f T (q + Z.of_nat i * size_of T) (p - (st0 + Z.of_nat i * size_of T))));
             [exact D|lia| |lia|exact Hm| |exact S5| |].
           ++ lia.
           ++ intros p Hp F. rewrite <- EM. apply HC; [right; lia|exact F].
           ++ intros k K. destruct (exists_dec (fun i => free f T (q + Z.of_nat i * size_of T) (st0 + k - (st0 + Z.of_nat i * size_of T))) (N.to_nat used)) as [(i & I & F)|F].
              ** intros i _. apply free_dec. exact WT.
              ** left. exists i. split; [apply in_seq; lia|exact F].
              ** right. intros (i & I & F'). apply in_seq in I. apply F. exists i. split; [lia|exact F'].
           ++ intros k K (i & I & F). apply in_seq in I. exists i. split; [lia|]. replace (k - Z.of_nat i * size_of T) with (st0 + k - (st0 + Z.of_nat i * size_of T)) by lia. exact F.
        -- intros i I. replace (B + st0 + Z.of_nat i * size_of T) with (B + (st0 + Z.of_nat i * size_of T)) by lia. apply P. apply in_seq. lia.
  - apply bind_ok in H as (sh & X & H). apply sint_inv in X. rewrite X. destruct (N.eqb_spec sh 0) as [->|E]; cbn [negb] in H.
    + apply bind_ok in H as (p & X1 & H). apply bind_ok in H as (size & X2 & H). apply bind_ok in H as ([sa start] & Ea & H).
      apply bind_ok in H as (u1 & U1 & H). apply bind_ok in H as (u2 & U2 & U3).
      apply off_inv in U1 as [U1 _]; [|lia]. apply patch_inv in U2 as [U2 _]; [|lia]. apply patch_inv in U3 as [U3 _]; [|lia].
      pose proof (patched_touched _ _ _ _ _ U1) as T1. pose proof (patched_touched _ _ _ _ _ U2) as T2. pose proof (patched_touched _ _ _ _ _ U3) as T3.
      assert (TT : touched sa u2 (pos + 4) (pos + 16)) by (apply (touched_trans _ _ _ _ _ T1 _ _ T2); lia).
      assert (K : len s <= len sa /\ s_pend sa = s_pend s /\ forall p, 0 <= p < len s -> M sa (B + p) = M s (B + p)).
      { destruct p as [q|]; [|injection Ea as <- <-; split; [lia|auto]]. apply bind_ok in Ea as (d & D & Ea). destruct (append s d 0) as [sb sp] eqn:Eb. injection Ea as <- _.
        pose proof (append_spec B s d 0 ltac:(lia)) as S. rewrite Eb in S. destruct S as (S1 & S2 & _ & _ & _ & _ & S3 & S4 & _).
        split; [lia|]. split; [exact S3|]. intros z Hz. apply S4. lia. }
      destruct K as (K1 & K2 & K3). destruct TT as (V1 & V2 & V3), T3 as (V4 & V5 & V6).
      apply Pad_leaf; [exact HO|lia|congruence| |auto]. intros p' Hp F. rewrite V6, V3, K3 by lia. reflexivity.
    + injection H as <-. apply Pad_refl. auto.
  - apply bind_ok in H as (r & X & H). apply sint_inv in X. rewrite X. destruct (N.ltb_spec r 128) as [E|E].
    + injection H as <-. apply Pad_refl. intros m r1 [= <-]. lia.
    + apply bind_ok in H as (p & X1 & H). apply bind_ok in H as (size & X2 & H). apply bind_ok in H as (d & D & H).
      destruct (append s (d ++ [0%N]) 0) as [sa start] eqn:Ea.
      apply bind_ok in H as (u1 & U1 & H). apply bind_ok in H as (u2 & U2 & H). apply bind_ok in H as (u3 & U3 & U4).
      apply off_inv in U1 as [U1 _]; [|lia]. apply patch_inv in U2 as [U2 _]; [|lia]. apply patch_inv in U3 as [U3 _]; [|lia]. apply patch_inv in U4 as [U4 _]; [|lia].
      pose proof (patched_touched _ _ _ _ _ U1) as T1. pose proof (patched_touched _ _ _ _ _ U2) as T2. pose proof (patched_touched _ _ _ _ _ U3) as T3.
      assert (TT : touched sa u3 pos (pos + 13)).
      { assert (K : touched sa u2 pos (pos + 12)) by (apply (touched_trans _ _ _ _ _ T1 _ _ T2); lia). apply (touched_trans _ _ _ _ _ K _ _ T3); lia. }
      destruct (block_step _ _ _ _ _ _ _ _ Ea ltac:(lia) TT N ltac:(lia)) as (S1 & S2 & S3 & S4 & _).
      pose proof (patched_touched _ _ _ _ _ U4) as (V4 & V5 & V6). apply Pad_leaf; [exact HO|lia|congruence| |].
      * intros p' Hp F. rewrite V6, S4 by lia. reflexivity.
      * intros _ m HC r1 [= <-] _. exists 255%N. split; [|lia]. apply int_byte. cbn [d_mem]. replace (B + pos + 15) with (B + (pos + 15)) by lia.
        rewrite HC by lia. destruct U4 as (_ & _ & _ & _ & U4). rewrite U4, of_int_length.
        replace ((B + (pos + 15) <=? B + (pos + 15)) && (B + (pos + 15) <? B + (pos + 15) + Z.of_nat 1)) with true by lia. rewrite Z.sub_diag. destruct be; reflexivity.
  - set (T := tyof env n) in *. assert (WT : wf A T) by apply (tyof_wf env A Henv). pose proof (tyof_pos n) as TP. fold T in TP.
    apply bind_ok in H as (pe & X & H). apply sptr_inv in X. apply bind_ok in H as (pc & Xc & H). apply sptr_inv in Xc.
    apply bind_ok in H as (size & Y1 & H). apply bind_ok in H as (cap & Y & H). apply sint_inv in Y. apply bind_ok in H as (gr & Y2 & H). apply bind_ok in H as ([[sa start] cs] & Ea & H).
    apply bind_ok in H as (u1 & U1 & H). apply bind_ok in H as (u2 & U2 & H). apply bind_ok in H as (u3 & U3 & H). apply bind_ok in H as (u4 & U4 & H).
    apply bind_ok in H as (u5 & U5 & H). apply bind_ok in H as (u6 & U6 & H).
    apply off_inv in U1 as [U1 _]; [|exact N]. apply off_inv in U2 as [U2 _]; [|lia]. apply patch_inv in U3 as [U3 _]; [|lia]. apply patch_inv in U4 as [U4 _]; [|lia].
    apply patch_inv in U5 as [U5 _]; [|lia]. apply patch_inv in U6 as [U6 _]; [|lia].
    pose proof (patched_touched _ _ _ _ _ U1) as T1. pose proof (patched_touched _ _ _ _ _ U2) as T2. pose proof (patched_touched _ _ _ _ _ U3) as T3.
    pose proof (patched_touched _ _ _ _ _ U4) as T4. pose proof (patched_touched _ _ _ _ _ U5) as T5. pose proof (patched_touched _ _ _ _ _ U6) as T6.
    assert (TR : touched u1 u6 (pos + 8) (pos + 41)).
    { destruct T2 as (A1 & A2 & A3), T3 as (B1 & B2 & B3), T4 as (C1 & C2 & C3), T5 as (D1 & D2 & D3), T6 as (E1 & E2 & E3).
      split; [lia|]. split; [congruence|]. intros p Hp. rewrite E3, D3, C3, B3, A3 by lia. reflexivity. }
    assert (TT : touched sa u6 pos (pos + 41)) by (apply (touched_trans _ _ _ _ _ T1 _ _ TR); lia).
    destruct pe as [q|].
    + apply bind_ok in Ea as (d & D & Ea). pose proof (sbytes_len _ _ _ D) as Ld. destruct (append s d (align_of T)) as [sb st0] eqn:Eb.
      injection Ea as -> <- <-. set (bytes := Z.of_N cap * size_of T) in *. assert (Pb : 0 <= bytes) by (unfold bytes; nia). cbn [rel_off] in U1.
      destruct (block_step _ _ _ _ _ _ _ _ Eb (align_nonneg _ WT) TT N ltac:(lia)) as (S1 & S2 & S3 & S4 & S5). rewrite Ld, Z2Nat.id in S2, S5 by lia.
      match type of H with foldM ?g _ _ = _ => pose (g0 := g) end.
      pose (full := fun i => exists c b, pc = Some c /\ int_at s1 (c + Z.of_nat i) 1 = Some b /\ is_full b = true).
      pose (FI := fun i p => full i /\ free f T (q + Z.of_nat i * size_of T) (p - (st0 + Z.of_nat i * size_of T))).
      assert (Q : Pad (fun p => exists i, In i (seq 0 (N.to_nat cap)) /\ st0 + Z.of_nat i * size_of T <= p < st0 + Z.of_nat i * size_of T + size_of T)
         (fun p => exists i, In i (seq 0 (N.to_nat cap)) /\ FI i p)
         (fun m => forall i, In i (seq 0 (N.to_nat cap)) -> full i -> pads env s1 (img m) f T (q + Z.of_nat i * size_of T) (B + (st0 + Z.of_nat i * size_of T))) u6 s').
      { apply (Pad_list g0 (fun i p => st0 + Z.of_nat i * size_of T <= p < st0 + Z.of_nat i * size_of T + size_of T) FI
          (fun i m => full i -> pads env s1 (img m) f T (q + Z.of_nat i * size_of T) (B + (st0 + Z.of_nat i * size_of T))) (st0 + bytes)).
        - intros i I p Hp. apply in_seq in I. unfold bytes. nia.
        - intros i I p [_ F]. apply (free_in A) in F; [lia|exact WT].
        - apply seq_apart. lia.
        - intros i I v v' Lv G. apply in_seq in I. unfold g0 in G. destruct pc as [c|]; [|discriminate G]. apply bind_ok in G as (b & Z & G). apply sint_inv in Z.
          destruct (is_full b) eqn:Fb.
          + eapply Pad_mono; [apply (IH T (q + Z.of_nat i * size_of T) (st0 + Z.of_nat i * size_of T)); [exact WT|nia|unfold bytes in Lv; nia|exact G]|auto| |auto].
            cbn beta. intros p F. split; [exists c, b; auto|exact F].
          + injection G as <-. apply Pad_refl. intros m (c' & b' & [= <-] & Z' & Fb'). congruence.
        - lia.
        - exact H. }
      assert (Fi : forall p, (exists i, In i (seq 0 (N.to_nat cap)) /\ FI i p) -> st0 <= p < st0 + bytes).
      { intros p (i & I & _ & F). apply in_seq in I. apply (free_in A) in F; [|exact WT]. unfold bytes. nia. }
      eapply (Pad_own _ _ _ _ _ _ s u6); [exact HO| | | | | |exact Q|].
      * cbn beta. intros p (i & I & Hp). apply in_seq in I. unfold bytes in *. nia.
      * cbn beta. intros p (i & I & _ & F). exists i. split; [exact I|]. apply (free_in A) in F; [lia|exact WT].
      * lia.
      * congruence.
      * intros p Hp F. apply S4; [exact Hp|lia].
      * cbn beta. intros HL m Hm P HC q1 q2 c1 cp Q1 Q2 Qc Q3. rewrite X in Q1. injection Q1 as <-. rewrite Y in Q3. injection Q3 as <-. rewrite Xc in Qc. injection Qc as ->.
        assert (len u6 <= len s') by (apply Q).
        assert (WB : ptr_at (img m) (B + pos) = Some (ptr_of true (B + pos) (u_of_z (st0 - pos)))).
        { apply (word_back m sa u1); [exact U1|]. intros p Hp. rewrite HC; [apply TR; lia|left; lia|intros F; apply Fi in F; lia]. }
        rewrite WB, ptr_word in Q2 by lia.
        injection Q2 as <-. split.
        -- eapply (copied_but m q (bytes + (Z.of_N cap + 9)) d u6 st0 (fun p => exists i, In i (seq 0 (N.to_nat cap)) /\ FI i p)); [exact D|lia| |lia|exact Hm| |exact S5| |].
           ++ lia.
           ++ intros p Hp F. apply HC; [right; lia|exact F].
           ++ intros k K. destruct (exists_dec (fun i => FI i (st0 + k)) (N.to_nat cap)) as [(i & I & F)|F].
              ** intros i _. unfold FI. destruct (free_dec f T (q + Z.of_nat i * size_of T) (st0 + k - (st0 + Z.of_nat i * size_of T)) WT) as [F|F]; [|tauto].
                 unfold full. destruct (int_at s1 (c1 + Z.of_nat i) 1) as [b|] eqn:Eb'; [destruct (is_full b) eqn:Fb|].
                 { left. split; [exists c1, b; auto|exact F]. }
                 { right. intros [(c & b' & [= <-] & E1 & E2) _]. congruence. }
                 { right. intros [(c & b' & [= <-] & E1 & E2) _]. congruence. }
              ** left. exists i. split; [apply in_seq; lia|exact F].
              ** right. intros (i & I & F'). apply in_seq in I. apply F. exists i. split; [lia|exact F'].
           ++ intros k K (i & I & (c & b & [= <-] & E1 & E2) & F). apply in_seq in I. exists i, b. split; [lia|]. split; [exact E1|]. split; [exact E2|].
              replace (k - Z.of_nat i * size_of T) with (st0 + k - (st0 + Z.of_nat i * size_of T)) by lia. exact F.
        -- intros i b I E1 E2. replace (B + st0 + Z.of_nat i * size_of T) with (B + (st0 + Z.of_nat i * size_of T)) by lia. apply P; [apply in_seq; lia|].
           exists c1, b. auto.
    + destruct (append s empty_group 1) as [sb c] eqn:Eb. injection Ea as <- <- <-. injection H as <-.
      destruct (block_step _ _ _ _ _ _ _ _ Eb ltac:(lia) TT N ltac:(lia)) as (S1 & S2 & S3 & S4 & _).
      apply Pad_leaf; [exact HO|lia|congruence|intros p Hp F; apply S4; lia|]. intros _ m _ q1 q2 c1 cp Q1. congruence.
Qed.
End S.
