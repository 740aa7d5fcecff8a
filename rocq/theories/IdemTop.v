(* Serializing an image again: the graph in the image and the one it was made from are the same. *)
From Verif Require Import Base Bytes HeaderModel HeaderSpec HeaderProofs HashModel SerialModel SerialSpec SerialMem SerialRead SerialPost SerialSer SerialFlush SerialTop SerialFinal
  TwinSpec TwinProofs IdemSpec IdemProofs IdemSer.
Local Open Scope Z_scope.

(* ---------------- blocks are not empty ---------------- *)
Definition pos_ev (e : ev) : Prop := match e with Blk _ _ n _ => 0 < n | _ => True end.
Section Pos.
Variables (env : list ty) (R : env_of_reader).
Hypothesis Hty : forall n, 0 < size_of (tyof env n).

Lemma zero_pos a z : zero_at R a = Some z -> Forall pos_ev z.
Proof. unfold zero_at. intros H. destruct (r_ck R); [|injection H as <-; constructor]. dec_inv H. repeat constructor. Qed.
Lemma dec_pos f : forall t a v tr, dec env R f t a = Some (v, tr) -> Forall pos_ev tr.
Proof.
  induction f as [|f IH]; intros t a v tr H; [discriminate H|].
  cbn [dec] in H.
  destruct ((a mod align_of t =? 0) && inside R a (size_of t) (align_of t)) eqn:G; [|discriminate H]. clear G.
  destruct t.
  - dec_inv H. repeat constructor.
  - dec_inv H. repeat constructor.
  - dec_inv H. repeat constructor.
  - dec_inv H. eapply mapM_Forall; [|eassumption]. cbn beta. intros; eapply IH; eauto.
  - dec_inv H; repeat constructor. eapply IH; eauto.
  - dec_inv H. constructor; [exact I|]. eapply IH; eauto.
  - cbv zeta in H. destruct (rptr R (r_rel R) a) as [p|] eqn:Ep; [|discriminate].
    destruct (zero_at R (a + 8)) as [z|] eqn:Ez; [|discriminate]. apply zero_pos in Ez.
    destruct p as [q|].
    + destruct (dec env R f (tyof env n) q) as [[v' tr']|] eqn:E; [|discriminate].
      apply some_pair in H as [_ <-]. constructor; [exact I|]. apply Forall_app. split; [exact Ez|].
      constructor; [apply Hty|eapply IH; eassumption].
    + apply some_pair in H as [_ <-]. constructor; [exact I|exact Ez].
  - cbv zeta in H. destruct (rptr R (r_rel R) a) as [p|] eqn:Ep; [|discriminate].
    destruct (rint R (a + 8) w) as [used|] eqn:Eu; [|discriminate].
    destruct (match r_ck R with None => Some used | Some _ => rint R (a + 8 + Z.of_nat w) w end) as [alloc|]; [|discriminate].
    destruct (alloc =? used)%N; [|discriminate].
    destruct (zero_at R (a + 8 + 2 * Z.of_nat w)) as [z|] eqn:Ez; [|discriminate]. apply zero_pos in Ez.
    match type of H with (if _ then if _ then Some (_, ?o ++ _) else _ else _) = _ => assert (Hown : Forall pos_ev o) end.
    { do 2 (constructor; [exact I|]). apply Forall_app. split; [|exact Ez]. destruct (r_ck R); repeat constructor. }
    destruct (N.eqb_spec used 0).
    + destruct (strict R _) in H; [|discriminate]. apply some_pair in H as [_ <-]. apply Forall_app. split; [exact Hown|].
      destruct p; [|constructor]. destruct ix; repeat constructor.
    + destruct p as [q|]; [|discriminate]. destruct (inside R q _ _) in H; [|discriminate].
      destruct (mapM _ _) as [[vs tr']|] eqn:Em in H; [|discriminate].
      apply some_pair in H as [_ <-]. apply Forall_app. split; [exact Hown|]. apply Forall_app. split.
      * destruct ix; repeat constructor. specialize (Hty n). cbn [pos_ev]. nia.
      * eapply mapM_Forall; [|exact Em]. cbn beta. intros; eapply IH; eauto.
  - dec_inv H; repeat (apply Forall_cons; [exact I|]); try constructor; rewrite ?Forall_app; eauto using zero_pos.
    split; [eauto using zero_pos|repeat constructor].
  - dec_inv H; repeat constructor.
  - cbv zeta in H.
    destruct (rptr R (r_rel R) a) as [pe|] eqn:Ee; [|discriminate].
    destruct (rptr R (r_rel R) (a + 8)) as [pc|] eqn:Ec; [|discriminate].
    destruct (rint R (a + 16) 8) as [size|] eqn:Es; [|discriminate].
    destruct (rint R (a + 24) 8) as [cap|] eqn:Ecap; [|discriminate].
    destruct (rint R (a + 32) 8) as [growth|] eqn:Eg; [|discriminate].
    destruct (zero_at R (a + 40)) as [z|] eqn:Ez; [|discriminate]. apply zero_pos in Ez.
    destruct pc as [c|]; [|discriminate].
    destruct (_ && _) in H; [|discriminate].
    destruct (rdn (r_mem R) c (N.to_nat cap + 9)) as [ctrl|] eqn:Ect; [|discriminate].
    destruct (r_tab R size cap growth ctrl) eqn:Et; [|discriminate].
    remember (Rd a 8 :: Rd (a + 8) 8 :: Rd (a + 16) 8 :: Rd (a + 24) 8 :: Rd (a + 32) 8 ::
                z ++ [Rd c (Z.of_N cap + 9)]) as own eqn:Hown.
    assert (Ho : Forall pos_ev own).
    { subst own. repeat (constructor; [exact I|]). apply Forall_app. split; [exact Ez|]. constructor; [exact I|constructor]. }
    destruct pe as [e|].
    + destruct (_ && inside R e _ _) eqn:Eq in H; [|discriminate].
      destruct (mapM _ _) as [[vs tr']|] eqn:Em in H; [|discriminate].
      apply some_pair in H as [_ <-]. apply Forall_app. split; [exact Ho|].
      eapply mapM_Forall; [|exact Em]. cbn beta. intros i x t' _ Hx.
      destruct (is_full (nth i ctrl EMPTY)); [|apply some_pair in Hx as [_ <-]; constructor].
      dec_inv Hx. eapply IH; eauto.
    + dec_inv H. exact Ho.
Qed.
End Pos.

(* ---------------- correspondence of blocks ---------------- *)
Definition pair_of (c : blk * blk) : Z * Z * Z := match c with ((ix, a, n, _), (_, a', _, _)) => (a, a', if ix then n else 1) end.
Definition pairs (tr tr' : list ev) : list (Z * Z * Z) := map pair_of (combine (blks tr) (blks tr')).

Lemma FOP_combine {X Y} (P : X -> X -> Prop) (Q : Y -> Y -> Prop) : forall l l', ForallOrdPairs P l -> ForallOrdPairs Q l' ->
  ForallOrdPairs (fun c d => P (fst c) (fst d) /\ Q (snd c) (snd d)) (combine l l').
Proof.
  induction l as [|x l IH]; intros [|y l'] H H'; try constructor.
  - inversion H as [|? ? G1 G2]; inversion H' as [|? ? G3 G4]; subst. rewrite Forall_forall in *. intros [x' y'] I. cbn [fst snd].
    split; [apply G1; eapply in_combine_l; exact I|apply G3; eapply in_combine_r; exact I].
  - inversion H; inversion H'; subst. apply IH; assumption.
Qed.
Lemma FOP_map {X Y} (h : X -> Y) (P : Y -> Y -> Prop) l : ForallOrdPairs P (map h l) -> ForallOrdPairs (fun x y => P (h x) (h y)) l.
Proof.
  induction l as [|x l IH]; intros H; [constructor|]. inversion H as [|? ? H1 H2]; subst. constructor; [|apply IH; exact H2].
  rewrite Forall_forall in *. intros y I. apply H1, in_map. exact I.
Qed.

Section Match.
Variables tr tr' : list ev.
Hypothesis Hdis : disjoint_blocks tr.
Hypothesis Hdis' : ForallOrdPairs (fun x y => apart2 (bspan x) (bspan y)) (blks tr').
Hypothesis Hblk : Forall2 (fun x y : blk => match x, y with (ix, _, n, al), (ix', _, n', al') => ix' = ix /\ n' = n /\ al' = al end) (blks tr) (blks tr').
Hypothesis Hpos : Forall pos_ev tr'.

Lemma pair_in c : In c (combine (blks tr) (blks tr')) ->
  exists ix a a' n al, c = ((ix, a, n, al), (ix, a', n, al)) /\ 0 < n /\ In (Blk ix a n al) tr /\ In (Blk ix a' n al) tr'.
Proof.
  intros I. destruct c as [[[[ix a] n] al] [[[ix' a'] n'] al']]. pose proof (Forall2_combine _ _ _ Hblk _ _ I) as (-> & -> & ->).
  exists ix, a, a', n, al. split; [reflexivity|]. pose proof (in_combine_l _ _ _ _ I) as I1. pose proof (in_combine_r _ _ _ _ I) as I2.
  apply (In_blks 1 ltac:(lia)) in I1, I2. split; [|auto]. rewrite Forall_forall in Hpos. exact (Hpos _ I2).
Qed.
Lemma pairs_apart : apart_blocks (pairs tr tr').
Proof.
  intros x y X Y. apply in_map_iff in X as (c & <- & C). apply in_map_iff in Y as (d & <- & D).
  destruct Hdis as [D1 _]. pose proof (FOP_combine _ _ _ _ D1 Hdis') as F.
  destruct (ForallOrdPairs_In F c d C D) as [->|F']; [left; reflexivity|right].
  destruct (pair_in c C) as (ix & a & a' & n & al & -> & N1 & _). destruct (pair_in d D) as (jx & b & b' & k & bl & -> & N2 & _).
  cbn [fst snd bspan pair_of] in *. unfold apart2, apart in *. cbn [fst snd] in *. destruct ix, jx; lia.
Qed.
Lemma pairs_image q o : image (combine (blks tr) (blks tr')) q o -> same_ptr (pairs tr tr') (Some q) (Some o).
Proof.
  intros (ix & a & n & al & a' & n' & al' & I & Q). apply sp_corr. destruct (pair_in _ I) as (ix0 & a0 & a0' & n0 & al0 & E & N1 & _).
  injection E as E1 E2 E3 E4 _ E5 E6 E7. subst ix0 a0 n0 al0 a0' n' al'.
  exists a, a', (if ix then n else 1), (if ix then q - a else 0). split; [apply in_map_iff; eexists; split; [|exact I]; reflexivity|]. destruct ix; lia.
Qed.
Lemma pairs_blk : Forall2 (blk_ok (pairs tr tr')) (blks tr) (blks tr').
Proof.
  assert (G : forall x y, In (x, y) (combine (blks tr) (blks tr')) -> blk_ok (pairs tr tr') x y).
  { intros x y I. destruct (pair_in _ I) as (ix & a & a' & n & al & E & N1 & _). injection E as -> ->. unfold blk_ok.
    destruct ix; [exists a, a', n, 0|exists a, a', 1, 0]; (split; [apply in_map_iff; eexists; split; [|exact I]; reflexivity|lia]). }
  apply Forall2_intro; [|intros x y I; apply G; exact I]. clear - Hblk. revert Hblk. generalize (blks tr), (blks tr'). induction 1; cbn [length]; lia.
Qed.
Lemma pairs_res q : In (Res q) tr -> stray1 (pairs tr tr') q.
Proof.
  intros I b1 b2 ln J. apply in_map_iff in J as (c & E & C). destruct (pair_in c C) as (ix & a & a' & n & al & -> & N1 & T1 & _).
  cbn [pair_of] in E. injection E as <- <- <-. destruct Hdis as [_ D]. pose proof (D _ _ _ _ _ T1 I). destruct ix; lia.
Qed.
Lemma pairs_res2 q : disjoint_blocks tr' -> In (Res q) tr' -> stray2 (pairs tr tr') q.
Proof.
  intros [_ D] I b1 b2 ln J. apply in_map_iff in J as (c & E & C). destruct (pair_in c C) as (ix & a & a' & n & al & -> & N1 & _ & T2).
  cbn [pair_of] in E. injection E as <- <- <-. pose proof (D _ _ _ _ _ T2 I). destruct ix; lia.
Qed.
Lemma nowhere1 q : nowhere (blks tr) (Some q) -> stray1 (pairs tr tr') q.
Proof.
  intros Q b1 b2 ln J. apply in_map_iff in J as (c & E & C). destruct (pair_in c C) as (ix & a & a' & n & al & -> & N1 & T1 & _).
  cbn [pair_of] in E. injection E as <- <- <-. apply (In_blks 1 ltac:(lia)) in T1. specialize (Q _ _ _ _ T1). destruct ix; lia.
Qed.
Lemma nowhere2 q : nowhere (blks tr') (Some q) -> stray2 (pairs tr tr') q.
Proof.
  intros Q b1 b2 ln J. apply in_map_iff in J as (c & E & C). destruct (pair_in c C) as (ix & a & a' & n & al & -> & N1 & _ & T2).
  cbn [pair_of] in E. injection E as <- <- <-. apply (In_blks 1 ltac:(lia)) in T2. specialize (Q _ _ _ _ T2). destruct ix; lia.
Qed.

Lemma mirrors_cond : mirrors tr tr' -> (forall q, ~ In (Res q) tr') -> cond (pairs tr tr') tr tr'.
Proof.
  intros [_ M2] Hres. split; [|exact pairs_blk|exact pairs_res|intros q I; destruct (Hres q I)].
  assert (K : forall p p', pointer_image (combine (blks tr) (blks tr')) p p' -> same_ptr (pairs tr tr') p p').
  { intros [q|] [o|] Q; cbn [pointer_image] in Q; [apply pairs_image; exact Q| |contradiction|constructor].
    apply sp_left. intros b1 b2 ln J. apply in_map_iff in J as (c & E & C). destruct (pair_in c C) as (ix & a & a' & n & al & -> & N1 & _).
    cbn [pair_of] in E. injection E as <- <- <-.
    assert (~ (if ix then a <= q < a + n else q = a)).
    { intros X. apply (Q (a' + (q - a))). exists ix, a, n, al, a', n, al. split; [exact C|]. destruct ix; lia. }
    destruct ix; lia. }
  clear - M2 K. induction M2; constructor; [|assumption]. unfold ptr_ok. apply K. assumption.
Qed.
Lemma alike_cond : alike tr tr' -> disjoint_blocks tr' -> cond (pairs tr tr') tr tr'.
Proof.
  intros [_ M2] D2. split; [|exact pairs_blk|exact pairs_res|intros q; apply pairs_res2; exact D2].
  match type of M2 with Forall2 ?R _ _ => assert (K : forall x y, R x y -> ptr_ok (pairs tr tr') x y) end.
  { intros x y Q. unfold ptr_ok. destruct (snd (fst (fst x))) as [q|], (snd (fst (fst y))) as [o|].
    - destruct Q as [Q|[Q1 Q2]]; [apply pairs_image; exact Q|]. apply sp_stray; [apply nowhere1|apply nowhere2]; assumption.
    - apply sp_left, nowhere1, Q.
    - apply sp_right, nowhere2, Q.
    - constructor. }
  clear - M2 K. induction M2; constructor; auto.
Qed.
End Match.

(* ---------------- pending pointers, header ---------------- *)
Lemma flush_frame B be : forall l s s', (forall e : option Z * Z, In e l -> 0 <= snd e) ->
  foldM (fun p s => resolve be s (fst p) (snd p) false) l s = Ok s' ->
  len s' = len s /\ forall p, ~ in_slots l p -> M B s' (B + p) = M B s (B + p).
Proof.
  induction l as [|[q pos] l IH]; intros s s' N H; cbn [foldM] in H; [injection H as <-; split; reflexivity|].
  apply bind_ok in H as (u & U & H). destruct (IH u s' (fun e I => N e (or_intror I)) H) as [L1 C1]. cbn [fst snd] in U.
  assert (K : len u = len s /\ forall p, ~ (pos <= p < pos + 8) -> M B u (B + p) = M B s (B + p)).
  { assert (Q : forall o, patch_off be s pos o = Ok u -> len u = len s /\ forall p, ~ (pos <= p < pos + 8) -> M B u (B + p) = M B s (B + p)).
    { intros o E. apply (off_inv B) in E as [E _]; [|exact (N _ (or_introl eq_refl))]. apply (patched_touched B) in E as (E1 & _ & E2). split; [exact E1|].
      intros p Hp. apply E2. lia. }
    unfold resolve in U. destruct q as [q|]; [|eapply Q; exact U]. destruct (find_off q (s_offs s)); [eapply Q; exact U|].
    destruct (resolve_range s q); [eapply Q; exact U|]. injection U as <-. split; reflexivity. }
  destruct K as [L2 C2]. split; [lia|]. intros p Hp. rewrite C1, C2; [reflexivity| |].
  - intros X. apply Hp. exists (q, pos). split; [left; reflexivity|exact X].
  - intros (e & I & X). apply Hp. exists e. split; [right; exact I|exact X].
Qed.
Lemma finish_frame hb m b io out B z : serialize_finish hb m b io = Ok out -> (is_mode_enabled m WITH_INTEGRITY = true -> B + Z.of_nat io + 8 <= z) ->
  at_base B out z = at_base B b z.
Proof.
  unfold serialize_finish. destruct (is_mode_enabled m WITH_INTEGRITY); [|intros [= <-]; reflexivity]. unfold buf_write_at. intros H Hz.
  destruct (_ <=? _)%nat eqn:E in H; [|discriminate]. injection H as <-. apply Nat.leb_le in E. rewrite M_put by exact E. rewrite hdr_bytes_length.
  specialize (Hz eq_refl). destruct (_ && _) eqn:F; [lia|reflexivity].
Qed.

Section Again.
Variables (env : list ty) (A : Z) (t : ty).
Hypothesis Ht : types_ok A env t.
Variables (be_src rel : bool) (src : mem).
Hypothesis Hsrc : total_mem src.
Variables (m th : N).
Hypothesis Hwm : writer_mode m.
Hypothesis Hth : (th < W64)%N.
Hypothesis Hroot : Z.of_nat (data_start m) mod align_of t = 0.
Variables (f : nat) (a : Z) (v : val) (tr : list ev).
Hypothesis Hg : graph_at env be_src rel src f t a v tr.
Let be := is_mode_enabled m SERIALIZE_BIG_ENDIAN.

Lemma image_same out B : serialize env be_src rel m th src f t a = Ok out -> Z.of_nat (length out) < 2 ^ 62 -> 0 < B < 2 ^ 62 -> (A | B) ->
  exists blocks, same_graph env (Side be_src rel src) (Side be true (at_base B out)) blocks f t a (B + Z.of_nat (data_start m)).
Proof.
  intros Ho Hl HB HA. destruct (trip_apart env A t Ht be_src rel src Hsrc m th Hwm Hth Hroot f a v tr Hg out Ho Hl) as (_ & _ & K).
  destruct (K B HB HA) as ((tr' & Hi & Hm & Htd & _) & _). clear K. destruct Ht as (Hwf & HA' & Hwt & _). pose proof (proj2 (proj2 Hwf)) as Henv.
  destruct (wf_basic env A Hwf t Hwt) as (Hsz & Hal & _).
  unfold serialize in Ho. fold be in Ho. apply bind_ok in Ho as (root & Er & Ho).
  destruct (serialize_start be_src m th (fun _ => 0%nat) root (Z.to_nat (align_of t))) as [[b io] off] eqn:ES.
  assert (Eoff : off = data_start m).
  { change off with (snd (b, io, off)). rewrite <- ES. apply root_offset; [exact Hwm| |lia|].
    - intros n. apply Nat.mod_0_l. lia.
    - apply Nat2Z.inj. rewrite Nat2Z.inj_mod, Z2Nat.id by lia. exact Hroot. }
  assert (Eb : b = hdr_prefix be_src m th ++ root /\ io = (if is_mode_enabled m WITH_INTEGRITY then integrity_start m else 0%nat)).
  { pose proof ES as ES'. rewrite serialize_start_eq in ES' by exact Hwm.
    rewrite buf_write_append in ES'; [injection ES' as <- <- _; split; reflexivity|].
    right. right. rewrite hdr_prefix_length by exact Hwm. cbn [plus].
    apply Nat2Z.inj. rewrite Nat2Z.inj_mod, Z2Nat.id by lia. exact Hroot. }
  destruct Eb as [Eb Eio]. pose proof (hdr_prefix_length be_src m th Hwm) as Hhl. subst off. set (pos := Z.of_nat (data_start m)) in *.
  set (s0 := St b [] [] []) in *. pose proof (sbytes_len _ _ _ _ Er) as Lr.
  assert (L0 : len s0 = pos + size_of t) by (unfold len, s0, pos; cbn [s_buf]; rewrite Eb, app_length; lia).
  apply bind_ok in Ho as (s & Es & Ho). apply bind_ok in Ho as (s' & Ef & Ho).
  pose proof (ser_pads env A Hwf B HB be_src be rel src f t a pos s0 s Hwt ltac:(lia) ltac:(lia) Es) as (G & C & new & En & In_ & Kp).
  cbn [s0 s_pend app] in En. unfold flush_pending in Ef. rewrite En in Ef.
  assert (Fo : forall p, free (Side be_src rel src) f t a (p - pos) -> pos <= p < pos + size_of t).
  { intros p F. apply (free_in A) in F; [lia|exact Hwt]. }
  destruct (flush_frame B be new s s') as [Lf Cf]; [|exact Ef|].
  { intros e I. destruct (In_ (snd e)) as [F|F]; [exists e; split; [exact I|lia]|apply Fo in F; lia|pose proof (len_nonneg s0); lia]. }
  pose proof (finish_len _ _ _ _ _ Ho) as Lo.
  assert (Co : forall p, pos <= p -> at_base B out (B + p) = M B s' (B + p)).
  { intros p Hp. apply (finish_frame _ _ _ _ _ B (B + p) Ho). intros W. rewrite Eio, W. unfold pos, data_start in Hp. rewrite W in Hp. cbn [orb] in Hp. lia. }
  assert (Lso : len s = Z.of_nat (length out)) by (unfold len in *; lia).
  assert (Map : forall p, 0 <= p < len s -> at_base B out (B + p) <> None).
  { intros p Hp. unfold at_base. replace (B + p <? B) with false by lia. apply nth_error_Some. lia. }
  exists (pairs tr tr'). destruct Hg as (Hd & Hdis & Hfit).
  assert (Hpos : Forall pos_ev tr').
  { eapply dec_pos; [|exact Hi]. intros n. apply (wf_basic env A Hwf), (TwinProofs.tyof_wf env A Henv). }
  assert (Hres : forall q, ~ In (Res q) tr').
  { intros q I. apply dec_bounds in Hi. rewrite Forall_forall in Hi. exact (Hi _ I). }
  assert (Sb : same_but (Side be_src rel src) (Side be true (at_base B out)) a (B + pos) (size_of t) (free (Side be_src rel src) f t a)).
  { eapply (copied_but B be_src be rel src (at_base B out) a (size_of t) root s0 pos (fun p => free (Side be_src rel src) f t a (p - pos)) _ (len s)).
    - exact Er.
    - lia.
    - lia.
    - lia.
    - exact Map.
    - intros p Hp F. rewrite Co by lia. rewrite Cf; [apply C; [lia|exact F]|]. intros X. destruct (In_ p X); [contradiction|lia].
    - intros z Hz. unfold M, at_base, s0. cbn [s_buf]. replace (z <? B) with false by lia. rewrite Eb, nth_error_app2 by (rewrite Hhl; lia). f_equal. rewrite Hhl. unfold pos. lia.
    - intros k _. eapply free_dec; [exact HB|exact Hwt].
    - cbn beta. intros k _ F. replace (pos + k - pos) with k in F by lia. exact F. }
  pose proof (FOP_map _ _ _ (proj2 Htd)) as Hdis'.
  split; [apply pairs_apart; try assumption; apply Hm|]. split; [exact Sb|].
  refine (proj2 (dec_twin env A Henv be_src be rel true src (at_base B out) _ clean_table clean_table (pairs tr tr') f t a (B + pos) v tr tr' Hwt Hd Hi) _ _).
  - apply mirrors_cond; try assumption. apply Hm.
  - split; [exact Sb|]. apply Kp; [unfold LIM; lia|exact Map|]. intros p Hp X. rewrite Co by lia. apply Cf. exact X.
Qed.

Theorem fixpoint out B : serialize env be_src rel m th src f t a = Ok out -> Z.of_nat (length out) < 2 ^ 62 -> 0 < B < 2 ^ 62 -> (A | B) ->
  serialize env be true m th (at_base B out) f t (B + Z.of_nat (data_start m)) = Ok out.
Proof.
  intros Ho Hl HB HA. destruct (image_same out B Ho Hl HB HA) as (blocks & S). rewrite <- Ho. symmetry.
  exact (reproducible env A t _ _ blocks m th f a _ Ht S).
Qed.
End Again.

(* ---------------- equal graphs ---------------- *)
Lemma equal_graphs env A t be1 be2 rel1 rel2 src1 src2 m th f a1 a2 v tr1 tr2 :
  types_ok A env t -> graph_at env be1 rel1 src1 f t a1 v tr1 -> graph_at env be2 rel2 src2 f t a2 v tr2 -> alike tr1 tr2 ->
  same_padding env (Side be1 rel1 src1) (Side be2 rel2 src2) f t a1 a2 ->
  serialize env be1 rel1 m th src1 f t a1 = serialize env be2 rel2 m th src2 f t a2.
Proof.
  intros Ht (D1 & Dis1 & _) (D2 & Dis2 & _) Al P. pose proof Ht as (Hwf & _ & Hwt & _). pose proof (proj2 (proj2 Hwf)) as Henv.
  assert (Hpos : Forall pos_ev tr2).
  { eapply dec_pos; [|exact D2]. intros n. apply (wf_basic env A Hwf), (TwinProofs.tyof_wf env A Henv). }
  assert (Dis2' : ForallOrdPairs (fun x y => apart2 (bspan x) (bspan y)) (blks tr2)).
  { destruct Dis2 as [Dis2 _]. clear - Dis2. induction Dis2 as [|x l H _ IH]; constructor; [|exact IH]. rewrite Forall_forall in *. intros [[[jx b] k] bl] I.
    specialize (H _ I). destruct x as [[[ix a] n] al]. exact H. }
  apply (reproducible env A t (Side be1 rel1 src1) (Side be2 rel2 src2) (pairs tr1 tr2) m th f a1 a2 Ht).
  split; [apply pairs_apart; try assumption; apply Al|]. split; [apply P|].
  refine (proj2 (dec_twin env A Henv be1 be2 rel1 rel2 src1 src2 _ clean_table clean_table (pairs tr1 tr2) f t a1 a2 v tr1 tr2 Hwt D1 D2) _ P).
  apply alike_cond; try assumption. apply Al.
Qed.
