(* The serializer writes an image of the source graph: by induction on the graph. *)
From Verif Require Import Base Bytes HeaderModel HashModel SerialModel SerialSpec SerialMem SerialPost.
Local Open Scope Z_scope.

Lemma nth_split_skip {X} i (l : list X) d : (i < length l)%nat -> firstn 1 (skipn i l) = [nth i l d].
Proof.
  revert i; induction l as [|x l IH]; intros [|i] H; cbn in *; try lia; [reflexivity|]. apply IH. lia.
Qed.
Lemma nth_firstn_lt {X} k i (l : list X) : (i < k)%nat -> nth_error (firstn k l) i = nth_error l i.
Proof.
  revert i l; induction k as [|k IH]; intros [|i] [|x l] H; cbn; try lia; auto. apply IH. lia.
Qed.

Section Main.
Variable env : list ty.
Variable A : Z.
Hypothesis Hwf : wf_env A env.
Variable B : Z.
Hypothesis HB : 0 < B < 2 ^ 62.
Hypothesis HA : (A | B).
Variables be_src be rel : bool.
Variable src : mem.
Definition total : Prop := forall z, exists b, src z = Some b /\ (b < 256)%N.
Hypothesis Hsrc : total.
Variable tab : N -> N -> N -> list N -> bool.
Definition tab_empty : Prop :=
  forall size growth ctrl, tab size 0 growth ctrl = true -> ctrl = firstn 9 empty_group.
Hypothesis Htab : tab_empty.

Definition src_ptr (a : Z) : option (option Z) :=
  let? l := rdn src a 8 in Some (ptr_of rel a (to_int be_src l)).
Definition Rs : env_of_reader := Reader be_src src src_ptr rel None tab.
Definition Rt (m : mem) (hi : Z) : env_of_reader :=
  Reader be m (fun _ => Some None) true (Some (B, hi)) tab.
Definition Dt (f : nat) (t : ty) (pos : Z) : decoder val := fun m hi => dec env (Rt m hi) f t (B + pos).

Lemma Dt_framed f t pos : framed (Dt f t pos).
Proof.
  intros m m' hi hi' x tr H Ha Hh. unfold Dt in *. eapply dec_frame; [|exact H|exact Ha].
  repeat split; cbn; auto.
Qed.

Lemma tyof_wf n : wf A (tyof env n).
Proof.
  unfold tyof. destruct Hwf as (_ & _ & H). destruct (nth_in_or_default n env (TInt 1)) as [Hi|E].
  - rewrite Forall_forall in H. now apply H.
  - rewrite E. constructor. now left.
Qed.
Lemma wf_basic t : wf A t -> 0 < size_of t /\ 0 < align_of t /\ (align_of t | A) /\ (align_of t | size_of t).
Proof.
  destruct Hwf as (H8 & HA0 & _). intros H. destruct H; cbn [size_of align_of].
  1,2: destruct H as [<-|[<-|[<-|[<-|[]]]]]; (split; [lia|]); (split; [lia|]); split; try apply Z.divide_refl;
       (eapply Z.divide_trans; [|exact H8]); [exists 8|exists 4|exists 2|exists 1]; reflexivity.
  all: try (destruct H as [Ha1 Ha2]; repeat split; (assumption || lia)).
  - repeat split; try lia; [exact H8|exists 1; reflexivity].
  - destruct H as [Ha1 Ha2]. repeat split; try assumption.
    assert (0 <= size_of t); [|lia]. clear - H1. induction H1; cbn; try lia.
  - repeat split; try lia; [exact H8|exists 2; reflexivity].
  - destruct H as [<-|[<-|[]]]; repeat split; try lia; try exact H8; [exists 3|exists 4]; reflexivity.
  - repeat split; try lia; [exact H8|exists 2; reflexivity].
  - repeat split; try lia; [exact H8|exists 2; reflexivity].
  - repeat split; try lia; [exact H8|exists 6; reflexivity].
Qed.

Lemma src_rdn q n : exists l, rdn src q n = Some l /\ bytes_ok l /\ length l = n.
Proof.
  revert q; induction n as [|n IH]; intros q; cbn [rdn].
  - exists []. repeat split. constructor.
  - destruct (Hsrc q) as (b & Eb & Hb). destruct (IH (q + 1)) as (l & El & Hl & Hn).
    rewrite Eb, El. exists (b :: l). repeat split; [constructor; assumption|cbn; congruence].
Qed.
Lemma rdn_bytes q n l : rdn src q n = Some l -> bytes_ok l.
Proof. intros H. destruct (src_rdn q n) as (l' & E & Hb & _). congruence. Qed.
Lemma sint_ok a w x : rint Rs a w = Some x -> sint be_src src a w = Ok x /\ (x < 256 ^ N.of_nat w)%N.
Proof.
  unfold rint, sint, sbytes. cbn [Rs r_mem r_be]. intros H. dec_inv H. cbn [bind].
  split; [reflexivity|]. rewrite <- (rdn_length _ _ _ _ Heqo). apply to_int_bound. eapply rdn_bytes; eauto.
Qed.
Lemma sptr_ok a p : rptr Rs rel a = Some p -> sptr be_src rel src a = Ok p.
Proof.
  unfold rptr, sptr. intros H. dec_inv H. apply sint_ok in Heqo as [-> _]. reflexivity.
Qed.
Lemma src_ptr_ok a p : src_ptr a = Some p -> sptr be_src rel src a = Ok p.
Proof.
  unfold src_ptr, sptr, sint, sbytes. intros H. dec_inv H. reflexivity.
Qed.
Lemma sbytes_ok q n : exists d, sbytes src q n = Ok d /\ rdn src q n = Some d /\ length d = n.
Proof.
  destruct (src_rdn q n) as (l & E & _ & Hl). exists l. unfold sbytes. rewrite E. auto.
Qed.

Lemma B_mod al : (al | A) -> B mod al = 0.
Proof.
  intros H. destruct (Z.eq_dec al 0) as [->|Hn].
  - destruct H as [k H]. destruct HA as [j Hj]. replace B with 0 by lia. reflexivity.
  - apply Z.mod_divide; [exact Hn|]. eapply Z.divide_trans; eauto.
Qed.
Lemma addr_mod al pos : 0 < al -> (al | A) -> pos mod al = 0 -> (B + pos) mod al = 0.
Proof.
  intros H0 H Hp. rewrite Z.add_mod by lia. rewrite (B_mod _ H), Hp. reflexivity.
Qed.
Lemma head t pos m hi : wf A t -> 0 <= pos -> pos mod align_of t = 0 -> B + pos + size_of t <= hi ->
  ((B + pos) mod align_of t =? 0) && inside (Rt m hi) (B + pos) (size_of t) (align_of t) = true.
Proof.
  intros Ht Hp Hm Hh. destruct (wf_basic t Ht) as (H1 & H2 & H3 & _).
  pose proof (addr_mod _ _ H2 H3 Hm) as E. unfold inside. cbn [Rt r_ck]. rewrite E. lia.
Qed.

Lemma rd_agree own (m1 m2 : mem) a w n l : agree own m1 m2 -> In (Rd a n) own -> Z.of_nat w <= n ->
  rdn m1 a w = Some l -> rdn m2 a w = Some l.
Proof. intros H Hi Hn E. rewrite <- E. apply rdn_ext. intros z Hz. symmetry. eapply H; [eauto|lia]. Qed.

Lemma copied_rdn (s : st) a pos size p n : (forall z, 0 <= z < size -> M B s (B + pos + z) = src (a + z)) ->
  0 <= p -> p + Z.of_nat n <= size -> rdn (M B s) (B + (pos + p)) n = rdn src (a + p) n.
Proof.
  intros H Hp Hn.
  assert (G : forall k q, 0 <= q -> q + Z.of_nat k <= size -> rdn (M B s) (B + pos + q) k = rdn src (a + q) k).
  { induction k as [|k IH]; intros q Hq Hk; [reflexivity|]. cbn [rdn]. rewrite H by lia.
    rewrite <- !Z.add_assoc. rewrite !Z.add_assoc. replace (B + pos + q + 1) with (B + pos + (q + 1)) by lia.
    replace (a + q + 1) with (a + (q + 1)) by lia. rewrite IH by lia. reflexivity. }
  rewrite Z.add_assoc. now apply G.
Qed.

Lemma rdD_inv p n m hi l t : rdD B p n m hi = Some (l, t) ->
  rdn m (B + p) n = Some l /\ t = [Rd (B + p) (Z.of_nat n)].
Proof. unfold rdD. destruct (rdn m (B + p) n); intros H; [|discriminate]. split; congruence. Qed.

Definition good (f : nat) (t : ty) : Prop :=
  forall a pos s v tr, 0 <= pos -> pos mod align_of t = 0 -> pos + size_of t <= len s -> inv s ->
  (forall z, 0 <= z < size_of t -> M B s (B + pos + z) = src (a + z)) ->
  dec env Rs f t a = Some (v, tr) ->
  exists s', ser env be_src be rel src f t a pos s = Ok s' /\
    Post B be (seg B pos (size_of t)) tr (Dt f t pos) v s s'.

Ltac start H :=
  intros a pos s v tr Hp Hm Hl Hinv Hc H; cbn [dec] in H;
  match type of H with (if ?c then _ else None) = _ => destruct c; [|discriminate H] end.

Lemma good_int f w : wf A (TInt w) -> good (S f) (TInt w).
Proof.
  intros Ht. start H. dec_inv H. cbn [size_of] in *.
  apply sint_ok in Heqo as [E Hn]. cbn [ser]. rewrite E. cbn [bind].
  destruct (patch_int_ok B be s pos w n Hp Hl) as (s' & E' & P). exists s'. split; [exact E'|].
  pose proof (wf_basic _ Ht) as (Hs & _). cbn [size_of] in Hs.
  pose proof (Post_write B HB be s s' pos (of_int be w n)) as W. rewrite of_int_length in W.
  specialize (W ltac:(lia) P).
  eapply Post_tr; [| | |eapply Post_map; [exact W|]]; try reflexivity.
  intros HL m hi t Hh. intros D. apply rdD_inv in D as [D ->]. unfold Dt. cbn [dec].
  rewrite head by (assumption || (cbn [size_of]; lia)).
  unfold rint. cbn [Rt r_mem r_be]. rewrite D. now rewrite to_of_int.
Qed.
Lemma good_raw f w : wf A (TRaw w) -> good (S f) (TRaw w).
Proof.
  intros Ht. start H. dec_inv H. cbn [size_of] in *. cbn [ser]. exists s. split; [reflexivity|].
  pose proof (wf_basic _ Ht) as (Hs & _). cbn [size_of] in Hs.
  pose proof (copied_rdn s a pos _ 0 w Hc ltac:(lia) ltac:(lia)) as R0. rewrite !Z.add_0_r in R0.
  cbn [Rs r_mem] in Heqo. rewrite Heqo in R0.
  pose proof (Post_read B HB be s pos w l ltac:(lia) R0) as W.
  eapply Post_tr; [| | |eapply Post_map; [exact W|]]; try reflexivity.
  intros HL m hi t Hh. intros D. apply rdD_inv in D as [D ->]. unfold Dt. cbn [dec].
  rewrite head by (assumption || (cbn [size_of]; lia)).
  cbn [Rt r_mem]. now rewrite D.
Qed.

Lemma find_off_in p l o : find_off p l = Some o -> In (p, o) l.
Proof.
  unfold find_off. intros H. destruct (find _ l) as [[q o']|] eqn:E; [|discriminate].
  apply find_some in E as [Hi Hq]. cbn in *. injection H as <-. replace p with q by lia. exact Hi.
Qed.
Lemma pred_range_in p (l : list (Z * Z * Z)) acc r :
  fold_left (fun acc r => if fst (fst r) <=? p
                          then match acc with
                               | Some q => if fst (fst q) <? fst (fst r) then Some r else acc
                               | None => Some r
                               end
                          else acc) l acc = Some r -> acc = Some r \/ In r l.
Proof.
  revert acc; induction l as [|x l IH]; intros acc H; cbn in H; [now left|].
  apply IH in H as [H|H]; [|right; now right].
  destruct (fst (fst x) <=? p); [|now left].
  destruct acc as [q|]; [destruct (fst (fst q) <? fst (fst x))|]; try (right; left; congruence). now left.
Qed.
Lemma resolve_range_in s p o : resolve_range s p = Some o ->
  exists b st n, In (b, st, n) (s_rngs s) /\ b <= p < b + n /\ o = st + p - b.
Proof.
  unfold resolve_range, pred_range. intros H.
  destruct (fold_left _ _ None) as [[[b st] n]|] eqn:E; [|discriminate].
  apply pred_range_in in E as [E|E]; [discriminate|]. unfold in_range in H. cbn [fst snd] in H.
  destruct ((b <=? p) && (p <? b + n)) eqn:Er; [|discriminate]. injection H as <-.
  exists b, st, n. repeat split; auto; lia.
Qed.
Lemma resolves_bound s q o : tab_inv s -> resolves s q o -> 0 <= o <= len s.
Proof.
  intros [I1 I2] [H|(b & st & n & H & Hr & ->)]; [eauto|].
  apply I2 in H. lia.
Qed.

Lemma good_ptr f n : good (S f) (TPtr n).
Proof.
  start H. dec_inv H. cbn [size_of align_of] in *. cbn [Rs r_ptr] in Heqo. apply src_ptr_ok in Heqo.
  cbn [ser]. rewrite Heqo. cbn [bind].
  (* every branch patches the slot and maybe extends the pending list *)
  assert (K : forall x pend s',
    patched B s s' pos (of_int be 8 x) -> (x < 256 ^ 8)%N ->
    (len s <= LIM -> slot_state B be (St (s_buf s') (s_offs s') (s_rngs s') (s_pend s ++ pend)) o (B + pos)) ->
    (pend = [] \/ pend = [(o, pos)]) ->
    Post B be (seg B pos 8) [PtrAt a o (size_of (tyof env n)) (align_of (tyof env n))] (Dt (S f) (TPtr n) pos)
      VPtr s (St (s_buf s') (s_offs s') (s_rngs s') (s_pend s ++ pend))).
  { intros x pend s' P Hx Hst Hpd. pose proof P as (L & Eo & Er & Ep & Hmm).
    split. { split; [unfold len in *; cbn; lia|]. intros z Hz Hn.
             change (M B s' z = M B s z). eapply patched_out; [exact P|]. rewrite of_int_length.
             intros Hz'. apply Hn. unfold seg. lia. }
    intros HL. change (len s' <= LIM) in HL.
    exists [PtrAt (B + pos) None (size_of (tyof env n)) (align_of (tyof env n))].
    split. { unfold Dt. cbn [dec]. rewrite head; cbn [size_of align_of]; try assumption; [reflexivity|constructor|].
             change (B + pos + 8 <= B + len s'). lia. }
    split. { constructor; [|constructor]. cbn. split; [reflexivity|]. split; [lia|]. left. intros z Hz. exact Hz. }
    split. { split; repeat constructor. }
    split; [constructor|]. cbn [ptrs flat_map app].
    split. { constructor; [|constructor]. split; [reflexivity|]. split; [reflexivity|]. apply Hst. lia. }
    cbn [s_offs s_rngs s_pend]. rewrite Eo, Er.
    split; [apply (adds_refl B HB)|]. split; [apply (adds_refl B HB)|].
    exists pend. split; [reflexivity|]. destruct Hpd as [->| ->]; [constructor|].
    constructor; [|constructor]. eexists _, _. split; [left; reflexivity|]. cbn. auto. }
  assert (K0 : forall x s', patched B s s' pos (of_int be 8 x) -> (x < 256 ^ 8)%N ->
    (len s <= LIM -> slot_state B be s' o (B + pos)) ->
    Post B be (seg B pos 8) [PtrAt a o (size_of (tyof env n)) (align_of (tyof env n))] (Dt (S f) (TPtr n) pos)
      VPtr s s').
  { intros x s' P Hx Hst. pose proof P as (L & Eo & Er & Ep & Hmm).
    specialize (K x [] s' P Hx). rewrite app_nil_r, <- Ep in K. destruct s' as [b1 o1 r1 p1]. cbn [s_buf s_offs s_rngs s_pend] in *.
    apply K; auto. }
  assert (Kw : forall x s', patched B s s' pos (of_int be 8 x) -> (x < 256 ^ 8)%N ->
     word B be s' (B + pos) = Some (ptr_of true (B + pos) x)).
  { intros x s' P Hx. unfold word. destruct (patched_same_int B be s s' pos 8 x P) as [E1 E2]; [exact Hx|].
    rewrite E1, E2. reflexivity. }
  assert (Kr : forall q y, o = Some q -> resolves s q y ->
     exists s', patch_off be s pos (y - pos) = Ok s' /\
       Post B be (seg B pos 8) [PtrAt a o (size_of (tyof env n)) (align_of (tyof env n))] (Dt (S f) (TPtr n) pos)
      VPtr s s').
  { intros q y Eq Hr. destruct (patch_off_ok B be s pos (y - pos) Hp Hl) as (s' & E & P).
    exists s'. split; [exact E|]. pose proof (u_of_z_bound (y - pos)) as Hu.
    apply (K0 _ _ P Hu). intros HL. rewrite Eq. cbn [slot_state]. left. exists y.
    split.
    - rewrite (Kw _ _ P Hu). f_equal. pose proof (resolves_bound _ _ _ (Hinv HL) Hr) as Hb.
      apply (ptr_word B HB); lia.
    - destruct P as (_ & Eo & Er & _). unfold resolves in *. now rewrite Eo, Er. }
  unfold resolve. destruct o as [q|].
  - destruct (find_off q (s_offs s)) as [y|] eqn:Ef.
    { apply (Kr q y eq_refl). left. now apply find_off_in. }
    destruct (resolve_range s q) as [y|] eqn:Eg.
    { apply (Kr q y eq_refl). right. destruct (resolve_range_in _ _ _ Eg) as (b & st & k & H1 & H2 & H3). eauto 8. }
    destruct (patch_off_ok B be s pos NULLPTR_OFFSET Hp Hl) as (s' & E & P). rewrite E. cbn [bind].
    eexists. split; [reflexivity|]. pose proof P as (_ & Eo & Er & Ep & _). rewrite Ep.
    pose proof (u_of_z_bound NULLPTR_OFFSET) as Hu.
    apply (K _ [(Some q, pos)] _ P Hu); [|now right]. intros HL. cbn [slot_state]. right.
    split. { change (word B be s' (B + pos) = Some None). rewrite (Kw _ _ P Hu). reflexivity. }
    cbn [s_pend]. apply in_or_app. right. left. f_equal. lia.
  - destruct (patch_off_ok B be s pos NULLPTR_OFFSET Hp Hl) as (s' & E & P). exists s'. split; [exact E|].
    pose proof (u_of_z_bound NULLPTR_OFFSET) as Hu.
    apply (K0 _ _ P Hu). intros HL. cbn [slot_state]. rewrite (Kw _ _ P Hu). reflexivity.
Qed.

Lemma mod_add_dvd al pos o : 0 < al -> pos mod al = 0 -> (al | o) -> (pos + o) mod al = 0.
Proof.
  intros H0 Hp [k ->]. rewrite Z.add_mod by lia. rewrite Hp, Z_mod_mult. reflexivity.
Qed.
Lemma mod_dvd al al' pos : 0 < al -> 0 < al' -> pos mod al' = 0 -> (al | al') -> pos mod al = 0.
Proof.
  intros H0 H1 Hp Hd. apply Z.mod_divide; [lia|]. eapply Z.divide_trans; [exact Hd|].
  apply Z.mod_divide; [lia|exact Hp].
Qed.

Lemma good_agg f fs sz al : wf A (TAgg fs sz al) -> (forall t, wf A t -> good f t) -> good (S f) (TAgg fs sz al).
Proof.
  intros Ht IH. start H. cbn [size_of align_of] in *.
  destruct (mapM _ fs) as [[l tr0]|] eqn:Em; [|discriminate]. apply some_pair in H as [<- <-]. cbn [ser].
  inversion Ht as [| | |? ? ? [Hal1 Hal2] Hsz Hd Hfs Hap| | | | | | |]; subst.
  destruct (Post_list B HB be (fun ft s => ser env be_src be rel src f (snd ft) (a + fst ft) (pos + fst ft) s)
     (fun ft => dec env Rs f (snd ft) (a + fst ft)) (fun ft => Dt f (snd ft) (pos + fst ft))
     (fun ft => a + fst ft) (fun ft => pos + fst ft) (fun ft => size_of (snd ft)) src (len s) fs)
    with (s := s) (xs := l) (tr := tr0) as (s' & E & P); try assumption.
  - intros; apply Dt_framed.
  - intros [o t] Hi. cbn [fst snd]. destruct (Hfs _ _ Hi) as (_ & H1 & H2 & _). lia.
  - clear - Hap. induction Hap as [|x l H1 H2 IH]; constructor; [|exact IH].
    eapply Forall_impl; [|exact H1]. intros [o t] H. unfold apart in *. cbn in *. lia.
  - intros [o t] Hi s1 x tr1 HL Hi1 Hc1 Hd1. cbn [fst snd] in *.
    destruct (Hfs _ _ Hi) as (Hwt & H1 & H2 & H3 & H4). pose proof (wf_basic _ Hwt) as (Hs1 & Ha1 & _).
    apply IH; auto; try lia.
    apply mod_add_dvd; auto. eapply mod_dvd; [| |exact Hm|exact H4]; lia.
  - lia.
  - intros [o t] Hi z Hz. cbn [fst snd] in *. destruct (Hfs _ _ Hi) as (_ & H1 & H2 & _).
    rewrite Z.add_assoc, <- !(Z.add_assoc _ o z). apply Hc. lia.
  - exists s'. split; [exact E|].
    eapply Post_map; [eapply (Post_mono B HB be); [|exact P]|].
    + intros z ([o t] & Hi & Hz). destruct (Hfs _ _ Hi) as (_ & H1 & H2 & _). unfold seg in *. cbn [fst snd] in Hz. lia.
    + intros HL m hi t Hh Hd'. unfold Dt in *. cbn [dec].
      rewrite head by (assumption || (cbn [size_of]; lia)).
      replace (mapM (fun ft => dec env (Rt m hi) f (snd ft) (B + pos + fst ft)) fs) with (Some (l, t)); [reflexivity|].
      rewrite <- Hd'. clear. induction fs as [|x fs IH]; [reflexivity|]. cbn [mapM]. rewrite IH.
      now rewrite Z.add_assoc.
Qed.

(* a flag byte followed by an object *)
Lemma Post_flag f t pos off sz al s s1 s2 (b : N) v tr (P0 : Post B be (seg B pos 1) [] (rdD B pos 1) [b] s s1) :
  1 <= off -> 0 < size_of t -> off + size_of t <= sz -> pos + sz <= len s ->
  Post B be (seg B (pos + off) (size_of t)) tr (Dt f t (pos + off)) v s1 s2 ->
  forall (D : decoder val) v',
  (forall m hi t1, len s2 <= LIM -> B + len s <= hi -> rdn m (B + pos) 1 = Some [b] ->
     dec env (Rt m hi) f t (B + pos + off) = Some (v, t1) -> D m hi = Some (v', Rd (B + pos) 1 :: t1)) ->
  Post B be (seg B pos sz) (Rd al 1 :: tr) D v' s s2.
Proof.
  intros Ho Hs0 Hs Hl P1 D v' HD.
  eapply Post_tr; [| | |eapply Post_map;
    [eapply (Post_seq B HB be (fun (x : list N) (y : val) => (x, y)) (seg B pos 1) (seg B (pos + off) (size_of t)));
      [apply rdD_framed| | | | |exact P0|exact P1]|]]; try reflexivity.
  - intros z Hz. unfold seg in *. lia.
  - intros z Hz. unfold seg in *. lia.
  - intros z Hz. unfold seg in *. lia.
  - intros z Hz. unfold seg in *. lia.
  - intros HL m hi t0 Hh H. cbv beta in H.
    destruct (rdD B pos 1 m hi) as [[l t1]|] eqn:E1; [|discriminate].
    destruct (Dt f t (pos + off) m hi) as [[y t2]|] eqn:E2; [|discriminate].
    apply some_pair in H as [H <-]. cbv beta in H. assert (l = [b]) by congruence. assert (y = v) by congruence. subst l y. apply rdD_inv in E1 as [E1 ->].
    unfold Dt in E2. rewrite Z.add_assoc in E2. apply HD; auto.
Qed.
Lemma to_int_1 b0 x : to_int b0 [x] = x.
Proof. unfold to_int. destruct b0; cbn [rev app le_dec]; lia. Qed.
Lemma of_int_1 b0 x : (x < 256)%N -> of_int b0 1 x = [x].
Proof. intros H. unfold of_int. destruct b0; cbn [le_enc rev app]; now rewrite N.mod_small by lia. Qed.
Lemma byte_src a b : rint Rs a 1 = Some b -> rdn src a 1 = Some [b] /\ (b < 256)%N.
Proof.
  unfold rint. cbn [Rs r_mem r_be]. destruct (rdn src a 1) as [l|] eqn:E; [|discriminate]. intros H.
  pose proof (rdn_length _ _ _ _ E) as L. pose proof (rdn_bytes _ _ _ E) as Hb.
  destruct l as [|x [|]]; try discriminate. rewrite to_int_1 in H. injection H as <-.
  split; [reflexivity|]. now inversion Hb.
Qed.
Lemma byte_tgt m hi a b : rdn m a 1 = Some [b] -> rint (Rt m hi) a 1 = Some b.
Proof. intros H. unfold rint. cbn [Rt r_mem r_be]. rewrite H. now rewrite to_int_1. Qed.

Lemma good_opt f t off sz al : wf A (TOpt t off sz al) -> (forall t, wf A t -> good f t) ->
  good (S f) (TOpt t off sz al).
Proof.
  intros Ht IH. start H. cbn [size_of align_of] in *.
  inversion Ht as [| | | |? ? ? ? [Hal1 Hal2] Hd Hwt Ho Hos Hdo Hda| | | | | |]; subst.
  pose proof (wf_basic _ Hwt) as (Hs1 & Ha1 & _).
  destruct (rint Rs a 1) as [b|] eqn:Eb; [|discriminate].
  cbn [ser]. destruct (sint_ok _ _ _ Eb) as [Es _]. rewrite Es. cbn [bind].
  destruct (byte_src _ _ Eb) as [R1 _].
  pose proof (copied_rdn s a pos _ 0 1 Hc ltac:(lia) ltac:(lia)) as R0. rewrite !Z.add_0_r, R1 in R0.
  pose proof (Post_read B HB be s pos 1 [b] ltac:(lia) R0) as W.
  destruct (b =? 0)%N eqn:E0.
  - apply some_pair in H as [<- <-]. exists s. split; [reflexivity|].
    eapply Post_tr; [| | |eapply Post_map; [eapply (Post_mono B HB be); [|exact W]|]]; try reflexivity.
    + intros z Hz. unfold seg in *. lia.
    + intros HL m hi t0 Hh D. apply rdD_inv in D as [D ->]. unfold Dt. cbn [dec].
      rewrite head by (assumption || (cbn [size_of]; lia)).
      rewrite (byte_tgt _ _ _ _ D), E0. reflexivity.
  - destruct (b =? 1)%N eqn:E1; [|discriminate].
    destruct (dec env Rs f t (a + off)) as [[v1 t1]|] eqn:Ed; [|discriminate].
    apply some_pair in H as [<- <-].
    destruct (IH t Hwt (a + off) (pos + off) s v1 t1) as (s' & E & P); auto; try lia.
    { apply mod_add_dvd; auto. eapply mod_dvd; [| |exact Hm|exact Hda]; lia. }
    { intros z Hz. rewrite Z.add_assoc, <- !(Z.add_assoc _ off z). apply Hc. lia. }
    exists s'. split; [exact E|].
    eapply Post_flag; [exact W|exact Ho|exact Hs1|exact Hos|exact Hl|exact P|].
    intros m hi t2 HL Hh R Hd2. unfold Dt. cbn [dec].
    rewrite head by (assumption || (cbn [size_of]; lia)).
    rewrite (byte_tgt _ _ _ _ R), E0, E1, Hd2. reflexivity.
Qed.

Lemma good_var f ts off sz al : wf A (TVar ts off sz al) -> (forall t, wf A t -> good f t) ->
  good (S f) (TVar ts off sz al).
Proof.
  intros Ht IH. start H. cbn [size_of align_of] in *.
  inversion Ht as [| | | | |? ? ? ? [Hal1 Hal2] Hd Ho Hsz Hlen Hts| | | | |]; subst.
  destruct (rint Rs a 1) as [b|] eqn:Eb; [|discriminate].
  destruct (nth_error ts (N.to_nat b)) as [t|] eqn:Et; [|discriminate].
  destruct (dec env Rs f t (a + off)) as [[v1 t1]|] eqn:Ed; [|discriminate].
  apply some_pair in H as [<- <-].
  destruct (Hts t (nth_error_In _ _ Et)) as (Hwt & Hos & Hdo & Hda).
  pose proof (wf_basic _ Hwt) as (Hs1 & Ha1 & _).
  cbn [ser]. destruct (sint_ok _ _ _ Eb) as [Es _]. rewrite Es. cbn [bind].
  destruct (byte_src _ _ Eb) as [R1 Hb].
  destruct (patch_int_ok B be s pos 1 b Hp ltac:(lia)) as (s1 & E1 & P1). rewrite E1. cbn [bind]. rewrite Et.
  pose proof (of_int_1 be b Hb) as E1b. rewrite E1b in P1.
  pose proof (Post_write B HB be s s1 pos [b] ltac:(cbn; lia) P1) as W. cbn [length] in W.
  change (Z.of_nat 1) with 1 in W.
  pose proof P1 as (L1 & _).
  destruct (IH t Hwt (a + off) (pos + off) s1 v1 t1) as (s' & E & P); auto; try lia.
  { apply mod_add_dvd; auto. eapply mod_dvd; [| |exact Hm|exact Hda]; lia. }
  { eapply Post_inv; [exact HB|exact W|exact Hinv]. }
  { intros z Hz. erewrite patched_out; [|exact P1|cbn [length]; lia].
    rewrite Z.add_assoc, <- !(Z.add_assoc _ off z). apply Hc. lia. }
  exists s'. split; [exact E|].
  eapply Post_flag; [exact W|exact Ho|exact Hs1|exact Hos|exact Hl|exact P|].
  intros m hi t2 HL Hh R Hd2. unfold Dt. cbn [dec].
  rewrite head by (assumption || (cbn [size_of]; lia)).
  rewrite (byte_tgt _ _ _ _ R), Et, Hd2. reflexivity.
Qed.

(* the bytes of an appended copy *)
Lemma append_ok s q n al : 0 <= al -> 0 <= n ->
  exists d s1 start, sbytes src q (Z.to_nat n) = Ok d /\ rdn src q (Z.to_nat n) = Some d /\
    append s d al = (s1, start) /\
    len s <= start /\ len s1 = start + n /\ (0 < al -> start mod al = 0) /\
    s_offs s1 = s_offs s /\ s_rngs s1 = s_rngs s /\ s_pend s1 = s_pend s /\
    (forall z, z < B + len s -> M B s1 z = M B s z) /\
    (forall z, 0 <= z < n -> M B s1 (B + start + z) = src (q + z)).
Proof.
  intros Hal Hn. destruct (sbytes_ok q (Z.to_nat n)) as (d & Ed & Er & Hd).
  pose proof (append_spec B s d al Hal) as Ha. destruct (append s d al) as [s1 start] eqn:Ea.
  destruct Ha as (H1 & H2 & H3 & _ & H4 & H5 & H6 & H7 & H8).
  exists d, s1, start. rewrite Hd in H2. rewrite Z2Nat.id in H2 by exact Hn.
  repeat (split; [assumption|]).
  intros z Hz. rewrite H8 by lia. replace (Z.to_nat (B + start + z - B - start)) with (Z.to_nat z) by lia.
  rewrite <- (rdn_nth _ _ _ _ _ Er) by lia. f_equal. lia.
Qed.

(* state s0 extended by a block and then patched at pos *)
Definition ext (pos size : Z) (s0 s2 : st) : Prop :=
  len s0 <= len s2 /\ s_offs s2 = s_offs s0 /\ s_rngs s2 = s_rngs s0 /\ s_pend s2 = s_pend s0 /\
  forall z, z < B + len s0 -> ~ seg B pos size z -> M B s2 z = M B s0 z.
Lemma ext_patch pos size s0 s1 s2 p d : ext pos size s0 s1 -> patched B s1 s2 p d ->
  pos <= p -> p + Z.of_nat (length d) <= pos + size -> ext pos size s0 s2.
Proof.
  intros (L & Eo & Er & Ep & Hm) P H1 H2. pose proof P as (L' & Eo' & Er' & Ep' & _).
  split; [lia|]. split; [congruence|]. split; [congruence|]. split; [congruence|].
  intros z Hz Hn. erewrite patched_out; [|exact P|]; [now apply Hm|].
  intros Hz'. apply Hn. unfold seg. lia.
Qed.
Lemma ext_refl pos size s : ext pos size s s.
Proof. repeat split; auto; lia. Qed.
Lemma ext_append pos size s s1 start n : len s <= start -> len s1 = start + n -> 0 <= n ->
  s_offs s1 = s_offs s -> s_rngs s1 = s_rngs s -> s_pend s1 = s_pend s ->
  (forall z, z < B + len s -> M B s1 z = M B s z) -> ext pos size s s1.
Proof. intros. repeat split; auto; lia. Qed.

(* an object whose decoder reads only its own events *)
Lemma Post_leaf_r tro (D : decoder val) v pos size s0 s2 own rngs :
  pos + size <= len s0 -> ext pos size s0 s2 ->
  blks tro = [] -> ptrs tro = [] ->
  adds (s_rngs s0) rngs (rngs_of B [] (spares tro)) ->
  (len s2 <= LIM -> Forall (fun e => match e with Rd a n => span_in B (seg B pos size) (len s0) (len s2) a n | _ => False end) own) ->
  ForallOrdPairs apart2 (spans own) ->
  (forall m hi, len s2 <= LIM -> agree own (M B s2) m -> B + len s2 <= hi -> D m hi = Some (v, own)) ->
  Post B be (seg B pos size) tro D v s0 (St (s_buf s2) (s_offs s2) rngs (s_pend s2)).
Proof.
  intros Hl (L & Eo & Er & Ep & Hm) Hb Hp Hr Hown Hap HD.
  rewrite <- (app_nil_r tro).
  set (s3 := St (s_buf s2) (s_offs s2) rngs (s_pend s2)).
  eapply (Post_own B HB be (seg B pos size) (fun _ => False) tro [] (fun _ _ => Some (tt, [])) tt D v s0 s3 s3 own [] [] (Nat.le_0_l 1));
    auto; try tauto.
  - intros z Hz. unfold seg in Hz. lia.
  - apply (Post_refl B HB be).
  - cbn [s3 s_offs]. rewrite Eo. apply (adds_refl B HB).
  - intros HL. change (len s3) with (len s2) in *. change (M B s3) with (M B s2) in *.
    split; [|split; [exact Hap|split; [constructor|]]].
    + eapply Forall_impl; [|exact (Hown HL)]. intros [a n| | |]; tauto.
    + intros m hi tre' Ha Hh E. apply some_pair in E as [_ <-]. cbn [map app]. rewrite app_nil_r. now apply HD.
Qed.
Lemma Post_leaf tro (D : decoder val) v pos size s0 s2 own :
  pos + size <= len s0 -> ext pos size s0 s2 ->
  blks tro = [] -> ptrs tro = [] -> spares tro = [] ->
  (len s2 <= LIM -> Forall (fun e => match e with Rd a n => span_in B (seg B pos size) (len s0) (len s2) a n | _ => False end) own) ->
  ForallOrdPairs apart2 (spans own) ->
  (forall m hi, len s2 <= LIM -> agree own (M B s2) m -> B + len s2 <= hi -> D m hi = Some (v, own)) ->
  Post B be (seg B pos size) tro D v s0 s2.
Proof.
  intros H1 H2 H3 H4 H5 H6 H7 H8.
  pose proof (Post_leaf_r tro D v pos size s0 s2 own (s_rngs s2) H1 H2 H3 H4) as P.
  rewrite H5 in P. destruct s2. cbn [SerialModel.s_buf SerialModel.s_offs SerialModel.s_rngs SerialModel.s_pend] in P. apply P; auto.
  destruct H2 as (_ & _ & Er & _). cbn [SerialModel.s_rngs] in Er. rewrite Er. apply (adds_refl B HB).
Qed.

Ltac rd_other P := erewrite (patched_other _ _ _ _ _ _ _ P) by (unfold apart; rewrite ?of_int_length; lia).
Lemma rint_Rt m hi a w x : rdn m a w = Some (of_int be w x) -> (x < 256 ^ N.of_nat w)%N -> rint (Rt m hi) a w = Some x.
Proof. intros H Hx. unfold rint. cbn [Rt r_mem r_be]. rewrite H. now rewrite to_of_int. Qed.
Lemma rptr_Rt m hi a x : rdn m a 8 = Some (of_int be 8 x) -> (x < 256 ^ 8)%N ->
  rptr (Rt m hi) true a = Some (ptr_of true a x).
Proof. intros H Hx. unfold rptr. now rewrite (rint_Rt _ _ _ _ _ H Hx). Qed.
Lemma zero_Rt m hi a : rdn m a 1 = Some (of_int be 1 0) -> zero_at (Rt m hi) a = Some [Rd a 1].
Proof. intros H. unfold zero_at. cbn [Rt r_ck]. now rewrite (rint_Rt _ _ _ _ _ H). Qed.
Lemma inside_Rt m hi a n al : B <= a -> a + n <= hi -> a mod al = 0 -> inside (Rt m hi) a n al = true.
Proof. intros H1 H2 H3. unfold inside. cbn [Rt r_ck]. rewrite H3. lia. Qed.

Ltac own_seg := cbv beta iota; unfold span_in; split; [lia|left; intros ? ?; unfold seg; lia].
Ltac aparts := cbn [spans flat_map app]; repeat (constructor; [repeat constructor; unfold apart2, apart; cbn [fst snd]; lia|]); constructor.

Lemma good_uniq f n : (forall t, wf A t -> good f t) -> good (S f) (TUniq n).
Proof.
  intros IH. start H. cbn [size_of align_of] in *. cbn [Rs r_rel] in H.
  destruct (rptr Rs rel a) as [p|] eqn:Ep; [|discriminate].
  change (zero_at Rs (a + 8)) with (Some (@nil ev)) in H.
  cbn [ser]. rewrite (sptr_ok _ _ Ep). cbn [bind].
  destruct p as [q|].
  - destruct (dec env Rs f (tyof env n) q) as [[v1 t1]|] eqn:Ed; [|discriminate].
    apply some_pair in H as [<- <-].
    pose proof (tyof_wf n) as Hwt. destruct (wf_basic _ Hwt) as (Hs1 & Ha1 & Ha2 & Ha3).
    remember (tyof env n) as T eqn:ET.
    destruct (append_ok s q (size_of T) (align_of T)) as (d & s1 & start & Es & _ & Ea & L1 & L2 & Hst & Eo1 & Er1 & Ep1 & M1 & M1');
      [lia|lia|].
    rewrite Es. cbn [bind]. rewrite Ea.
    pose proof (len_nonneg s) as Ln. specialize (Hst Ha1).
    destruct (patch_off_ok B be s1 pos (start - pos) Hp ltac:(lia)) as (s2 & E2 & P2). rewrite E2. cbn [bind].
    pose proof P2 as (L3 & Eo2 & Er2 & Ep2 & _).
    destruct (patch_int_ok B be s2 (pos + 8) 1 0 ltac:(lia) ltac:(lia)) as (s3 & E3 & P3). rewrite E3. cbn [bind].
    pose proof P3 as (L4 & Eo3 & Er3 & Ep3 & _).
    assert (Ex : ext pos 16 s s3).
    { eapply ext_patch; [eapply ext_patch; [eapply ext_append|exact P2| |]|exact P3| |]; eauto;
        rewrite ?of_int_length; lia. }
    set (s4 := St (s_buf s3) ((q, start) :: s_offs s3) (s_rngs s3) (s_pend s3)).
    assert (I4 : inv s4).
    { intros HL. change (len s4) with (len s3) in *. destruct (Hinv ltac:(lia)) as [I1 I2].
      destruct Ex as (_ & Eo & Er & _). unfold tab_inv. change (len s4) with (len s3). split.
      - intros q0 o0 [E0|Hi]; [injection E0 as <- <-; lia|]. rewrite Eo in Hi. specialize (I1 _ _ Hi). lia.
      - intros b o0 k Hi. cbn [s4 s_rngs] in Hi. rewrite Er in Hi. specialize (I2 _ _ _ Hi). lia. }
    destruct (IH T Hwt q start s4 v1 t1) as (s' & E & P); auto; try lia.
    { change (len s4) with (len s3). lia. }
    { intros z Hz. change (M B s4) with (M B s3).
      erewrite patched_out; [|exact P3|rewrite of_int_length; lia].
      erewrite patched_out; [|exact P2|rewrite of_int_length; lia]. now apply M1'. }
    exists s'. split; [exact E|].
    change (Rd a 8 :: [] ++ Blk false q (size_of T) (align_of T) :: t1)
      with ([Rd a 8; Blk false q (size_of T) (align_of T)] ++ t1).
    destruct Ex as (Lx & Eo & Er & Epd & Mx).
    eapply (Post_own B HB be _ (seg B start (size_of T)) _ _ (Dt f T start) v1 _ _ s s4 s'
              [Rd (B + pos) 8; Rd (B + pos + 8) 1] _ [(false, B + start, size_of T, align_of T)] (le_n 1)).
    + intros z Hz. unfold seg in Hz. lia.
    + intros z Hz. unfold seg in Hz. change (len s4) with (len s3). lia.
    + exact Lx.
    + exact Mx.
    + exact Epd.
    + exact P.
    + reflexivity.
    + reflexivity.
    + repeat constructor.
    + cbn [s4 s_offs]. rewrite Eo. intros e. cbn. rewrite Z.add_simpl_l. tauto.
    + cbn [s4 s_rngs]. rewrite Er. apply (adds_refl B HB).
    + intros HL. change (len s4) with (len s3) in *. change (M B s4) with (M B s3).
      split. { constructor; [|constructor; [|constructor]]; (split; [own_seg|intros z Hz Hz'; unfold seg in Hz'; lia]). }
      split; [aparts|].
      split. { constructor; [|constructor]. pose proof (addr_mod _ _ Ha1 Ha2 Hst). lia. }
      intros m hi tre' Ha Hh HD. unfold Dt in *. cbn [dec].
      rewrite head; [|constructor|assumption|exact Hm|cbn [size_of]; lia]. rewrite <- ET.
      assert (R1 : rdn m (B + pos) 8 = Some (of_int be 8 (u_of_z (start - pos)))).
      { eapply rd_agree; [exact Ha|left; reflexivity|lia|]. rd_other P3.
        apply (patched_same_int B be _ _ _ _ _ P2). apply u_of_z_bound. }
      assert (R2 : rdn m (B + pos + 8) 1 = Some (of_int be 1 0)).
      { eapply rd_agree; [exact Ha|right; left; reflexivity|lia|]. rewrite <- Z.add_assoc.
        apply (patched_same_int B be _ _ _ _ _ P3). lia. }
      cbn [r_rel Rt]. rewrite (rptr_Rt _ _ _ _ R1 (u_of_z_bound _)).
      rewrite (ptr_word B HB) by lia. fold (Rt m hi). rewrite (zero_Rt _ _ _ R2), HD. reflexivity.
  - apply some_pair in H as [<- <-].
    destruct (patch_off_ok B be s pos NULLPTR_OFFSET Hp ltac:(lia)) as (s2 & E2 & P2). rewrite E2. cbn [bind].
    pose proof P2 as (L3 & Eo2 & Er2 & Ep2 & _).
    destruct (patch_int_ok B be s2 (pos + 8) 1 0 ltac:(lia) ltac:(lia)) as (s3 & E3 & P3).
    exists s3. split; [exact E3|].
    assert (Ex : ext pos 16 s s3).
    { eapply ext_patch; [eapply ext_patch; [apply ext_refl|exact P2| |]|exact P3| |];
        rewrite ?of_int_length; lia. }
    apply (Post_leaf _ _ _ _ _ _ _ [Rd (B + pos) 8; Rd (B + pos + 8) 1]); auto.
    + intros _. constructor; [|constructor; [|constructor]]; own_seg.
    + aparts.
    + intros m hi HL Ha Hh. destruct Ex as (Lx & _). unfold Dt. cbn [dec].
      rewrite head; [|constructor|assumption|exact Hm|cbn [size_of]; lia].
      assert (R1 : rdn m (B + pos) 8 = Some (of_int be 8 (u_of_z NULLPTR_OFFSET))).
      { eapply rd_agree; [exact Ha|left; reflexivity|lia|]. rd_other P3.
        apply (patched_same_int B be _ _ _ _ _ P2). apply u_of_z_bound. }
      assert (R2 : rdn m (B + pos + 8) 1 = Some (of_int be 1 0)).
      { eapply rd_agree; [exact Ha|right; left; reflexivity|lia|]. rewrite <- Z.add_assoc.
        apply (patched_same_int B be _ _ _ _ _ P3). lia. }
      cbn [r_rel Rt]. rewrite (rptr_Rt _ _ _ _ R1 (u_of_z_bound _)).
      rewrite ptr_word_null. fold (Rt m hi). rewrite (zero_Rt _ _ _ R2). reflexivity.
Qed.
Definition vown (pos : Z) (w : nat) : list ev :=
  [Rd (B + pos) 8; Rd (B + pos + 8) (Z.of_nat w); Rd (B + pos + 8 + Z.of_nat w) (Z.of_nat w);
   Rd (B + pos + 8 + 2 * Z.of_nat w) 1].
Lemma vec_rd w s1 s2 s3 s4 s5 pos x used m hi : (0 < w)%nat ->
  patched B s1 s2 pos (of_int be 8 x) -> patched B s2 s3 (pos + 8 + Z.of_nat w) (of_int be w used) ->
  patched B s3 s4 (pos + 8) (of_int be w used) -> patched B s4 s5 (pos + 8 + 2 * Z.of_nat w) (of_int be 1 0) ->
  (x < 256 ^ 8)%N -> (used < 256 ^ N.of_nat w)%N -> agree (vown pos w) (M B s5) m ->
  rptr (Rt m hi) true (B + pos) = Some (ptr_of true (B + pos) x) /\
  rint (Rt m hi) (B + pos + 8) w = Some used /\
  rint (Rt m hi) (B + pos + 8 + Z.of_nat w) w = Some used /\
  zero_at (Rt m hi) (B + pos + 8 + 2 * Z.of_nat w) = Some [Rd (B + pos + 8 + 2 * Z.of_nat w) 1].
Proof.
  intros Hw P2 P3 P4 P5 Hx Hu Ha.
  split. { apply rptr_Rt; [|exact Hx]. eapply rd_agree; [exact Ha|left; reflexivity|lia|].
           rd_other P5. rd_other P4. rd_other P3. now apply (patched_same_int B be _ _ _ _ _ P2). }
  split. { apply rint_Rt; [|exact Hu]. eapply rd_agree; [exact Ha|right; left; reflexivity|lia|].
           rewrite <- Z.add_assoc. rd_other P5. now apply (patched_same_int B be _ _ _ _ _ P4). }
  split. { apply rint_Rt; [|exact Hu]. eapply rd_agree; [exact Ha|right; right; left; reflexivity|lia|].
           replace (B + pos + 8 + Z.of_nat w) with (B + (pos + 8 + Z.of_nat w)) by lia.
           rd_other P5. rd_other P4. now apply (patched_same_int B be _ _ _ _ _ P3). }
  apply zero_Rt. eapply rd_agree; [exact Ha|right; right; right; left; reflexivity|lia|].
  replace (B + pos + 8 + 2 * Z.of_nat w) with (B + (pos + 8 + 2 * Z.of_nat w)) by lia.
  apply (patched_same_int B be _ _ _ _ _ P5). lia.
Qed.

Lemma inv_ext pos size s s2 : inv s -> ext pos size s s2 -> inv s2.
Proof.
  intros I (L & Eo & Er & _) HL. destruct (I ltac:(lia)) as [I1 I2]. split.
  - intros q o Hi. rewrite Eo in Hi. specialize (I1 _ _ Hi). lia.
  - intros b o n Hi. rewrite Er in Hi. specialize (I2 _ _ _ Hi). lia.
Qed.

Lemma mul_seq i k sz : (i < k)%nat -> 0 < sz -> 0 <= Z.of_nat i * sz /\ Z.of_nat i * sz + sz <= sz * Z.of_nat k.
Proof. intros. nia. Qed.
Lemma seq_apart start sz k0 k : 0 < sz ->
  ForallOrdPairs (fun i j => apart (start + Z.of_nat i * sz) sz (start + Z.of_nat j * sz) sz) (seq k0 k).
Proof.
  intros Hs. revert k0; induction k as [|k IH]; intros k0; cbn [seq]; constructor; [|apply IH].
  apply Forall_forall. intros j Hj. apply in_seq in Hj. unfold apart. left. nia.
Qed.
Lemma mapM_eq {I X} (g h : I -> option (X * list ev)) l : (forall i, In i l -> g i = h i) -> mapM g l = mapM h l.
Proof.
  induction l as [|i l IH]; intros H; [reflexivity|]. cbn [mapM]. rewrite (H i) by (now left).
  rewrite IH; [reflexivity|]. intros j Hj. apply H. now right.
Qed.

Lemma good_vec f w ix n : wf A (TVec w ix n) -> (forall t, wf A t -> good f t) -> good (S f) (TVec w ix n).
Proof.
  intros Ht IH. start H. cbn [align_of] in *.
  assert (Hw : (4 <= w)%nat) by (inversion Ht as [| | | | | | |? ? ? Hw| | |]; destruct Hw as [<-|[<-|[]]]; lia).
  change (size_of (TVec w ix n)) with (Z.of_nat (16 + 2 * w)) in *.
  cbn [Rs r_rel r_ck] in H. fold Rs in H. cbv zeta in H.
  destruct (rptr Rs rel a) as [p|] eqn:Ep; [|discriminate].
  destruct (rint Rs (a + 8) w) as [used|] eqn:Eu; [|discriminate].
  rewrite N.eqb_refl in H.
  change (zero_at Rs (a + 8 + 2 * Z.of_nat w)) with (Some (@nil ev)) in H.
  cbn [ser]. rewrite (sptr_ok _ _ Ep). cbn [bind]. destruct (sint_ok _ _ _ Eu) as [Es Hu]. rewrite Es. cbn [bind].
  pose proof (tyof_wf n) as Hwt. destruct (wf_basic _ Hwt) as (Hs1 & Ha1 & Ha2 & Ha3).
  remember (tyof env n) as T eqn:ET. pose proof (len_nonneg s) as Ln.
  destruct (used =? 0)%N eqn:E0.
  - (* empty *)
    cbn [bind rel_off]. cbn [strict r_ck Rs] in H. apply some_pair in H as [<- <-].
    assert (used = 0%N) by lia. subst used.
    destruct (patch_off_ok B be s pos NULLPTR_OFFSET Hp ltac:(lia)) as (s2 & E2 & P2). rewrite E2. cbn [bind].
    pose proof P2 as (L2 & _).
    destruct (patch_int_ok B be s2 (pos + 8 + Z.of_nat w) w 0 ltac:(lia) ltac:(lia)) as (s3 & E3 & P3). rewrite E3. cbn [bind].
    pose proof P3 as (L3 & _).
    destruct (patch_int_ok B be s3 (pos + 8) w 0 ltac:(lia) ltac:(lia)) as (s4 & E4 & P4). rewrite E4. cbn [bind].
    pose proof P4 as (L4 & _).
    destruct (patch_int_ok B be s4 (pos + 8 + 2 * Z.of_nat w) 1 0 ltac:(lia) ltac:(lia)) as (s5 & E5 & P5). rewrite E5. cbn [bind].
    pose proof P5 as (L5 & _).
    assert (Ex : ext pos (Z.of_nat (16 + 2 * w)) s s5).
    { eapply ext_patch; [eapply ext_patch; [eapply ext_patch; [eapply ext_patch; [apply ext_refl|exact P2| |]|exact P3| |]|exact P4| |]|exact P5| |];
        rewrite ?of_int_length; lia. }
    assert (K : forall tro rngs, blks tro = [] -> ptrs tro = [] ->
      adds (s_rngs s) rngs (rngs_of B [] (spares tro)) ->
      Post B be (seg B pos (Z.of_nat (16 + 2 * w))) tro (Dt (S f) (TVec w ix n) pos) (VVec [])
        s (St (s_buf s5) (s_offs s5) rngs (s_pend s5))).
    { intros tro rngs H1 H2 H3. apply (Post_leaf_r _ _ _ _ _ _ _ (vown pos w)); auto.
      - intros _. unfold vown. constructor; [|constructor; [|constructor; [|constructor; [|constructor]]]]; own_seg.
      - unfold vown. aparts.
      - intros m hi HL Ha Hh. unfold Dt. cbn [dec].
        rewrite head; [|exact Ht|assumption|exact Hm|change (size_of (TVec w ix n)) with (Z.of_nat (16 + 2 * w)); lia].
        destruct (vec_rd w s s2 s3 s4 s5 pos _ _ m hi ltac:(lia) P2 P3 P4 P5 (u_of_z_bound _) Hu Ha) as (R1 & R2 & R3 & R4).
        cbn [r_rel r_ck Rt]. fold (Rt m hi). rewrite R1, R2, R3, R4. rewrite ptr_word_null. cbn [N.eqb strict r_ck Rt app]. reflexivity. }
    destruct p as [q|].
    + change (N.to_nat 0) with 0%nat. cbn [seq foldM]. destruct ix.
      * eexists. split; [reflexivity|]. apply K; [reflexivity|reflexivity|].
        destruct Ex as (_ & _ & Er & _). rewrite Er. replace (size_of T * Z.of_N 0) with 0 by lia.
        intros e. rewrite in_app_iff. cbn. tauto.
      * exists s5. split; [reflexivity|]. destruct Ex as (Lx & Eo & Er & Epd & Mx).
        specialize (K (Rd a 8 :: Rd (a + 8) (Z.of_nat w) :: []) (s_rngs s5) eq_refl eq_refl).
        rewrite Er in K at 1. specialize (K (adds_refl B HB _)). destruct s5. exact K.
    + exists s5. split; [reflexivity|]. destruct Ex as (Lx & Eo & Er & Epd & Mx).
        specialize (K (Rd a 8 :: Rd (a + 8) (Z.of_nat w) :: []) (s_rngs s5) eq_refl eq_refl).
        rewrite Er in K at 1. specialize (K (adds_refl B HB _)). destruct s5. exact K.
  - destruct p as [q|]; [|discriminate].
    change (inside Rs q (size_of T * Z.of_N used) (align_of T)) with true in H. cbv iota in H.
    destruct (mapM _ _) as [[vs t1]|] eqn:Em; [|discriminate]. apply some_pair in H as [<- <-].
    assert (Hsz : 0 < size_of T * Z.of_N used) by nia.
    remember (size_of T * Z.of_N used) as size eqn:Esz.
    destruct (append_ok s q size (align_of T)) as (d & s1 & start & Esb & _ & Ea & L1 & L1' & Hst & Eo1 & Er1 & Ep1 & M1 & M1');
      [lia|lia|].
    rewrite Esb. cbn [bind]. rewrite Ea. cbn [bind rel_off]. specialize (Hst Ha1).
    destruct (patch_off_ok B be s1 pos (start - pos) Hp ltac:(lia)) as (s2 & E2 & P2). rewrite E2. cbn [bind].
    pose proof P2 as (L2 & _).
    destruct (patch_int_ok B be s2 (pos + 8 + Z.of_nat w) w used ltac:(lia) ltac:(lia)) as (s3 & E3 & P3). rewrite E3. cbn [bind].
    pose proof P3 as (L3 & _).
    destruct (patch_int_ok B be s3 (pos + 8) w used ltac:(lia) ltac:(lia)) as (s4 & E4 & P4). rewrite E4. cbn [bind].
    pose proof P4 as (L4 & _).
    destruct (patch_int_ok B be s4 (pos + 8 + 2 * Z.of_nat w) 1 0 ltac:(lia) ltac:(lia)) as (s5 & E5 & P5). rewrite E5. cbn [bind].
    pose proof P5 as (L5 & _).
    assert (Ex : ext pos (Z.of_nat (16 + 2 * w)) s s5).
    { eapply ext_patch; [eapply ext_patch; [eapply ext_patch; [eapply ext_patch; [eapply ext_append|exact P2| |]|exact P3| |]|exact P4| |]|exact P5| |]; eauto;
        rewrite ?of_int_length; lia. }
    assert (M5 : forall z, B + pos + Z.of_nat (16 + 2 * w) <= z -> M B s5 z = M B s1 z).
    { intros z Hz. erewrite patched_out; [|exact P5|rewrite of_int_length; lia].
      erewrite patched_out; [|exact P4|rewrite of_int_length; lia].
      erewrite patched_out; [|exact P3|rewrite of_int_length; lia].
      erewrite patched_out; [|exact P2|rewrite of_int_length; lia]. reflexivity. }
    set (s6 := if ix then St (s_buf s5) (s_offs s5) (s_rngs s5 ++ [(q, start, size)]) (s_pend s5) else s5).
    assert (Len6 : len s6 = len s5) by (unfold s6; destruct ix; reflexivity).
    assert (M6 : M B s6 = M B s5) by (unfold s6; destruct ix; reflexivity).
    assert (Eo6 : s_offs s6 = s_offs s5) by (unfold s6; destruct ix; reflexivity).
    assert (Ep6 : s_pend s6 = s_pend s5) by (unfold s6; destruct ix; reflexivity).
    pose proof Ex as (Lx & Eo & Er & Epd & Mx).
    assert (I6 : inv s6).
    { pose proof (inv_ext _ _ _ _ Hinv Ex) as I5. intros HL. rewrite Len6 in HL. destruct (I5 HL) as [I1 I2].
      split; rewrite Len6; [now rewrite Eo6|]. intros b o k Hi. unfold s6 in Hi. destruct ix; [|now apply I2 in Hi].
      cbn [s_rngs] in Hi. apply in_app_or in Hi as [Hi|[E|[]]]; [now apply I2 in Hi|].
      assert (o = start) by congruence. assert (k = size) by congruence. subst o k. lia. }
    change (fst (s6, s6)) with s6.
    assert (Hlen : size_of T * Z.of_nat (N.to_nat used) = size) by lia.
    destruct (Post_list B HB be (fun i s => ser env be_src be rel src f T (q + Z.of_nat i * size_of T) (start + Z.of_nat i * size_of T) s)
      (fun i => dec env Rs f T (q + Z.of_nat i * size_of T)) (fun i => Dt f T (start + Z.of_nat i * size_of T))
      (fun i => q + Z.of_nat i * size_of T) (fun i => start + Z.of_nat i * size_of T) (fun _ => size_of T) src (start + size)
      (seq 0 (N.to_nat used))) with (s := s6) (xs := vs) (tr := t1) as (s' & E & P); try assumption.
    { intros; apply Dt_framed. }
    { intros i Hi. apply in_seq in Hi. pose proof (mul_seq i (N.to_nat used) (size_of T) ltac:(lia) Hs1). lia. }
    { now apply seq_apart. }
    { intros i Hi sx x tx HLx Hix Hcx Hdx. apply in_seq in Hi.
      pose proof (mul_seq i (N.to_nat used) (size_of T) ltac:(lia) Hs1).
      apply IH; auto; try lia.
      apply mod_add_dvd; [lia|exact Hst|]. now apply Z.divide_mul_r. }
    { lia. }
    { intros i Hi z Hz. apply in_seq in Hi. pose proof (mul_seq i (N.to_nat used) (size_of T) ltac:(lia) Hs1).
      rewrite M6, M5 by lia. rewrite Z.add_assoc, <- !(Z.add_assoc _ _ z). apply M1'. lia. }
    exists s'. split; [exact E|].
    rewrite app_assoc.
    eapply (Post_own B HB be _ (seg B start size) _ _ _ vs _ _ s s6 s' (vown pos w)
              (if ix then [(true, q, size, align_of T)] else [])
              (if ix then [(true, B + start, size, align_of T)] else []) ltac:(destruct ix; cbn; lia)).
    + intros z Hz. unfold seg in Hz. lia.
    + intros z Hz. unfold seg in Hz. lia.
    + lia.
    + rewrite M6. exact Mx.
    + congruence.
    + eapply (Post_mono B HB be); [|exact P].
      intros z (i & Hi & Hz). apply in_seq in Hi. pose proof (mul_seq i (N.to_nat used) (size_of T) ltac:(lia) Hs1).
      unfold seg in *. lia.
    + destruct ix; reflexivity.
    + destruct ix; reflexivity.
    + destruct ix; repeat constructor.
    + rewrite Eo6, Eo. destruct ix; apply (adds_refl B HB).
    + unfold s6. destruct ix; cbn [s_rngs]; rewrite Er; [|apply (adds_refl B HB)].
      intros e. rewrite in_app_iff. cbn. rewrite Z.add_simpl_l. tauto.
    + intros HL.
      split. { unfold vown. repeat (constructor; [split; [own_seg|intros z Hz Hz'; unfold seg in Hz'; lia]|]). constructor. }
      split; [unfold vown; aparts|].
      split. { pose proof (addr_mod _ _ Ha1 Ha2 Hst). destruct ix; repeat constructor; lia. }
      rewrite M6. intros m hi tre' Ha Hh HD. unfold Dt in *. cbn [dec].
      rewrite head; [|exact Ht|assumption|exact Hm|change (size_of (TVec w ix n)) with (Z.of_nat (16 + 2 * w)); lia]. rewrite <- ET.
      destruct (vec_rd w s1 s2 s3 s4 s5 pos _ _ m hi ltac:(lia) P2 P3 P4 P5 (u_of_z_bound _) Hu Ha) as (R1 & R2 & R3 & R4).
      cbn [r_rel r_ck Rt]. fold (Rt m hi). rewrite R1, R2, R3, N.eqb_refl, R4. rewrite (ptr_word B HB) by lia.
      rewrite E0, <- Esz. rewrite inside_Rt; [|lia|lia|now apply addr_mod].
      rewrite (mapM_eq _ (fun i => dec env (Rt m hi) f T (B + (start + Z.of_nat i * size_of T)))).
      2:{ intros. now rewrite Z.add_assoc. }
      rewrite HD. destruct ix; reflexivity.
Qed.
Lemma rdn_append s1 start q n d : rdn src q n = Some d ->
  (forall z, 0 <= z < Z.of_nat n -> M B s1 (B + start + z) = src (q + z)) -> rdn (M B s1) (B + start) n = Some d.
Proof.
  intros H Hm. rewrite <- H. 
  assert (G : forall k i, i + Z.of_nat k <= Z.of_nat n -> 0 <= i -> rdn (M B s1) (B + start + i) k = rdn src (q + i) k).
  { induction k as [|k IH]; intros i Hi H0; [reflexivity|]. cbn [rdn]. rewrite Hm by lia.
    replace (B + start + i + 1) with (B + start + (i + 1)) by lia. replace (q + i + 1) with (q + (i + 1)) by lia.
    rewrite IH by lia. reflexivity. }
  pose proof (G n 0 ltac:(lia) ltac:(lia)) as G0. now rewrite !Z.add_0_r in G0.
Qed.

Definition sown (pos : Z) : list ev := [Rd (B + pos) 1; Rd (B + pos + 8) 8; Rd (B + pos + 4) 4; Rd (B + pos + 1) 1].
Lemma str_rd s1 s2 s3 s4 pos x size own m hi :
  rdn (M B s1) (B + pos) 1 = Some [0%N] ->
  patched B s1 s2 (pos + 8) (of_int be 8 x) -> patched B s2 s3 (pos + 4) (of_int be 4 size) ->
  patched B s3 s4 (pos + 1) (of_int be 1 0) -> (x < 256 ^ 8)%N -> (size < 256 ^ 4)%N ->
  agree own (M B s4) m -> incl (sown pos) own ->
  rint (Rt m hi) (B + pos) 1 = Some 0%N /\
  rptr (Rt m hi) true (B + pos + 8) = Some (ptr_of true (B + (pos + 8)) x) /\
  rint (Rt m hi) (B + pos + 4) 4 = Some size /\
  zero_at (Rt m hi) (B + pos + 1) = Some [Rd (B + pos + 1) 1].
Proof.
  intros R0 P2 P3 P4 Hx Hu Ha Hi. rewrite <- !Z.add_assoc.
  split. { apply byte_tgt. eapply rd_agree; [exact Ha|apply Hi; left; reflexivity|lia|].
           rd_other P4. rd_other P3. rd_other P2. exact R0. }
  split. { apply rptr_Rt; [|exact Hx]. eapply rd_agree; [exact Ha|apply Hi; right; left; f_equal; lia|lia|].
           rd_other P4. rd_other P3. now apply (patched_same_int B be _ _ _ _ _ P2). }
  split. { apply rint_Rt; [|exact Hu]. eapply rd_agree; [exact Ha|apply Hi; right; right; left; f_equal; lia|lia|].
           rd_other P4. now apply (patched_same_int B be _ _ _ _ _ P3). }
  apply zero_Rt. eapply rd_agree; [exact Ha|apply Hi; right; right; right; left; f_equal; lia|lia|].
  apply (patched_same_int B be _ _ _ _ _ P4). lia.
Qed.

Lemma good_str f : good (S f) TStr.
Proof.
  start H. cbn [size_of align_of] in *. cbn [Rs r_rel r_mem] in H. fold Rs in H. cbv zeta in H.
  destruct (rint Rs a 1) as [b|] eqn:Eb; [|discriminate].
  cbn [ser]. destruct (sint_ok _ _ _ Eb) as [Es _]. rewrite Es. cbn [bind]. destruct (byte_src _ _ Eb) as [Rb _].
  pose proof (copied_rdn s a pos _ 0 1 Hc ltac:(lia) ltac:(lia)) as R0. rewrite !Z.add_0_r, Rb in R0.
  destruct (negb (b =? 0)%N) eqn:E0.
  - destruct (b =? 1)%N eqn:E1; [|discriminate].
    destruct (rdn src (a + 1) 15) as [l|] eqn:El; [|discriminate]. apply some_pair in H as [<- <-].
    exists s. split; [reflexivity|].
    pose proof (copied_rdn s a pos _ 1 15 Hc ltac:(lia) ltac:(lia)) as R1. rewrite El in R1.
    apply (Post_leaf _ _ _ _ _ _ _ [Rd (B + pos) 1; Rd (B + pos + 1) 15]); auto using ext_refl.
    + intros _. repeat (constructor; [own_seg|]). constructor.
    + aparts.
    + intros m hi HL Ha Hh. unfold Dt. cbn [dec].
      rewrite head; [|constructor|assumption|exact Hm|cbn [size_of]; lia].
      erewrite byte_tgt; [|eapply rd_agree; [exact Ha|left; reflexivity|lia|exact R0]].
      rewrite E0, E1. cbn [Rt r_mem]. rewrite (rd_agree _ _ _ (B + pos + 1) 15 15 l Ha); [reflexivity|right; left; reflexivity|lia|].
      now rewrite <- Z.add_assoc.
  - assert (b = 0%N) by lia. subst b.
    destruct (rptr Rs rel (a + 8)) as [p|] eqn:Ep; [|discriminate].
    destruct (rint Rs (a + 4) 4) as [size|] eqn:Esz; [|discriminate].
    change (zero_at Rs (a + 1)) with (Some (@nil ev)) in H.
    rewrite (sptr_ok _ _ Ep). cbn [bind]. destruct (sint_ok _ _ _ Esz) as [Es2 Hu]. rewrite Es2. cbn [bind].
    pose proof (len_nonneg s) as Ln.
    destruct p as [q|].
    + destruct (negb (size =? 0)%N) eqn:E1; [|discriminate].
      change (inside Rs q (Z.of_N size) 1) with true in H. cbn [andb] in H.
      destruct (rdn src q (N.to_nat size)) as [l|] eqn:El; [|discriminate]. apply some_pair in H as [<- <-].
      destruct (append_ok s q (Z.of_N size) 0) as (d & s1 & start & Esb & Erd & Ea & L1 & L1' & _ & Eo1 & Er1 & Ep1 & M1 & M1');
        [lia|lia|].
      replace (Z.to_nat (Z.of_N size)) with (N.to_nat size) in Esb, Erd by lia.
      assert (d = l) by congruence. subst d.
      rewrite Esb. cbn [bind]. rewrite Ea. cbn [bind rel_off].
      destruct (patch_off_ok B be s1 (pos + 8) (start - (pos + 8)) ltac:(lia) ltac:(lia)) as (s2 & E2 & P2). rewrite E2. cbn [bind].
      pose proof P2 as (L2 & _).
      destruct (patch_int_ok B be s2 (pos + 4) 4 size ltac:(lia) ltac:(lia)) as (s3 & E3 & P3). rewrite E3. cbn [bind].
      pose proof P3 as (L3 & _).
      destruct (patch_int_ok B be s3 (pos + 1) 1 0 ltac:(lia) ltac:(lia)) as (s4 & E4 & P4).
      pose proof P4 as (L4 & _). exists s4. split; [exact E4|].
      assert (Ex : ext pos 16 s s4).
      { eapply ext_patch; [eapply ext_patch; [eapply ext_patch; [eapply ext_append|exact P2| |]|exact P3| |]|exact P4| |]; eauto;
          rewrite ?of_int_length; lia. }
      apply (Post_leaf _ _ _ _ _ _ _ (sown pos ++ [Rd (B + start) (Z.of_N size)])); auto.
      * intros _. unfold sown. cbn [app]. repeat (constructor; [own_seg|]).
        constructor; [|constructor]. cbv beta iota. unfold span_in. split; [lia|]. right. lia.
      * unfold sown. aparts.
      * intros m hi HL Ha Hh. unfold Dt. cbn [dec].
        rewrite head; [|constructor|assumption|exact Hm|cbn [size_of]; lia].
        assert (R01 : rdn (M B s1) (B + pos) 1 = Some [0%N]).
        { rewrite <- R0. apply rdn_ext. intros z Hz. apply M1. lia. }
        destruct (str_rd s1 s2 s3 s4 pos _ size _ m hi R01 P2 P3 P4 (u_of_z_bound _) Hu Ha) as (Q0 & Q1 & Q2 & Q3).
        { intros x Hx. apply in_or_app. now left. }
        cbn [r_rel r_mem Rt]. fold (Rt m hi). rewrite Q0. cbn [N.eqb negb]. rewrite Q1, Q2, Q3.
        rewrite (ptr_word B HB) by lia. rewrite E1. rewrite inside_Rt; [|lia|lia|apply Z.mod_1_r]. cbn [andb].
        rewrite (rd_agree _ _ _ (B + start) (N.to_nat size) (Z.of_N size) l Ha); [reflexivity| |lia|].
        { apply in_or_app. right. now left. }
        rd_other P4. rd_other P3. rd_other P2. eapply rdn_append; [exact El|]. intros z Hz. apply M1'. lia.
    + destruct (size =? 0)%N eqn:E1; [|discriminate]. apply some_pair in H as [<- <-].
      cbn [bind rel_off].
      destruct (patch_off_ok B be s (pos + 8) NULLPTR_OFFSET ltac:(lia) ltac:(lia)) as (s2 & E2 & P2). rewrite E2. cbn [bind].
      pose proof P2 as (L2 & _).
      destruct (patch_int_ok B be s2 (pos + 4) 4 size ltac:(lia) ltac:(lia)) as (s3 & E3 & P3). rewrite E3. cbn [bind].
      pose proof P3 as (L3 & _).
      destruct (patch_int_ok B be s3 (pos + 1) 1 0 ltac:(lia) ltac:(lia)) as (s4 & E4 & P4).
      pose proof P4 as (L4 & _). exists s4. split; [exact E4|].
      assert (Ex : ext pos 16 s s4).
      { eapply ext_patch; [eapply ext_patch; [eapply ext_patch; [apply ext_refl|exact P2| |]|exact P3| |]|exact P4| |];
          rewrite ?of_int_length; lia. }
      apply (Post_leaf _ _ _ _ _ _ _ (sown pos)); auto.
      * intros _. unfold sown. repeat (constructor; [own_seg|]). constructor.
      * unfold sown. aparts.
      * intros m hi HL Ha Hh. unfold Dt. cbn [dec].
        rewrite head; [|constructor|assumption|exact Hm|cbn [size_of]; lia].
        destruct (str_rd s s2 s3 s4 pos _ size _ m hi R0 P2 P3 P4 (u_of_z_bound _) Hu Ha (incl_refl _)) as (Q0 & Q1 & Q2 & Q3).
        cbn [r_rel r_mem Rt]. fold (Rt m hi). rewrite Q0. cbn [N.eqb negb]. rewrite Q1, Q2, Q3.
        rewrite ptr_word_null, E1. reflexivity.
Qed.

Lemma good_cstr f : good (S f) TCStr.
Proof.
  start H. cbn [size_of align_of] in *. cbn [Rs r_rel r_mem] in H. fold Rs in H. cbv zeta in H.
  destruct (rint Rs (a + 15) 1) as [rem|] eqn:Eb; [|discriminate].
  cbn [ser]. destruct (sint_ok _ _ _ Eb) as [Es _]. rewrite Es. cbn [bind]. destruct (byte_src _ _ Eb) as [Rb _].
  destruct (rem <? 128)%N eqn:E0.
  - destruct (rem <=? 15)%N eqn:E1; [|discriminate].
    destruct (rdn src a (15 - N.to_nat rem)) as [l|] eqn:El; [|discriminate]. apply some_pair in H as [<- <-].
    exists s. split; [reflexivity|].
    pose proof (copied_rdn s a pos _ 15 1 Hc ltac:(lia) ltac:(lia)) as R0. rewrite Rb in R0.
    pose proof (copied_rdn s a pos _ 0 (15 - N.to_nat rem) Hc ltac:(lia) ltac:(lia)) as R1. rewrite !Z.add_0_r, El in R1.
    apply (Post_leaf _ _ _ _ _ _ _ [Rd (B + pos + 15) 1; Rd (B + pos) 15]); auto using ext_refl.
    + intros _. repeat (constructor; [own_seg|]). constructor.
    + aparts.
    + intros m hi HL Ha Hh. unfold Dt. cbn [dec].
      rewrite head; [|constructor|assumption|exact Hm|cbn [size_of]; lia].
      erewrite byte_tgt; [|eapply rd_agree; [exact Ha|left; reflexivity|lia|rewrite <- Z.add_assoc; exact R0]].
      rewrite E0, E1. cbn [Rt r_mem].
      rewrite (rd_agree _ _ _ (B + pos) (15 - N.to_nat rem) 15 l Ha); [reflexivity|right; left; reflexivity|lia|exact R1].
  - destruct (rptr Rs rel a) as [p|] eqn:Ep; [|discriminate].
    destruct (rint Rs (a + 8) 4) as [size|] eqn:Esz; [|discriminate].
    rewrite (sptr_ok _ _ Ep). cbn [bind]. destruct (sint_ok _ _ _ Esz) as [Es2 Hu]. rewrite Es2. cbn [bind].
    pose proof (len_nonneg s) as Ln.
    (* the characters copied *)
    assert (Hd : exists d, (match p with Some q => sbytes src q (N.to_nat size)
                            | None => if (size =? 0)%N then Ok [] else UB end) = Ok d /\
                 length d = N.to_nat size /\ v = VStr d /\ blks tr = [] /\ ptrs tr = [] /\ spares tr = []).
    { destruct (size =? 0)%N eqn:E1.
      - apply some_pair in H as [<- <-]. assert (size = 0%N) by lia. subst size.
        exists []. destruct p; repeat split.
      - destruct p as [q|]; [|discriminate].
        destruct (rdn src q (N.to_nat size)) as [l|] eqn:El; [|discriminate]. apply some_pair in H as [<- <-].
        exists l. unfold sbytes. rewrite El. repeat split. eapply rdn_length; eauto. }
    destruct Hd as (d & Ed & Hdl & -> & Hb1 & Hb2 & Hb3). rewrite Ed. cbn [bind]. clear H.
    pose proof (append_spec B s (d ++ [0%N]) 0 ltac:(lia)) as Ha. destruct (append s (d ++ [0%N]) 0) as [s1 start].
    destruct Ha as (L1 & L1' & _ & _ & Eo1 & Er1 & Ep1 & M1 & M1').
    rewrite app_length in L1'. cbn [length] in L1'.
    destruct (patch_off_ok B be s1 pos (start - pos) ltac:(lia) ltac:(lia)) as (s2 & E2 & P2). rewrite E2. cbn [bind].
    pose proof P2 as (L2 & _).
    destruct (patch_int_ok B be s2 (pos + 8) 4 size ltac:(lia) ltac:(lia)) as (s3 & E3 & P3). rewrite E3. cbn [bind].
    pose proof P3 as (L3 & _).
    destruct (patch_int_ok B be s3 (pos + 12) 1 0 ltac:(lia) ltac:(lia)) as (s4 & E4 & P4). rewrite E4. cbn [bind].
    pose proof P4 as (L4 & _).
    destruct (patch_int_ok B be s4 (pos + 15) 1 255 ltac:(lia) ltac:(lia)) as (s5 & E5 & P5).
    pose proof P5 as (L5 & _). exists s5. split; [exact E5|].
    assert (Ex : ext pos 16 s s5).
    { eapply ext_patch; [eapply ext_patch; [eapply ext_patch; [eapply ext_patch; [eapply ext_append|exact P2| |]|exact P3| |]|exact P4| |]|exact P5| |]; eauto;
        rewrite ?of_int_length; lia. }
    assert (Rd5 : rdn (M B s5) (B + start) (N.to_nat size) = Some d).
    { rd_other P5. rd_other P4. rd_other P3. rd_other P2. rewrite <- Hdl. apply rdn_intro. intros i b Hi.
      assert (i < length d)%nat by (apply nth_error_Some; congruence).
      rewrite M1' by lia. rewrite nth_error_app1 by lia. rewrite <- Hi. f_equal. lia. }
    apply (Post_leaf _ _ _ _ _ _ _ ([Rd (B + pos + 15) 1; Rd (B + pos) 8; Rd (B + pos + 8) 4] ++
                                    if (size =? 0)%N then [] else [Rd (B + start) (Z.of_N size)])); auto.
    + intros _. cbn [app]. repeat (constructor; [own_seg|]). destruct (size =? 0)%N eqn:E1; [constructor|].
      constructor; [|constructor]. cbv beta iota. unfold span_in. split; [lia|]. right. lia.
    + destruct (size =? 0)%N; aparts.
    + intros m hi HL Ha Hh. unfold Dt. cbn [dec].
      rewrite head; [|constructor|assumption|exact Hm|cbn [size_of]; lia].
      assert (Q0 : rint (Rt m hi) (B + pos + 15) 1 = Some 255%N).
      { apply rint_Rt; [|lia]. eapply rd_agree; [exact Ha|left; reflexivity|lia|]. rewrite <- Z.add_assoc.
        apply (patched_same_int B be _ _ _ _ _ P5). lia. }
      assert (Q1 : rptr (Rt m hi) true (B + pos) = Some (ptr_of true (B + pos) (u_of_z (start - pos)))).
      { apply rptr_Rt; [|apply u_of_z_bound]. eapply rd_agree; [exact Ha|right; left; reflexivity|lia|].
        rd_other P5. rd_other P4. rd_other P3. apply (patched_same_int B be _ _ _ _ _ P2). apply u_of_z_bound. }
      assert (Q2 : rint (Rt m hi) (B + pos + 8) 4 = Some size).
      { apply rint_Rt; [|exact Hu]. eapply rd_agree; [exact Ha|right; right; left; reflexivity|lia|]. rewrite <- Z.add_assoc.
        rd_other P5. rd_other P4. now apply (patched_same_int B be _ _ _ _ _ P3). }
      rewrite Q0. cbn [N.ltb N.compare]. change (255 <? 128)%N with false. cbv iota.
      cbn [r_rel r_mem Rt]. fold (Rt m hi). rewrite Q1, Q2. rewrite (ptr_word B HB) by lia.
      destruct (size =? 0)%N eqn:E1.
      * destruct d; [reflexivity|]. cbn in Hdl. lia.
      * rewrite (rd_agree _ _ _ (B + start) (N.to_nat size) (Z.of_N size) d Ha); [reflexivity| |lia|exact Rd5].
        apply in_or_app. right. now left.
Qed.
Definition hown (pos : Z) : list ev :=
  [Rd (B + pos) 8; Rd (B + pos + 8) 8; Rd (B + pos + 16) 8; Rd (B + pos + 24) 8; Rd (B + pos + 32) 8;
   Rd (B + pos + 40) 1].
Lemma hash_rd s1 s2 s3 s4 s5 s6 s7 pos x y size cap growth own m hi :
  patched B s1 s2 pos (of_int be 8 x) -> patched B s2 s3 (pos + 8) (of_int be 8 y) ->
  patched B s3 s4 (pos + 40) (of_int be 1 0) -> patched B s4 s5 (pos + 16) (of_int be 8 size) ->
  patched B s5 s6 (pos + 24) (of_int be 8 cap) -> patched B s6 s7 (pos + 32) (of_int be 8 growth) ->
  (x < 256 ^ 8)%N -> (y < 256 ^ 8)%N -> (size < 256 ^ 8)%N -> (cap < 256 ^ 8)%N -> (growth < 256 ^ 8)%N ->
  agree own (M B s7) m -> incl (hown pos) own ->
  rptr (Rt m hi) true (B + pos) = Some (ptr_of true (B + pos) x) /\
  rptr (Rt m hi) true (B + pos + 8) = Some (ptr_of true (B + (pos + 8)) y) /\
  rint (Rt m hi) (B + pos + 16) 8 = Some size /\
  rint (Rt m hi) (B + pos + 24) 8 = Some cap /\
  rint (Rt m hi) (B + pos + 32) 8 = Some growth /\
  zero_at (Rt m hi) (B + pos + 40) = Some [Rd (B + pos + 40) 1].
Proof.
  intros P2 P3 P4 P5 P6 P7 Hx Hy Hs Hcp Hg Ha Hi. rewrite <- !Z.add_assoc.
  split. { apply rptr_Rt; [|exact Hx]. eapply rd_agree; [exact Ha|apply Hi; left; reflexivity|lia|].
           rd_other P7. rd_other P6. rd_other P5. rd_other P4. rd_other P3. now apply (patched_same_int B be _ _ _ _ _ P2). }
  split. { apply rptr_Rt; [|exact Hy]. eapply rd_agree; [exact Ha|apply Hi; do 1 right; left; f_equal; lia|lia|].
           rd_other P7. rd_other P6. rd_other P5. rd_other P4. now apply (patched_same_int B be _ _ _ _ _ P3). }
  split. { apply rint_Rt; [|exact Hs]. eapply rd_agree; [exact Ha|apply Hi; do 2 right; left; f_equal; lia|lia|].
           rd_other P7. rd_other P6. now apply (patched_same_int B be _ _ _ _ _ P5). }
  split. { apply rint_Rt; [|exact Hcp]. eapply rd_agree; [exact Ha|apply Hi; do 3 right; left; f_equal; lia|lia|].
           rd_other P7. now apply (patched_same_int B be _ _ _ _ _ P6). }
  split. { apply rint_Rt; [|exact Hg]. eapply rd_agree; [exact Ha|apply Hi; do 4 right; left; f_equal; lia|lia|].
           now apply (patched_same_int B be _ _ _ _ _ P7). }
  apply zero_Rt. eapply rd_agree; [exact Ha|apply Hi; do 5 right; left; f_equal; lia|lia|].
  rd_other P7. rd_other P6. rd_other P5. apply (patched_same_int B be _ _ _ _ _ P4). lia.
Qed.

Lemma good_hash f n : (forall t, wf A t -> good f t) -> good (S f) (THash n).
Proof.
  intros IH. start H. cbn [size_of align_of] in *. cbn [Rs r_rel r_mem r_tab] in H. fold Rs in H. cbv zeta in H.
  destruct (rptr Rs rel a) as [pe|] eqn:Ee; [|discriminate].
  destruct (rptr Rs rel (a + 8)) as [pc|] eqn:Ec; [|discriminate].
  destruct (rint Rs (a + 16) 8) as [size|] eqn:Es; [|discriminate].
  destruct (rint Rs (a + 24) 8) as [cap|] eqn:Ecap; [|discriminate].
  destruct (rint Rs (a + 32) 8) as [growth|] eqn:Eg; [|discriminate].
  change (zero_at Rs (a + 40)) with (Some (@nil ev)) in H.
  destruct pc as [c|]; [|discriminate].
  destruct (Z.of_N cap * size_of (tyof env n) + Z.of_N cap <? 2 ^ 62) eqn:Ebig; [|discriminate].
  change (inside Rs c (Z.of_N cap + 9) 1) with true in H. cbn [andb] in H.
  destruct (rdn src c (N.to_nat cap + 9)) as [ctrl|] eqn:Ect; [|discriminate].
  destruct (tab size cap growth ctrl) eqn:Et; [|discriminate].
  cbn [ser]. rewrite (sptr_ok _ _ Ee). cbn [bind]. rewrite (sptr_ok _ _ Ec). cbn [bind].
  destruct (sint_ok _ _ _ Es) as [Es' Hs]. rewrite Es'. cbn [bind].
  destruct (sint_ok _ _ _ Ecap) as [Ecap' Hcp]. rewrite Ecap'. cbn [bind].
  destruct (sint_ok _ _ _ Eg) as [Eg' Hg]. rewrite Eg'. cbn [bind].
  pose proof (tyof_wf n) as Hwt. destruct (wf_basic _ Hwt) as (Hs1 & Ha1 & Ha2 & Ha3).
  remember (tyof env n) as T eqn:ET. pose proof (len_nonneg s) as Ln.
  destruct pe as [q|].
  - destruct (c =? q + Z.of_N cap * size_of T) eqn:Ecq; [|discriminate].
    destruct (negb ((cap =? 0)%N && (size =? 0)%N)) eqn:Ene; [|discriminate]. cbn [andb] in H.
    change (inside Rs q (Z.of_N cap * size_of T + (Z.of_N cap + 9)) (align_of T)) with true in H. cbv iota in H.
    destruct (mapM _ _) as [[vs t1]|] eqn:Em; [|discriminate]. apply some_pair in H as [<- <-].
    assert (Hby : 0 <= Z.of_N cap * size_of T) by nia.
    remember (Z.of_N cap * size_of T) as bytes eqn:Eby.
    destruct (append_ok s q (bytes + (Z.of_N cap + 9)) (align_of T)) as (d & s1 & start & Esb & _ & Ea & L1 & L1' & Hst & Eo1 & Er1 & Ep1 & M1 & M1');
      [lia|lia|].
    rewrite Esb. cbn [bind]. rewrite Ea. cbn [bind rel_off]. specialize (Hst Ha1).
    destruct (patch_off_ok B be s1 pos (start - pos) Hp ltac:(lia)) as (s2 & E2 & P2). rewrite E2. cbn [bind].
    pose proof P2 as (L2 & _).
    destruct (patch_off_ok B be s2 (pos + 8) (start + bytes - (pos + 8)) ltac:(lia) ltac:(lia)) as (s3 & E3 & P3). rewrite E3. cbn [bind].
    pose proof P3 as (L3 & _).
    destruct (patch_int_ok B be s3 (pos + 40) 1 0 ltac:(lia) ltac:(lia)) as (s4 & E4 & P4). rewrite E4. cbn [bind].
    pose proof P4 as (L4 & _).
    destruct (patch_int_ok B be s4 (pos + 16) 8 size ltac:(lia) ltac:(lia)) as (s5 & E5 & P5). rewrite E5. cbn [bind].
    pose proof P5 as (L5 & _).
    destruct (patch_int_ok B be s5 (pos + 24) 8 cap ltac:(lia) ltac:(lia)) as (s6 & E6 & P6). rewrite E6. cbn [bind].
    pose proof P6 as (L6 & _).
    destruct (patch_int_ok B be s6 (pos + 32) 8 growth ltac:(lia) ltac:(lia)) as (s7 & E7 & P7). rewrite E7. cbn [bind].
    pose proof P7 as (L7 & _).
    assert (Ex : ext pos 48 s s7).
    { eapply ext_patch; [eapply ext_patch; [eapply ext_patch; [eapply ext_patch; [eapply ext_patch; [eapply ext_patch; [eapply ext_append|exact P2| |]|exact P3| |]|exact P4| |]|exact P5| |]|exact P6| |]|exact P7| |]; eauto;
        rewrite ?of_int_length; lia. }
    assert (M7 : forall z, B + pos + 48 <= z -> M B s7 z = M B s1 z).
    { intros z Hz. erewrite patched_out; [|exact P7|rewrite of_int_length; lia].
      erewrite patched_out; [|exact P6|rewrite of_int_length; lia].
      erewrite patched_out; [|exact P5|rewrite of_int_length; lia].
      erewrite patched_out; [|exact P4|rewrite of_int_length; lia].
      erewrite patched_out; [|exact P3|rewrite of_int_length; lia].
      erewrite patched_out; [|exact P2|rewrite of_int_length; lia]. reflexivity. }
    pose proof Ex as (Lx & Eo & Er & Epd & Mx).
    pose proof (inv_ext _ _ _ _ Hinv Ex) as I7.
    assert (Hlen : size_of T * Z.of_nat (N.to_nat cap) = bytes) by lia.
    assert (Hcl : length ctrl = (N.to_nat cap + 9)%nat) by (eapply rdn_length; eauto).
    set (De := fun i m hi => if is_full (nth i ctrl EMPTY)
                             then let? (v, tr) := Dt f T (start + Z.of_nat i * size_of T) m hi in Some (Some v, tr)
                             else Some (None, [])).
    destruct (Post_list B HB be
      (fun i s => let* b := sint be_src src (c + Z.of_nat i) 1 in
                  if is_full b then ser env be_src be rel src f T (q + Z.of_nat i * size_of T) (start + Z.of_nat i * size_of T) s
                  else Ok s)
      (fun i => if is_full (nth i ctrl EMPTY)
                then let? (v, tr) := dec env Rs f T (q + Z.of_nat i * size_of T) in Some (Some v, tr)
                else Some (None, [])) De
      (fun i => q + Z.of_nat i * size_of T) (fun i => start + Z.of_nat i * size_of T) (fun _ => size_of T) src (start + bytes)
      (seq 0 (N.to_nat cap))) with (s := s7) (xs := vs) (tr := t1) as (s' & E & P); try assumption.
    { intros i _ m m' hi hi' x tr Hd Hag Hh. unfold De in *. destruct (is_full (nth i ctrl EMPTY)); [|exact Hd].
      destruct (Dt f T (start + Z.of_nat i * size_of T) m hi) as [[y ty]|] eqn:Ed; [|discriminate].
      apply some_pair in Hd as [<- <-]. now rewrite (Dt_framed _ _ _ _ _ _ _ _ _ Ed Hag Hh). }
    { intros i Hi. apply in_seq in Hi. pose proof (mul_seq i (N.to_nat cap) (size_of T) ltac:(lia) Hs1). lia. }
    { now apply seq_apart. }
    { intros i Hi sx x tx HLx Hix Hcx Hdx. apply in_seq in Hi.
      pose proof (mul_seq i (N.to_nat cap) (size_of T) ltac:(lia) Hs1) as Hmul.
      assert (Hb : sint be_src src (c + Z.of_nat i) 1 = Ok (nth i ctrl EMPTY)).
      { unfold sint, sbytes. rewrite (rdn_sub _ _ _ _ i 1 Ect) by lia. cbn [bind]. unfold slice.
        rewrite (nth_split_skip i ctrl EMPTY) by lia. now rewrite to_int_1. }
      rewrite Hb. cbn [bind]. unfold De. destruct (is_full (nth i ctrl EMPTY)).
      - destruct (dec env Rs f T (q + Z.of_nat i * size_of T)) as [[y ty]|] eqn:Ed; [|discriminate].
        apply some_pair in Hdx as [<- <-].
        destruct (IH T Hwt (q + Z.of_nat i * size_of T) (start + Z.of_nat i * size_of T) sx y ty) as (s'' & Es'' & Ps''); auto; try lia.
        { apply mod_add_dvd; [lia|exact Hst|]. now apply Z.divide_mul_r. }
        exists s''. split; [exact Es''|]. eapply Post_map; [exact Ps''|].
        intros HL m hi t0 Hh Hd0. now rewrite Hd0.
      - apply some_pair in Hdx as [<- <-]. exists sx. split; [reflexivity|]. apply (Post_refl B HB be). }
    { lia. }
    { intros i Hi z Hz. apply in_seq in Hi. pose proof (mul_seq i (N.to_nat cap) (size_of T) ltac:(lia) Hs1).
      rewrite M7 by lia. rewrite Z.add_assoc, <- !(Z.add_assoc _ _ z). apply M1'. lia. }
    exists s'. split; [exact E|].
    assert (Rc : rdn (M B s7) (B + (start + bytes)) (N.to_nat cap + 9) = Some ctrl).
    { rewrite <- Ect. rewrite (rdn_ext (M B s7) (M B s1)) by (intros; apply M7; lia).
      replace c with (q + bytes) by lia. eapply copied_rdn; [exact M1'|lia|lia]. }
    eapply (Post_own B HB be _ (seg B start bytes) _ _ _ vs _ _ s s7 s' (hown pos ++ [Rd (B + (start + bytes)) (Z.of_N cap + 9)]) [] [] (Nat.le_0_l 1)).
    + intros z Hz. unfold seg in Hz. lia.
    + intros z Hz. unfold seg in Hz. lia.
    + lia.
    + exact Mx.
    + exact Epd.
    + eapply (Post_mono B HB be); [|exact P].
      intros z (i & Hi & Hz). apply in_seq in Hi. pose proof (mul_seq i (N.to_nat cap) (size_of T) ltac:(lia) Hs1).
      unfold seg in *. lia.
    + reflexivity.
    + reflexivity.
    + constructor.
    + rewrite Eo. apply (adds_refl B HB).
    + rewrite Er. apply (adds_refl B HB).
    + intros HL.
      split. { unfold hown. cbn [app]. do 6 (constructor; [split; [own_seg|intros z Hz Hz'; unfold seg in Hz'; lia]|]).
               constructor; [|constructor]. split; [|intros z Hz Hz'; unfold seg in Hz'; lia].
               unfold span_in. split; [lia|]. right. lia. }
      split; [unfold hown; aparts|].
      split; [constructor|].
      intros m hi tre' Ha Hh HD. unfold Dt. cbn [dec].
      rewrite head; [|constructor|assumption|exact Hm|cbn [size_of]; lia]. rewrite <- ET.
      destruct (hash_rd s1 s2 s3 s4 s5 s6 s7 pos _ _ size cap growth _ m hi P2 P3 P4 P5 P6 P7 (u_of_z_bound _) (u_of_z_bound _) Hs Hcp Hg Ha)
        as (Q1 & Q2 & Q3 & Q4 & Q5 & Q6).
      { intros x Hx. apply in_or_app. now left. }
      cbn [r_rel r_mem r_tab Rt]. fold (Rt m hi). rewrite Q1, Q2, Q3, Q4, Q5, Q6.
      rewrite !(ptr_word B HB) by lia. rewrite <- Eby, Ebig. rewrite inside_Rt; [|lia|lia|apply Z.mod_1_r]. cbn [andb].
      rewrite (rd_agree _ _ _ (B + (start + bytes)) (N.to_nat cap + 9) (Z.of_N cap + 9) ctrl Ha); [| |lia|exact Rc].
      2:{ apply in_or_app. right. now left. }
      rewrite Et. replace (B + (start + bytes) =? B + start + bytes) with true by lia. rewrite Ene. cbn [andb].
      rewrite inside_Rt; [|lia|lia|now apply addr_mod].
      rewrite (mapM_eq _ (fun i => De i m hi)).
      2:{ intros i _. unfold De, Dt. now rewrite Z.add_assoc. }
      rewrite HD. reflexivity.
  - destruct (cap =? 0)%N eqn:E0; [|discriminate]. destruct (size =? 0)%N eqn:E1; [|discriminate]. cbn [andb] in H.
    apply some_pair in H as [<- <-]. assert (cap = 0%N) by lia. subst cap. 
    assert (Hctrl : ctrl = firstn 9 empty_group) by (eapply Htab; exact Et). subst ctrl.
    pose proof (append_spec B s empty_group 1 ltac:(lia)) as Ha. destruct (append s empty_group 1) as [s1 start] eqn:Ea.
    destruct Ha as (L1 & L1' & _ & _ & Eo1 & Er1 & Ep1 & M1 & M1').
    change (Z.of_nat (length empty_group)) with 16 in L1'. cbn [bind rel_off].
    destruct (patch_off_ok B be s1 pos NULLPTR_OFFSET Hp ltac:(lia)) as (s2 & E2 & P2). rewrite E2. cbn [bind].
    pose proof P2 as (L2 & _).
    destruct (patch_off_ok B be s2 (pos + 8) (start - (pos + 8)) ltac:(lia) ltac:(lia)) as (s3 & E3 & P3). rewrite E3. cbn [bind].
    pose proof P3 as (L3 & _).
    destruct (patch_int_ok B be s3 (pos + 40) 1 0 ltac:(lia) ltac:(lia)) as (s4 & E4 & P4). rewrite E4. cbn [bind].
    pose proof P4 as (L4 & _).
    destruct (patch_int_ok B be s4 (pos + 16) 8 size ltac:(lia) ltac:(lia)) as (s5 & E5 & P5). rewrite E5. cbn [bind].
    pose proof P5 as (L5 & _).
    destruct (patch_int_ok B be s5 (pos + 24) 8 0 ltac:(lia) ltac:(lia)) as (s6 & E6 & P6). rewrite E6. cbn [bind].
    pose proof P6 as (L6 & _).
    destruct (patch_int_ok B be s6 (pos + 32) 8 growth ltac:(lia) ltac:(lia)) as (s7 & E7 & P7). rewrite E7. cbn [bind].
    pose proof P7 as (L7 & _). exists s7. split; [reflexivity|].
    assert (Ex : ext pos 48 s s7).
    { eapply ext_patch; [eapply ext_patch; [eapply ext_patch; [eapply ext_patch; [eapply ext_patch; [eapply ext_patch; [eapply ext_append|exact P2| |]|exact P3| |]|exact P4| |]|exact P5| |]|exact P6| |]|exact P7| |]; eauto;
        rewrite ?of_int_length; lia. }
    assert (Rc : rdn (M B s7) (B + start) 9 = Some (firstn 9 empty_group)).
    { rd_other P7. rd_other P6. rd_other P5. rd_other P4. rd_other P3. rd_other P2.
      apply (rdn_intro _ _ (firstn 9 empty_group)). intros i b Hi.
      assert (i < 9)%nat by (apply (nth_error_Some (firstn 9 empty_group)); congruence).
      rewrite M1' by lia. rewrite nth_firstn_lt in Hi by lia. rewrite <- Hi. f_equal. lia. }
    apply (Post_leaf _ _ _ _ _ _ _ (hown pos ++ [Rd (B + start) 9])); auto.
    + intros _. unfold hown. cbn [app]. do 6 (constructor; [own_seg|]).
      constructor; [|constructor]. cbv beta iota. unfold span_in. split; [lia|]. right. lia.
    + unfold hown. aparts.
    + intros m hi HL Ha Hh. unfold Dt. cbn [dec].
      rewrite head; [|constructor|assumption|exact Hm|cbn [size_of]; lia]. rewrite <- ET.
      destruct (hash_rd s1 s2 s3 s4 s5 s6 s7 pos _ _ size 0 growth _ m hi P2 P3 P4 P5 P6 P7 (u_of_z_bound _) (u_of_z_bound _) Hs Hcp Hg Ha)
        as (Q1 & Q2 & Q3 & Q4 & Q5 & Q6).
      { intros x Hx. apply in_or_app. now left. }
      cbn [r_rel r_mem r_tab Rt]. fold (Rt m hi). rewrite Q1, Q2, Q3, Q4, Q5, Q6.
      rewrite ptr_word_null, (ptr_word B HB) by lia. rewrite Ebig. rewrite inside_Rt; [|lia|lia|apply Z.mod_1_r]. cbn [andb].
      change (N.to_nat 0 + 9)%nat with 9%nat.
      rewrite (rd_agree _ _ _ (B + start) 9 9 (firstn 9 empty_group) Ha); [| |lia|exact Rc].
      2:{ apply in_or_app. right. now left. }
      rewrite Et, E1. reflexivity.
Qed.

Theorem ser_good f : forall t, wf A t -> good f t.
Proof.
  induction f as [|f IH]; intros t Ht.
  - intros a pos s v tr _ _ _ _ _ H. discriminate H.
  - destruct t.
    + now apply good_int.
    + now apply good_raw.
    + apply good_ptr.
    + now apply good_agg.
    + now apply good_opt.
    + now apply good_var.
    + now apply good_uniq.
    + now apply good_vec.
    + apply good_str.
    + apply good_cstr.
    + now apply good_hash.
Qed.
End Main.
