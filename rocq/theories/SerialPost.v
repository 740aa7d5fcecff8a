(* What one call of the serializer establishes, and how such facts compose. *)
From Verif Require Import Base Bytes HeaderModel HashModel SerialModel SerialSpec SerialMem.
Local Open Scope Z_scope.

Lemma to_of_int be w x : (x < 256 ^ N.of_nat w)%N -> to_int be (of_int be w x) = x.
Proof. intros H. unfold to_int, of_int. destruct be; rewrite ?rev_involutive; now apply le_dec_enc_small. Qed.
Lemma of_int_length be w x : length (of_int be w x) = w.
Proof. unfold of_int. destruct be; rewrite ?rev_length; apply le_enc_length. Qed.
Lemma to_int_bound be l : bytes_ok l -> (to_int be l < 256 ^ N.of_nat (length l))%N.
Proof.
  intros H. unfold to_int. destruct be; [|now apply le_dec_bound].
  rewrite <- rev_length. apply le_dec_bound. apply Forall_rev. exact H.
Qed.

Lemma at_base_some B b z x : at_base B b z = Some x -> B <= z < B + Z.of_nat (length b).
Proof.
  unfold at_base. destruct (z <? B) eqn:E; [discriminate|]. intros H.
  assert (Hn : nth_error b (Z.to_nat (z - B)) <> None) by congruence.
  apply nth_error_Some in Hn. lia.
Qed.

Section S.
Variable B : Z.          (* load address of the finished buffer *)
Hypothesis HB : 0 < B < 2 ^ 62.
Variable be : bool.

Definition len (s : st) : Z := Z.of_nat (length (s_buf s)).
Definition M (s : st) : mem := at_base B (s_buf s).
Lemma len_nonneg s : 0 <= len s.
Proof. unfold len. lia. Qed.

Lemma M_put b p d z : (p + length d <= length b)%nat ->
  at_base B (put p d b) z =
  if (B + Z.of_nat p <=? z) && (z <? B + Z.of_nat p + Z.of_nat (length d))
  then nth_error d (Z.to_nat (z - B - Z.of_nat p)) else at_base B b z.
Proof.
  intros H. unfold at_base.
  destruct (z <? B) eqn:E.
  { replace (B + Z.of_nat p <=? z) with false by lia. reflexivity. }
  rewrite nth_error_put by exact H.
  destruct ((B + Z.of_nat p <=? z) && (z <? B + Z.of_nat p + Z.of_nat (length d))) eqn:E'.
  - replace ((p <=? Z.to_nat (z - B))%nat && (Z.to_nat (z - B) <? p + length d)%nat)%bool with true by lia.
    f_equal. lia.
  - replace ((p <=? Z.to_nat (z - B))%nat && (Z.to_nat (z - B) <? p + length d)%nat)%bool with false by lia.
    reflexivity.
Qed.

Lemma patch_spec s pos d : 0 <= pos -> pos + Z.of_nat (length d) <= len s ->
  exists s', patch s pos d = Ok s' /\ len s' = len s /\
    s_offs s' = s_offs s /\ s_rngs s' = s_rngs s /\ s_pend s' = s_pend s /\
    forall z, M s' z = if (B + pos <=? z) && (z <? B + pos + Z.of_nat (length d))
                       then nth_error d (Z.to_nat (z - B - pos)) else M s z.
Proof.
  unfold len, M. intros H0 H. unfold patch, buf_write_at.
  replace (Z.to_nat pos + length d <=? length (s_buf s))%nat with true by lia.
  cbn [verify bind]. eexists. split; [reflexivity|]. cbn [s_buf s_offs s_rngs s_pend].
  rewrite put_length by lia. repeat (split; [reflexivity|]).
  intros z. rewrite M_put by lia. now rewrite Z2Nat.id by lia.
Qed.

(* reading back *)
Lemma rdn_patched (m m' : mem) p d : (forall z, m' z = if (p <=? z) && (z <? p + Z.of_nat (length d))
                       then nth_error d (Z.to_nat (z - p)) else m z) ->
  rdn m' p (length d) = Some d.
Proof.
  intros H. apply rdn_intro. intros i b Hb. rewrite H.
  assert (i < length d)%nat by (apply nth_error_Some; congruence).
  replace ((p <=? p + Z.of_nat i) && (p + Z.of_nat i <? p + Z.of_nat (length d))) with true by lia.
  rewrite <- Hb. f_equal. lia.
Qed.

Lemma append_spec s d al : 0 <= al ->
  let '(s', start) := append s d al in
  len s <= start /\ len s' = start + Z.of_nat (length d) /\
  (0 < al -> start mod al = 0) /\ (0 < len s -> start < len s + Z.max 1 al) /\
  s_offs s' = s_offs s /\ s_rngs s' = s_rngs s /\ s_pend s' = s_pend s /\
  (forall z, z < B + len s -> M s' z = M s z) /\
  (forall z, B + start <= z < B + len s' -> M s' z = nth_error d (Z.to_nat (z - B - start))).
Proof.
  intros Hal. unfold append, buf_write, len, M. cbn [s_buf s_offs s_rngs s_pend fst snd].
  set (st0 := if (1 <? Z.to_nat al)%nat && negb (length (s_buf s) =? 0)%nat
              then (align_up (Z.to_nat al) (0 + length (s_buf s)) - 0)%nat else length (s_buf s)).
  assert (Hst : (length (s_buf s) <= st0)%nat /\ (0 < al -> Z.of_nat st0 mod al = 0) /\
                (0 < Z.of_nat (length (s_buf s)) -> Z.of_nat st0 < Z.of_nat (length (s_buf s)) + Z.max 1 al)).
  { unfold st0. destruct ((1 <? Z.to_nat al)%nat && negb (length (s_buf s) =? 0)%nat) eqn:E.
    - unfold align_up. cbn [plus]. rewrite Nat.sub_0_r.
      assert (Hal' : (Z.to_nat al <> 0)%nat) by lia.
      pose proof (Nat.mod_upper_bound (length (s_buf s)) (Z.to_nat al) Hal') as Hb.
      destruct (length (s_buf s) mod Z.to_nat al =? 0)%nat eqn:E0.
      + split; [lia|]. split; [|lia]. intros _. apply Nat.eqb_eq in E0.
        rewrite <- (Z2Nat.id al) by lia. rewrite <- Nat2Z.inj_mod, E0. reflexivity.
      + split; [lia|]. split; [|lia]. intros _.
        pose proof (Nat.div_mod_eq (length (s_buf s)) (Z.to_nat al)) as Hd.
        set (r := (length (s_buf s) mod Z.to_nat al)%nat) in *.
        set (q := (length (s_buf s) / Z.to_nat al)%nat) in *.
        replace (length (s_buf s) + (Z.to_nat al - r))%nat with (Z.to_nat al * (q + 1))%nat by nia.
        rewrite Nat2Z.inj_mul, Z2Nat.id by lia. rewrite Z.mul_comm. apply Z_mod_mult.
    - split; [lia|]. split; [|lia]. intros Hp.
      destruct (Z.eq_dec al 1) as [->|]; [apply Z.mod_1_r|].
      assert (length (s_buf s) = 0)%nat by lia. rewrite H. apply Z.mod_0_l. lia. }
  destruct Hst as (H1 & H2 & H3). clearbody st0.
  set (b := s_buf s ++ zeros (st0 + length d - length (s_buf s))).
  assert (Hb : length b = (st0 + length d)%nat).
  { unfold b. rewrite app_length, zeros_length. lia. }
  rewrite put_length by lia. rewrite Hb.
  split; [lia|]. split; [lia|]. split; [exact H2|]. split; [exact H3|].
  do 3 (split; [reflexivity|]). split.
  - intros z Hz. rewrite M_put by lia.
    replace (B + Z.of_nat st0 <=? z) with false by lia. cbn [andb].
    unfold at_base. destruct (z <? B) eqn:Ez; [reflexivity|]. unfold b.
    rewrite nth_error_app1 by lia. reflexivity.
  - intros z Hz. rewrite M_put by lia.
    replace ((B + Z.of_nat st0 <=? z) && (z <? B + Z.of_nat st0 + Z.of_nat (length d))) with true by lia.
    reflexivity.
Qed.

(* ---- facts about one step ---- *)
Definition seg (P S : Z) : Z -> Prop := fun z => B + P <= z < B + P + S.
(* bytes outside [Own] stay *)
Definition grow (Own : Z -> Prop) (s s' : st) : Prop :=
  len s <= len s' /\
  forall z, z < B + len s -> ~ Own z -> M s' z = M s z.

Definition span_in (Own : Z -> Prop) (lo hi a n : Z) : Prop :=
  0 < n /\ ((forall z, a <= z < a + n -> Own z) \/ (B + lo <= a /\ a + n <= B + hi)).
Definition ev_in (Own : Z -> Prop) (lo hi : Z) (e : ev) : Prop :=
  match e with
  | Rd a n => span_in Own lo hi a n
  | PtrAt s p _ _ => p = None /\ span_in Own lo hi s 8
  | Res _ => False
  | Blk _ a n al => 0 < n /\ B + lo <= a /\ a + n <= B + hi /\ a mod al = 0
  end.
Definition spans (tr : list ev) : list (Z * Z) :=
  flat_map (fun e => match e with Rd a n => [(a, n)] | PtrAt s _ _ _ => [(s, 8)] | _ => [] end) tr.
Definition apart2 (x y : Z * Z) : Prop := apart (fst x) (snd x) (fst y) (snd y).
Definition bspan (x : blk) : Z * Z := match x with (_, a, n, _) => (a, n) end.
(* nothing is read twice, and the owned blocks are apart *)
Definition tidy (tr : list ev) : Prop := ForallOrdPairs apart2 (spans tr) /\ ForallOrdPairs apart2 (map bspan (blks tr)).
(* nothing in front of lo is read *)
Definition starts (lo : Z) (tr : list ev) : Prop := Forall (fun x => lo <= fst x) (spans tr).

Definition blk_match (x y : blk) : Prop :=
  match x, y with (ix, _, n, al), (ix', _, n', al') => ix' = ix /\ n' = n /\ al' = al end.
Definition offs_of (C : list (blk * blk)) : list (Z * Z) :=
  flat_map (fun c => match c with ((ix, a, _, _), (_, a', _, _)) =>
                       if ix : bool then [] else [(a, a' - B)] end) C.
Definition rngs_of (C : list (blk * blk)) (Q : list Z) : list (Z * Z * Z) :=
  flat_map (fun c => match c with ((ix, a, n, _), (_, a', _, _)) =>
                       if ix : bool then [(a, a' - B, n)] else [] end) C ++
  map (fun q => (q, NULLPTR_OFFSET, 0)) Q.
Definition adds {X} (l l' new : list X) : Prop := forall e, In e l' <-> In e l \/ In e new.

(* q is resolved to buffer position o *)
Definition resolves (s : st) (q o : Z) : Prop :=
  In (q, o) (s_offs s) \/
  exists b start n, In (b, start, n) (s_rngs s) /\ b <= q < b + n /\ o = start + q - b.
Definition word (s : st) (slot : Z) : option (option Z) :=
  let? l := rdn (M s) slot 8 in Some (ptr_of true slot (to_int be l)).
Definition slot_state (s : st) (p : option Z) (slot : Z) : Prop :=
  match p with
  | None => word s slot = Some None
  | Some q => (exists o, word s slot = Some (Some (B + o)) /\ resolves s q o) \/
              (word s slot = Some None /\ In (p, slot - B) (s_pend s))
  end.
Definition ptr_match (s : st) (x y : Z * option Z * Z * Z) : Prop :=
  match x, y with (_, p, sz, al), (slot, _, sz', al') => sz' = sz /\ al' = al /\ slot_state s p slot end.
Definition pends_ok (xs ys : list (Z * option Z * Z * Z)) (e : option Z * Z) : Prop :=
  exists x y, In (x, y) (combine xs ys) /\ fst e = snd (fst (fst x)) /\ B + snd e = fst (fst (fst y)).

Definition LIM : Z := 2 ^ 62.
Definition decoder (X : Type) := mem -> Z -> option (X * list ev).
Definition framed {X} (D : decoder X) : Prop :=
  forall m m' hi hi' x tr, D m hi = Some (x, tr) -> agree tr m m' -> hi <= hi' -> D m' hi' = Some (x, tr).

(* From state s to s' an object with source events [tr] was serialized in place at the bytes Own;
   D reads it back as v. *)
Definition Post {X} (Own : Z -> Prop) (tr : list ev) (D : decoder X) (v : X) (s s' : st) : Prop :=
  grow Own s s' /\
  (len s' <= LIM -> exists tr',
     D (M s') (B + len s') = Some (v, tr') /\
     Forall (ev_in Own (len s) (len s')) tr' /\
     tidy tr' /\
     Forall2 blk_match (blks tr) (blks tr') /\
     Forall2 (ptr_match s') (ptrs tr) (ptrs tr') /\
     adds (s_offs s) (s_offs s') (offs_of (combine (blks tr) (blks tr'))) /\
     adds (s_rngs s) (s_rngs s') (rngs_of (combine (blks tr) (blks tr')) (spares tr)) /\
     exists new, s_pend s' = s_pend s ++ new /\ Forall (pends_ok (ptrs tr) (ptrs tr')) new).

(* ---- bookkeeping ---- *)
Lemma blks_app l l' : blks (l ++ l') = blks l ++ blks l'.
Proof. apply flat_map_app. Qed.
Lemma ptrs_app l l' : ptrs (l ++ l') = ptrs l ++ ptrs l'.
Proof. apply flat_map_app. Qed.
Lemma spares_app l l' : spares (l ++ l') = spares l ++ spares l'.
Proof. apply flat_map_app. Qed.
Lemma spans_app l l' : spans (l ++ l') = spans l ++ spans l'.
Proof. apply flat_map_app. Qed.
Lemma combine_app {X Y} (a a' : list X) (b b' : list Y) : length a = length b ->
  combine (a ++ a') (b ++ b') = combine a b ++ combine a' b'.
Proof.
  revert b; induction a as [|x a IH]; intros [|y b] H; cbn in *; try discriminate; [reflexivity|].
  f_equal. apply IH. lia.
Qed.
Lemma offs_of_app C C' : offs_of (C ++ C') = offs_of C ++ offs_of C'.
Proof. apply flat_map_app. Qed.
Lemma In_rngs_of_app C C' Q Q' e :
  In e (rngs_of (C ++ C') (Q ++ Q')) <-> In e (rngs_of C Q) \/ In e (rngs_of C' Q').
Proof. unfold rngs_of. rewrite flat_map_app, map_app, !in_app_iff. tauto. Qed.
Lemma FOP_app {X} (R : X -> X -> Prop) l l' :
  ForallOrdPairs R l -> ForallOrdPairs R l' -> (forall x y, In x l -> In y l' -> R x y) ->
  ForallOrdPairs R (l ++ l').
Proof.
  intros H H' Hc. induction H; cbn; [exact H'|]. constructor.
  - apply Forall_app. split; [assumption|]. apply Forall_forall. intros y Hy. apply Hc; [now left|exact Hy].
  - apply IHForallOrdPairs. intros x y Hx Hy. apply Hc; [now right|exact Hy].
Qed.
Lemma Forall2_len {X Y} (R : X -> Y -> Prop) l l' : Forall2 R l l' -> length l = length l'.
Proof. induction 1; cbn; congruence. Qed.
Lemma Forall2_impl2 {X Y} (R R' : X -> Y -> Prop) l l' : Forall2 R l l' ->
  (forall x y, In x l -> In y l' -> R x y -> R' x y) -> Forall2 R' l l'.
Proof.
  induction 1; intros Hi; constructor.
  - apply Hi; auto; now left.
  - apply IHForall2. intros; apply Hi; auto; now right.
Qed.

Lemma In_spans tr x : In x (spans tr) ->
  In (Rd (fst x) (snd x)) tr \/ exists p sz al, In (PtrAt (fst x) p sz al) tr /\ snd x = 8.
Proof.
  unfold spans. rewrite in_flat_map. intros (e & He & Hx). destruct e; cbn in Hx; try tauto;
    destruct Hx as [<-|[]]; cbn; eauto 8.
Qed.
Lemma spans_in Own lo hi tr x : Forall (ev_in Own lo hi) tr -> In x (spans tr) ->
  span_in Own lo hi (fst x) (snd x).
Proof.
  intros H Hx. rewrite Forall_forall in H. apply In_spans in Hx as [Hx|(p & sz & al & Hx & E)];
    apply H in Hx; cbn in Hx; [|rewrite E]; tauto.
Qed.
Lemma apart_intro a n b k : 0 < n -> 0 < k -> (forall z, a <= z < a + n -> b <= z < b + k -> False) ->
  apart a n b k.
Proof. intros Hn Hk H. pose proof (H (Z.max a b)). unfold apart. lia. Qed.
Lemma In_ptrs tr s p sz al : In (s, p, sz, al) (ptrs tr) <-> In (PtrAt s p sz al) tr.
Proof.
  unfold ptrs. rewrite in_flat_map. split.
  - intros (e & He & Hx). destruct e; cbn in Hx; try tauto. destruct Hx as [E|[]]. congruence.
  - intros H. eexists. split; [exact H|]. now left.
Qed.
Lemma In_blks tr ix a n al : In (ix, a, n, al) (blks tr) <-> In (Blk ix a n al) tr.
Proof.
  unfold blks. rewrite in_flat_map. split.
  - intros (e & He & Hx). destruct e; cbn in Hx; try tauto. destruct Hx as [E|[]]. congruence.
  - intros H. eexists. split; [exact H|]. now left.
Qed.

Lemma ev_in_mono (Own Own' : Z -> Prop) lo hi lo' hi' e :
  (forall z, Own z -> Own' z) -> lo' <= lo -> hi <= hi' -> ev_in Own lo hi e -> ev_in Own' lo' hi' e.
Proof.
  intros HO H1 H2. destruct e; cbn in *; unfold span_in in *; try tauto.
  - intros [? [?|?]]; (split; [assumption|]); [left; auto|right; lia].
  - intros [? [? [?|?]]]; (split; [assumption|]); (split; [assumption|]); [left; auto|right; lia].
  - lia.
Qed.

Lemma adds_trans {X} (l l1 l2 n1 n2 n : list X) :
  adds l l1 n1 -> adds l1 l2 n2 -> (forall e, In e n <-> In e n1 \/ In e n2) -> adds l l2 n.
Proof. unfold adds. intros H1 H2 H e. rewrite H2, H1, H. tauto. Qed.
Lemma adds_refl {X} (l : list X) : adds l l [].
Proof. unfold adds. cbn. tauto. Qed.

Lemma word_ext s s' slot : (forall z, slot <= z < slot + 8 -> M s z = M s' z) -> word s slot = word s' slot.
Proof. intros H. unfold word. rewrite (rdn_ext (M s) (M s')); [reflexivity|]. exact H. Qed.

(* a slot keeps its state while tables and pending list grow and its bytes stay *)
Lemma slot_state_mono s s' p slot :
  slot_state s p slot -> (forall z, slot <= z < slot + 8 -> M s z = M s' z) ->
  (forall e, In e (s_offs s) -> In e (s_offs s')) -> (forall e, In e (s_rngs s) -> In e (s_rngs s')) ->
  (forall e, In e (s_pend s) -> In e (s_pend s')) -> slot_state s' p slot.
Proof.
  intros H Hm Ho Hr Hp. pose proof (word_ext _ _ _ Hm) as W. unfold slot_state in *.
  destruct p as [q|]; [|congruence]. rewrite <- W. destruct H as [(o & H1 & H2)|[H1 H2]].
  - left. exists o. split; [exact H1|]. destruct H2 as [H2|(b & st & n & H2 & H3)]; [left; auto|right; eauto 8].
  - right. auto.
Qed.

Lemma Post_refl {X} Own (x : X) s : Post Own [] (fun _ _ => Some (x, [])) x s s.
Proof.
  split; [split; [lia|reflexivity]|]. intros _. exists []. cbn.
  split; [reflexivity|]. split; [apply Forall_nil|]. split; [split; apply FOP_nil|].
  split; [apply Forall2_nil|]. split; [apply Forall2_nil|].
  split; [apply adds_refl|]. split; [apply adds_refl|].
  exists []. rewrite app_nil_r. split; [reflexivity|constructor].
Qed.

Lemma Post_mono {X} (Own Own' : Z -> Prop) tr (D : decoder X) v s s' :
  (forall z, Own z -> Own' z) -> Post Own tr D v s s' -> Post Own' tr D v s s'.
Proof.
  intros HO [[L G] Q]. split.
  - split; [exact L|]. intros z Hz Hn. apply G; auto.
  - intros HL. destruct (Q HL) as (t & E & I & Rest). exists t. split; [exact E|]. split; [|exact Rest].
    eapply Forall_impl; [|exact I]. intros e. apply ev_in_mono; auto; lia.
Qed.
Lemma Post_dec {X} Own tr (D D' : decoder X) v s s' :
  (forall m hi, D m hi = D' m hi) -> Post Own tr D v s s' -> Post Own tr D' v s s'.
Proof.
  intros HD [G Q]. split; [exact G|]. intros HL. destruct (Q HL) as (t & E & Rest). exists t.
  split; [|exact Rest]. now rewrite <- HD.
Qed.

(* one object after the other, side by side *)
Lemma Post_seq {X Y Z0} (h : X -> Y -> Z0) (O1 O2 Own : Z -> Prop) tr1 tr2
  (D1 : decoder X) (D2 : decoder Y) v1 v2 s s1 s2 :
  framed D1 ->
  (forall z, O1 z -> Own z) -> (forall z, O2 z -> Own z) -> (forall z, O1 z -> O2 z -> False) ->
  (forall z, Own z -> z < B + len s) ->
  Post O1 tr1 D1 v1 s s1 -> Post O2 tr2 D2 v2 s1 s2 ->
  Post Own (tr1 ++ tr2)
    (fun m hi => let? (x, t) := D1 m hi in let? (y, t') := D2 m hi in Some (h x y, t ++ t'))
    (h v1 v2) s s2.
Proof.
  intros F HO1 HO2 Hdis HL [[L1 G1] Q1] [[L2 G2] Q2].
  split.
  { split; [lia|]. intros z Hz Hn. rewrite G2; [|lia|auto]. apply G1; auto. }
  intros HLim.
  destruct Q1 as (t1 & E1 & I1 & A1 & B1 & Pt1 & Of1 & R1 & n1 & N1 & NP1); [lia|].
  destruct (Q2 HLim) as (t2 & E2 & I2 & A2 & B2 & Pt2 & Of2 & R2 & n2 & N2 & NP2).
  assert (Keep : forall a n, span_in O1 (len s) (len s1) a n ->
                 forall z, a <= z < a + n -> M s1 z = M s2 z).
  { intros a n [Hn [Hsp|Hsp]] z Hz; symmetry; apply G2.
    - pose proof (HL _ (HO1 _ (Hsp z Hz))). lia.
    - intros H2. exact (Hdis z (Hsp z Hz) H2).
    - lia.
    - intros H2. pose proof (HL _ (HO2 _ H2)). lia. }
  exists (t1 ++ t2).
  assert (Ag : agree t1 (M s1) (M s2)).
  { intros a n Hi z Hz. rewrite Forall_forall in I1. apply I1 in Hi. cbn in Hi. eapply Keep; eauto. }
  rewrite (F _ (M s2) _ (B + len s2) _ _ E1 Ag) by lia. rewrite E2.
  split; [reflexivity|].
  split. { apply Forall_app. split; eapply Forall_impl; try eassumption; intros e; apply ev_in_mono; auto; lia. }
  split.
  { destruct A1 as [A1 A1'], A2 as [A2 A2']. split.
    2: { rewrite blks_app, map_app. apply FOP_app; [exact A1'|exact A2'|]. intros x y Hx Hy.
         apply in_map_iff in Hx as ([[[ix a] n] al] & <- & Hx). apply in_map_iff in Hy as ([[[iy b] k] bl] & <- & Hy).
         apply In_blks in Hx, Hy. rewrite Forall_forall in I1, I2. apply I1 in Hx. apply I2 in Hy. cbn in Hx, Hy. unfold apart2, apart. cbn. lia. }
    rewrite spans_app. apply FOP_app; [exact A1|exact A2|].
    intros x y Hx Hy. apply (spans_in _ _ _ _ _ I1) in Hx. apply (spans_in _ _ _ _ _ I2) in Hy.
    destruct Hx as [Hnx Hx], Hy as [Hny Hy]. apply apart_intro; [exact Hnx|exact Hny|].
    intros z Hz1 Hz2. destruct Hx as [Hx|Hx], Hy as [Hy|Hy].
    - exact (Hdis z (Hx z Hz1) (Hy z Hz2)).
    - pose proof (HL _ (HO1 _ (Hx z Hz1))). lia.
    - pose proof (HL _ (HO2 _ (Hy z Hz2))). lia.
    - lia. }
  pose proof (Forall2_len _ _ _ B1) as LB. pose proof (Forall2_len _ _ _ Pt1) as LP.
  rewrite !blks_app, !ptrs_app, spares_app.
  split. { now apply Forall2_app. }
  split.
  { apply Forall2_app; [|exact Pt2]. eapply Forall2_impl2; [exact Pt1|].
    intros [[[sl p] sz] al] [[[sl' p'] sz'] al'] Hx Hy (-> & -> & Hs). split; [reflexivity|]. split; [reflexivity|].
    apply In_ptrs in Hy. rewrite Forall_forall in I1. apply I1 in Hy. cbn in Hy.
    eapply slot_state_mono; [exact Hs| | | |].
    - eapply Keep. apply Hy.
    - intros e He. apply Of2. now left.
    - intros e He. apply R2. now left.
    - intros e He. rewrite N2. apply in_or_app. now left. }
  rewrite (combine_app _ _ _ _ LB).
  split. { eapply adds_trans; [exact Of1|exact Of2|]. intros e. rewrite offs_of_app, in_app_iff. tauto. }
  split. { eapply adds_trans; [exact R1|exact R2|]. intros e. apply In_rngs_of_app. }
  exists (n1 ++ n2). split. { rewrite N2, N1. now rewrite app_assoc. }
  rewrite Forall_app. unfold pends_ok in *. rewrite (combine_app _ _ _ _ LP).
  split; eapply Forall_impl; try eassumption; intros e (x & y & Hi & H); exists x, y;
    (split; [apply in_or_app; auto|exact H]).
Qed.

(* an object that owns the block with contents Inner, serialized in place there.
   own = the events of reading the object itself (and block parts that are not objects),
   bl, bl' = at most one block other pointers may refer to. *)
Lemma Post_own {X Y} (Own Inner : Z -> Prop) tro tre (De : decoder Y) ve (D : decoder X) v s0 s2 s' own bl bl' (Hb1 : (length bl' <= 1)%nat) :
  (forall z, Own z -> z < B + len s0) -> (forall z, Inner z -> B + len s0 <= z < B + len s2) ->
  len s0 <= len s2 ->
  (forall z, z < B + len s0 -> ~ Own z -> M s2 z = M s0 z) ->
  s_pend s2 = s_pend s0 ->
  Post Inner tre De ve s2 s' ->
  blks tro = bl -> ptrs tro = [] ->
  Forall2 blk_match bl bl' ->
  adds (s_offs s0) (s_offs s2) (offs_of (combine bl bl')) ->
  adds (s_rngs s0) (s_rngs s2) (rngs_of (combine bl bl') (spares tro)) ->
  (len s2 <= LIM ->
   Forall (fun e => match e with
                    | Rd a n => span_in Own (len s0) (len s2) a n /\ forall z, a <= z < a + n -> Inner z -> False
                    | _ => False end) own /\
   ForallOrdPairs apart2 (spans own) /\
   Forall (fun x : blk => match x with (_, a, n, al) => 0 < n /\ B + len s0 <= a /\ a + n <= B + len s2 /\ a mod al = 0 end) bl' /\
   forall m hi tre', agree own (M s2) m -> B + len s2 <= hi -> De m hi = Some (ve, tre') ->
     D m hi = Some (v, own ++ map (fun x : blk => match x with (ix, a, n, al) => Blk ix a n al end) bl' ++ tre')) ->
  Post Own (tro ++ tre) D v s0 s'.
Proof.
  intros HO HI L0 HM Hpd Hpost Hbl Hpt Hmatch Ho Hr Hd.
  destruct Hpost as [[L2 G2] Q2].
  split.
  { split; [lia|]. intros z Hz Hn. rewrite G2; [now apply HM|lia|]. intros Hi. pose proof (HI _ Hi). lia. }
  intros HLim. destruct Hd as (Hown & Hoa & Hbr & HD); [lia|].
  destruct (Q2 HLim) as (te & E & I & Ap & Bm & Pm & Of & Rg & new & En & Np).
  set (blkev := map (fun x : blk => match x with (ix, a, n, al) => Blk ix a n al end) bl').
  assert (Hlt : forall a n, In (Rd a n) own -> forall z, a <= z < a + n -> z < B + len s2).
  { intros a n Hi z Hz. rewrite Forall_forall in Hown. apply Hown in Hi.
    destruct Hi as ([Hn [Hs|Hs]] & Ha); [|lia]. pose proof (HO _ (Hs z Hz)). lia. }
  assert (Hag : agree own (M s2) (M s')).
  { intros a n Hi z Hz. pose proof (Hlt a n Hi z Hz) as Hz2.
    rewrite Forall_forall in Hown. apply Hown in Hi. destruct Hi as (Hs & Ha).
    symmetry. apply G2; [exact Hz2|]. intros H. exact (Ha z Hz H). }
  exists (own ++ blkev ++ te). split; [apply HD; [exact Hag|lia|exact E]|].
  split.
  { rewrite !Forall_app. split; [|split].
    - eapply Forall_impl; [|exact Hown]. intros [a n| | |] H; try tauto. cbn. destruct H as ((H1 & H2) & H3).
      split; [exact H1|]. destruct H2; [now left|right; lia].
    - unfold blkev. rewrite Forall_map. eapply Forall_impl; [|exact Hbr]. intros [[[ix a] n] al] H. cbn in *. lia.
    - eapply Forall_impl; [|exact I]. intros [a n|sl p sz al|q|ix a n al] H; cbn in *; unfold span_in in *; try tauto.
      + destruct H as [Hn [H|H]]; (split; [exact Hn|]); right; [|lia].
        pose proof (HI _ (H a ltac:(lia))). pose proof (HI _ (H (a + n - 1) ltac:(lia))). lia.
      + destruct H as [Hp [Hn [H|H]]]; (split; [exact Hp|]); (split; [exact Hn|]); right; [|lia].
        pose proof (HI _ (H sl ltac:(lia))). pose proof (HI _ (H (sl + 8 - 1) ltac:(lia))). lia.
      + lia. }
  assert (Eb : spans blkev = []).
  { unfold blkev. clear. induction bl' as [|[[[? ?] ?] ?] l IH]; [reflexivity|]. exact IH. }
  assert (Eb2 : blks blkev = bl').
  { unfold blkev. clear. induction bl' as [|[[[? ?] ?] ?] l IH]; [reflexivity|]. cbn. now f_equal. }
  assert (Eb3 : ptrs blkev = []).
  { unfold blkev. clear. induction bl' as [|[[[? ?] ?] ?] l IH]; [reflexivity|]. exact IH. }
  assert (Eo2 : blks own = []).
  { clear - Hown. induction Hown as [|x l H1 H2 IH]; [reflexivity|]. destruct x; try tauto; exact IH. }
  assert (Eo3 : ptrs own = []).
  { clear - Hown. induction Hown as [|x l H1 H2 IH]; [reflexivity|]. destruct x; try tauto; exact IH. }
  destruct Ap as [Ap Ap'].
  split.
  { split.
    2: { rewrite !blks_app, Eb2, Eo2. cbn [app]. rewrite map_app. apply FOP_app; [|exact Ap'|].
         - destruct bl' as [|b [|]]; [constructor|constructor; constructor|cbn in Hb1; lia].
         - intros x y Hx Hy. apply in_map_iff in Hx as ([[[ix a] n] al] & <- & Hx). apply in_map_iff in Hy as ([[[iy b] k] bl0] & <- & Hy).
           apply In_blks in Hy. rewrite Forall_forall in I, Hbr. apply I in Hy. apply Hbr in Hx. cbn in Hx, Hy. unfold apart2, apart. cbn. lia. }
    rewrite !spans_app, Eb. cbn [app]. apply FOP_app; [exact Hoa|exact Ap|].
    intros x y Hx Hy.
    apply (spans_in _ _ _ _ _ I) in Hy.
    apply In_spans in Hx as [Hx|(p & sz & al & Hx & Ex)];
      [|rewrite Forall_forall in Hown; apply Hown in Hx; tauto].
    pose proof (Hlt _ _ Hx) as Hx2. rewrite Forall_forall in Hown. apply Hown in Hx.
    destruct Hx as ((H1 & H2) & H3). destruct Hy as (H4 & H5).
    apply apart_intro; [exact H1|exact H4|]. intros z Hz1 Hz2. pose proof (Hx2 z Hz1).
    destruct H5 as [H5|H5]; [exact (H3 z Hz1 (H5 z Hz2))|lia]. }
  rewrite !blks_app, !ptrs_app, Eb2, Eb3, Eo2, Eo3, Hbl, Hpt, spares_app. cbn [app].
  split; [now apply Forall2_app|].
  split; [exact Pm|].
  rewrite (combine_app _ _ _ _ (Forall2_len _ _ _ Hmatch)).
  split. { eapply adds_trans; [exact Ho|exact Of|]. intros e. rewrite offs_of_app, in_app_iff. tauto. }
  split. { eapply adds_trans; [exact Hr|exact Rg|]. intros e. apply In_rngs_of_app. }
  exists new. rewrite En, Hpd. now split.
Qed.

(* table entries point into the buffer *)
Definition tab_inv (s : st) : Prop :=
  (forall q o, In (q, o) (s_offs s) -> 0 <= o <= len s) /\
  (forall b o n, In (b, o, n) (s_rngs s) -> n = 0 \/ (0 <= o /\ 0 <= n /\ o + n <= len s)).
Definition inv (s : st) : Prop := len s <= LIM -> tab_inv s.
Lemma Post_inv {X} Own tr (D : decoder X) v s s' : Post Own tr D v s s' -> inv s -> inv s'.
Proof.
  intros [[L G] Q] I HL. destruct (Q HL) as (t & E & Ei & Ap & Bm & Pm & Of & Rg & _).
  destruct (I ltac:(lia)) as [I1 I2].
  assert (Hb : forall x y, In (x, y) (combine (blks tr) (blks t)) ->
    match x, y with (ix, _, n, _), (ix', a', n', _) => n = n' /\ 0 < n' /\ B + len s <= a' /\ a' + n' <= B + len s' end).
  { intros x y H. pose proof (in_combine_r _ _ _ _ H) as Hr.
    assert (Hm : blk_match x y).
    { revert H. clear - Bm. induction Bm; cbn; [tauto|]. intros [H0|H0]; [congruence|auto]. }
    destruct x as [[[ix a] n] al], y as [[[ix' a'] n'] al']. destruct Hm as (_ & -> & _).
    apply In_blks in Hr. rewrite Forall_forall in Ei. apply Ei in Hr. cbn in Hr.
    pose proof (len_nonneg s). lia. }
  pose proof (len_nonneg s).
  split.
  - intros q o H0. apply Of in H0 as [H0|H0]; [specialize (I1 _ _ H0); lia|].
    unfold offs_of in H0. rewrite in_flat_map in H0. destruct H0 as ([x y] & Hc & Hx). apply Hb in Hc.
    destruct x as [[[ix a] n] al], y as [[[ix' a'] n'] al']. destruct ix; [destruct Hx|].
    destruct Hx as [E0|[]]. injection E0 as <- <-. lia.
  - intros b o n H0. apply Rg in H0 as [H0|H0]; [specialize (I2 _ _ _ H0); lia|].
    unfold rngs_of in H0. rewrite in_app_iff, in_flat_map, in_map_iff in H0.
    destruct H0 as [([x y] & Hc & Hx)|(q & E0 & _)].
    + apply Hb in Hc. destruct x as [[[ix a] n0] al], y as [[[ix' a'] n'] al']. destruct ix; [|destruct Hx].
      destruct Hx as [E0|[]]. injection E0 as <- <- <-. lia.
    + injection E0 as <- <- <-. now left.
Qed.

(* a list of objects side by side *)
Definition segs {A} (posn szn : A -> Z) (items : list A) : Z -> Prop :=
  fun z => exists i, In i items /\ seg (posn i) (szn i) z.
Lemma Post_list {A X} (g : A -> st -> res st) (sd : A -> option (X * list ev)) (D : A -> decoder X)
  (adr posn szn : A -> Z) (src : mem) (L : Z) :
  forall items,
  (forall i, In i items -> framed (D i)) ->
  (forall i, In i items -> posn i + szn i <= L) ->
  ForallOrdPairs (fun i j => apart (posn i) (szn i) (posn j) (szn j)) items ->
  (forall i, In i items -> forall s x tr, L <= len s -> inv s ->
     (forall z, 0 <= z < szn i -> M s (B + posn i + z) = src (adr i + z)) ->
     sd i = Some (x, tr) -> exists s', g i s = Ok s' /\ Post (seg (posn i) (szn i)) tr (D i) x s s') ->
  forall s xs tr, L <= len s -> inv s ->
  (forall i, In i items -> forall z, 0 <= z < szn i -> M s (B + posn i + z) = src (adr i + z)) ->
  mapM sd items = Some (xs, tr) ->
  exists s', foldM g items s = Ok s' /\
    Post (segs posn szn items) tr (fun m hi => mapM (fun i => D i m hi) items) xs s s'.
Proof.
  induction items as [|i items IH]; intros Fr Rg Ap Hg s xs tr HL HI Hc Hm.
  - cbn in *. apply some_pair in Hm as [<- <-]. exists s. split; [reflexivity|]. apply Post_refl.
  - cbn [mapM] in Hm. destruct (sd i) as [[x t]|] eqn:E; [|discriminate].
    destruct (mapM sd items) as [[xs' ts]|] eqn:E'; [|discriminate]. apply some_pair in Hm as [<- <-].
    destruct (Hg i (or_introl eq_refl) s x t HL HI (Hc i (or_introl eq_refl)) E) as (s1 & G1 & P1).
    inversion Ap as [|? ? Ap1 Ap2]; subst. rewrite Forall_forall in Ap1.
    assert (L1 : len s <= len s1) by apply P1.
    destruct (IH) with (s := s1) (xs := xs') (tr := ts) as (s2 & G2 & P2); try assumption.
    { intros j Hj. apply Fr. now right. }
    { intros j Hj. apply Rg. now right. }
    { intros j Hj. apply Hg. now right. }
    { lia. }
    { eapply Post_inv; eauto. }
    { intros j Hj z Hz. destruct P1 as [[_ F1] _]. rewrite F1.
      - apply (Hc j); [now right|exact Hz].
      - pose proof (Rg j (or_intror Hj)). lia.
      - pose proof (Ap1 j Hj) as H. unfold seg, apart in *. lia. }
    { reflexivity. }
    exists s2. split; [cbn [foldM]; rewrite G1; exact G2|].
    cbn [mapM].
    eapply (Post_seq (fun a b => a :: b)); [apply Fr; now left| | | | |exact P1|exact P2].
    + intros z Hz. exists i. split; [now left|exact Hz].
    + intros z (j & Hj & Hz). exists j. split; [now right|exact Hz].
    + intros z Hz (j & Hj & Hz'). pose proof (Ap1 j Hj) as H. unfold seg, apart in *. lia.
    + intros z (j & Hj & Hz). pose proof (Rg j Hj). unfold seg in Hz. lia.
Qed.

(* ---- small steps ---- *)
Lemma Post_map {X Y} Own tr (D : decoder X) (D' : decoder Y) v v' s s' :
  Post Own tr D v s s' ->
  (len s' <= LIM -> forall m hi t, B + len s <= hi -> D m hi = Some (v, t) -> D' m hi = Some (v', t)) ->
  Post Own tr D' v' s s'.
Proof.
  intros [[L G] Q] H. split; [split; assumption|]. intros HL. destruct (Q HL) as (t & E & Rest). exists t.
  split; [|exact Rest]. apply H; [exact HL|lia|exact E].
Qed.
Lemma Post_tr {X} Own tr tr' (D : decoder X) v s s' :
  blks tr' = blks tr -> ptrs tr' = ptrs tr -> spares tr' = spares tr ->
  Post Own tr D v s s' -> Post Own tr' D v s s'.
Proof. intros E1 E2 E3. unfold Post. now rewrite E1, E2, E3. Qed.

Definition rdD (p : Z) (n : nat) : decoder (list N) :=
  fun m _ => let? l := rdn m (B + p) n in Some (l, [Rd (B + p) (Z.of_nat n)]).
Lemma rdD_framed p n : framed (rdD p n).
Proof.
  intros m m' hi hi' x tr H Ha _. unfold rdD in *. dec_inv H.
  rewrite <- (rdn_ext m m'); [now rewrite Heqo|]. apply Ha. now left.
Qed.

Definition patched (s s' : st) (p : Z) (d : list N) : Prop :=
  len s' = len s /\ s_offs s' = s_offs s /\ s_rngs s' = s_rngs s /\ s_pend s' = s_pend s /\
  forall z, M s' z = if (B + p <=? z) && (z <? B + p + Z.of_nat (length d))
                     then nth_error d (Z.to_nat (z - (B + p))) else M s z.
Lemma patch_ok s p d : 0 <= p -> p + Z.of_nat (length d) <= len s ->
  exists s', patch s p d = Ok s' /\ patched s s' p d.
Proof.
  intros H0 H. destruct (patch_spec s p d H0 H) as (s' & E & E1 & E2 & E3 & E4 & E5).
  exists s'. split; [exact E|]. repeat (split; [assumption|]). intros z. rewrite E5. now rewrite Z.sub_add_distr.
Qed.
Lemma patch_int_ok s p w x : 0 <= p -> p + Z.of_nat w <= len s ->
  exists s', patch_int be s p w x = Ok s' /\ patched s s' p (of_int be w x).
Proof. intros. unfold patch_int. apply patch_ok; [assumption|]. now rewrite of_int_length. Qed.
Lemma patch_off_ok s p o : 0 <= p -> p + 8 <= len s ->
  exists s', patch_off be s p o = Ok s' /\ patched s s' p (of_int be 8 (u_of_z o)).
Proof. intros. unfold patch_off. now apply patch_int_ok. Qed.
Lemma patched_same s s' p d : patched s s' p d -> rdn (M s') (B + p) (length d) = Some d.
Proof. intros (_ & _ & _ & _ & H). eapply rdn_patched. exact H. Qed.
Lemma patched_same_int s s' p w x : patched s s' p (of_int be w x) -> (x < 256 ^ N.of_nat w)%N ->
  rdn (M s') (B + p) w = Some (of_int be w x) /\ to_int be (of_int be w x) = x.
Proof.
  intros H Hx. split; [|now apply to_of_int]. pose proof (patched_same _ _ _ _ H) as E.
  now rewrite of_int_length in E.
Qed.
Lemma patched_out s s' p d z : patched s s' p d -> ~ (B + p <= z < B + p + Z.of_nat (length d)) -> M s' z = M s z.
Proof.
  intros (_ & _ & _ & _ & H) Hz. rewrite H.
  destruct ((B + p <=? z) && (z <? B + p + Z.of_nat (length d))) eqn:E; [lia|reflexivity].
Qed.
Lemma patched_other s s' p d q n : patched s s' p d -> apart p (Z.of_nat (length d)) q (Z.of_nat n) ->
  rdn (M s') (B + q) n = rdn (M s) (B + q) n.
Proof.
  intros H Ha. apply rdn_ext. intros z Hz. eapply patched_out; [exact H|]. unfold apart in Ha. lia.
Qed.

Lemma Post_read s p n l : (0 < n)%nat -> rdn (M s) (B + p) n = Some l -> Post (seg p (Z.of_nat n)) [] (rdD p n) l s s.
Proof.
  intros Hn Hl. split; [split; [lia|reflexivity]|]. intros _. exists [Rd (B + p) (Z.of_nat n)].
  unfold rdD. rewrite Hl. split; [reflexivity|].
  split. { constructor; [|constructor]. cbn. split; [lia|]. left. intros z Hz. exact Hz. }
  split. { split; repeat constructor. }
  split; [constructor|]. split; [constructor|]. split; [apply adds_refl|]. split; [apply adds_refl|].
  exists []. rewrite app_nil_r. split; [reflexivity|constructor].
Qed.
Lemma Post_write s s' p d : (0 < length d)%nat -> patched s s' p d ->
  Post (seg p (Z.of_nat (length d))) [] (rdD p (length d)) d s s'.
Proof.
  intros Hn Hp. pose proof (patched_same _ _ _ _ Hp) as Hl. pose proof Hp as (L & Eo & Er & Ep & Hm).
  split. { split; [lia|]. intros z Hz Hn'. eapply patched_out; [exact Hp|exact Hn']. }
  intros _. exists [Rd (B + p) (Z.of_nat (length d))].
  unfold rdD. rewrite Hl. split; [reflexivity|].
  split. { constructor; [|constructor]. cbn. split; [lia|]. left. intros z Hz. exact Hz. }
  split. { split; repeat constructor. }
  rewrite Eo, Er, Ep.
  split; [constructor|]. split; [constructor|]. split; [apply adds_refl|]. split; [apply adds_refl|].
  exists []. rewrite app_nil_r. split; [reflexivity|constructor].
Qed.

(* pointer words *)
Lemma ptr_word_null slot : ptr_of true slot (u_of_z NULLPTR_OFFSET) = None.
Proof. reflexivity. Qed.
Lemma ptr_word pos o : 0 <= pos <= LIM -> 0 <= o <= LIM ->
  ptr_of true (B + pos) (u_of_z (o - pos)) = Some (B + o).
Proof.
  unfold LIM. change (2 ^ 62) with 4611686018427387904 in *. intros Hp Ho.
  unfold ptr_of. rewrite z_of_u_of_z by lia. unfold NULLPTR_OFFSET.
  replace (o - pos =? -9223372036854775808) with false by lia.
  unfold wrap_i64. rewrite z_of_u_of_z by lia.
  replace (B + pos + (o - pos)) with (B + o) by lia. replace (B + o =? 0) with false by lia. reflexivity.
Qed.
End S.
