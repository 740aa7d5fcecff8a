(* Pending pointers: after the final pass every non-owning pointer is the image of its source. *)
From Verif Require Import Base Bytes HeaderModel HashModel SerialModel SerialSpec SerialMem SerialPost SerialSer.
Local Open Scope Z_scope.

(* ---- uniqueness of images ---- *)
Definition touches (x : blk) (z : Z) : Prop := match x with (_, a, n, _) => a <= z < a + n end.
Lemma C_unique xs : forall ys (x1 x2 y1 y2 : blk) z,
  ForallOrdPairs (fun x y : blk => match x, y with (_, a, n, _), (_, b, k, _) => apart a n b k end) xs ->
  In (x1, y1) (combine xs ys) -> In (x2, y2) (combine xs ys) -> touches x1 z -> touches x2 z ->
  x1 = x2 /\ y1 = y2.
Proof.
  induction xs as [|x xs IH]; intros [|y ys] x1 x2 y1 y2 z H H1 H2 T1 T2; cbn in H1, H2; try tauto.
  inversion H as [|? ? Hx Hxs]; subst. rewrite Forall_forall in Hx.
  assert (K : forall x' y', In (x', y') (combine xs ys) -> touches x z -> touches x' z -> False).
  { intros x' y' Hi T T'. apply in_combine_l in Hi. apply Hx in Hi.
    destruct x as [[[? ?] ?] ?], x' as [[[? ?] ?] ?]. unfold touches, apart in *. lia. }
  destruct H1 as [E1|H1], H2 as [E2|H2].
  - split; congruence.
  - injection E1 as -> ->. exfalso. eapply K; eauto.
  - injection E2 as -> ->. exfalso. eapply K; eauto.
  - eapply IH; eauto.
Qed.

Lemma pred_range_max p (l : list (Z * Z * Z)) acc r :
  fold_left (fun acc r => if fst (fst r) <=? p
                          then match acc with
                               | Some q => if fst (fst q) <? fst (fst r) then Some r else acc
                               | None => Some r
                               end
                          else acc) l acc = r ->
  (forall q, acc = Some q -> fst (fst q) <= p /\ exists r', r = Some r' /\ fst (fst q) <= fst (fst r') <= p) \/
  (exists q, acc = Some q /\ p < fst (fst q)) .
Proof.
  revert acc; induction l as [|x l IH]; intros acc H; cbn in H.
  - subst r. destruct acc as [q|]; [|left; intros ? [=]].
    destruct (Z_le_gt_dec (fst (fst q)) p); [left|right; exists q; split; [reflexivity|lia]].
    intros q' [= <-]. split; [lia|]. exists q. split; [reflexivity|lia].
  - destruct (fst (fst x) <=? p) eqn:E.
    + destruct acc as [q|].
      * destruct (fst (fst q) <? fst (fst x)) eqn:E'.
        -- apply IH in H as [H|(q' & [= <-] & Hq)]; [|lia]. left. intros q' [= <-].
           destruct (H x eq_refl) as (? & r' & -> & ?). split; [lia|]. exists r'. split; [reflexivity|lia].
        -- now apply IH in H.
      * left. intros ? [=].
    + now apply IH in H.
Qed.
Lemma pred_range_covers p (l : list (Z * Z * Z)) x : In x l -> fst (fst x) <= p ->
  forall acc, (forall q, acc = Some q -> fst (fst q) <= p) ->
  exists r, fold_left (fun acc r => if fst (fst r) <=? p
                          then match acc with
                               | Some q => if fst (fst q) <? fst (fst r) then Some r else acc
                               | None => Some r
                               end
                          else acc) l acc = Some r /\ fst (fst x) <= fst (fst r) <= p.
Proof.
  induction l as [|y l IH]; intros Hi Hx acc Hacc; [destruct Hi|]. cbn [fold_left].
  set (acc' := if fst (fst y) <=? p
               then match acc with
                    | Some q => if fst (fst q) <? fst (fst y) then Some y else acc
                    | None => Some y
                    end
               else acc).
  assert (Hacc' : forall q, acc' = Some q -> fst (fst q) <= p).
  { unfold acc'. intros q Hq. destruct (fst (fst y) <=? p) eqn:E; [|now apply Hacc].
    destruct acc as [q0|]; [destruct (fst (fst q0) <? fst (fst y))|]; try (injection Hq as <-; lia); now apply Hacc. }
  destruct Hi as [->|Hi]; [|now apply IH].
  assert (Ha : exists q, acc' = Some q /\ fst (fst x) <= fst (fst q) <= p).
  { unfold acc'. replace (fst (fst x) <=? p) with true by lia. destruct acc as [q0|].
    - destruct (fst (fst q0) <? fst (fst x)) eqn:E; [exists x; split; [reflexivity|lia]|].
      exists q0. split; [reflexivity|]. specialize (Hacc q0 eq_refl). lia.
    - exists x. split; [reflexivity|lia]. }
  destruct Ha as (q & Eq & Hq).
  destruct (pred_range_max p l acc' _ eq_refl) as [H|(q' & Eq' & Hq')].
  - destruct (H q Eq) as (_ & r' & Er & Hr). exists r'. split; [exact Er|lia].
  - rewrite Eq in Eq'. injection Eq' as <-. lia.
Qed.

Section F.
Variable B : Z.
Hypothesis HB : 0 < B < 2 ^ 62.
Variable be : bool.
Variables tr tr' : list ev.
Let C := combine (blks tr) (blks tr').

Hypothesis Hdis : disjoint_blocks tr.
Hypothesis Hmatch : Forall2 blk_match (blks tr) (blks tr').
Hypothesis Hpos : forall ix a n al, In (Blk ix a n al) tr' -> 0 < n.

Definition resolve1 (s : st) (q : Z) : option Z :=
  match find_off q (s_offs s) with Some o => Some o | None => resolve_range s q end.
Definition tabs (s : st) : Prop :=
  (forall e, In e (s_offs s) <-> In e (offs_of B C)) /\
  (forall e, In e (s_rngs s) <-> In e (rngs_of B C (spares tr))).

Lemma In_spares q : In q (spares tr) <-> In (Res q) tr.
Proof.
  unfold spares. rewrite in_flat_map. split.
  - intros (e & He & Hx). destruct e; cbn in Hx; try tauto. destruct Hx as [E|[]]. congruence.
  - intros H. eexists. split; [exact H|]. now left.
Qed.
Lemma C_match x y : In (x, y) C -> blk_match x y /\ In x (blks tr) /\ In y (blks tr').
Proof.
  intros H. split; [|split; [eapply in_combine_l|eapply in_combine_r]; exact H].
  unfold C in H. revert H. clear - Hmatch. induction Hmatch; cbn; [tauto|]. intros [H0|H0]; [congruence|auto].
Qed.
Lemma in_offs q o : In (q, o) (offs_of B C) <-> exists n al a' n' al', In ((false, q, n, al), (false, a', n', al')) C /\ o = a' - B.
Proof.
  unfold offs_of. rewrite in_flat_map. split.
  - intros ([[[[ix a] n] al] [[[ix' a'] n'] al']] & Hc & Hx). destruct ix; [destruct Hx|].
    destruct Hx as [E|[]]. pose proof (C_match _ _ Hc) as ((-> & _) & _).
    assert (a = q) by congruence. subst a. exists n, al, a', n', al'. split; [exact Hc|congruence].
  - intros (n & al & a' & n' & al' & Hc & ->). eexists. split; [exact Hc|]. now left.
Qed.
Lemma in_rngs b o n : In (b, o, n) (rngs_of B C (spares tr)) <->
  (exists al a' n' al', In ((true, b, n, al), (true, a', n', al')) C /\ o = a' - B) \/
  (In (Res b) tr /\ o = NULLPTR_OFFSET /\ n = 0).
Proof.
  unfold rngs_of. rewrite in_app_iff, in_flat_map, in_map_iff. split.
  - intros [([[[[ix a] k] al] [[[ix' a'] n'] al']] & Hc & Hx)|(q & E & Hq)].
    + destruct ix; [|destruct Hx]. destruct Hx as [E|[]]. pose proof (C_match _ _ Hc) as ((-> & _) & _).
      assert (a = b) by congruence. assert (k = n) by congruence. subst a k.
      left. exists al, a', n', al'. split; [exact Hc|congruence].
    + right. apply In_spares in Hq. assert (q = b) by congruence. subst q. split; [exact Hq|]. split; congruence.
  - intros [(al & a' & n' & al' & Hc & ->)|(Hq & -> & ->)].
    + left. eexists. split; [exact Hc|]. now left.
    + right. exists b. split; [reflexivity|]. now apply In_spares.
Qed.
Lemma C_pos ix a n al y : In ((ix, a, n, al), y) C -> 0 < n.
Proof.
  intros H. destruct y as [[[ix' a'] n'] al']. destruct (C_match _ _ H) as ((E1 & E2 & _) & _ & Hy).
  apply (In_blks B HB) in Hy. apply Hpos in Hy. lia.
Qed.

Lemma resolve1_spec s q o : tabs s -> (resolve1 s q = Some o <-> image C q (B + o)).
Proof.
  intros [To Tr]. destruct Hdis as [Hd1 Hd2].
  assert (Sound : forall o', resolve1 s q = Some o' -> image C q (B + o')).
  { unfold resolve1. intros o' H. destruct (find_off q (s_offs s)) as [o0|] eqn:E.
    - injection H as <-. apply find_off_in in E. apply To, in_offs in E as (n & al & a' & n' & al' & Hc & ->).
      exists false, q, n, al, a', n', al'. split; [exact Hc|]. split; [reflexivity|lia].
    - apply resolve_range_in in H as (b & st & n & Hi & Hr & ->).
      apply Tr, in_rngs in Hi as [(al & a' & n' & al' & Hc & ->)|(_ & _ & ->)]; [|lia].
      exists true, b, n, al, a', n', al'. split; [exact Hc|]. split; [exact Hr|lia]. }
  assert (Unique : forall o1 o2, image C q o1 -> image C q o2 -> o1 = o2).
  { intros o1 o2 (ix & a & n & al & a' & n' & al' & Hc & Hx) (jx & b & k & bl & b' & k' & bl' & Hc2 & Hx2).
    pose proof (C_pos _ _ _ _ _ Hc). pose proof (C_pos _ _ _ _ _ Hc2).
    destruct (C_unique _ _ _ _ _ _ q Hd1 Hc Hc2) as [E1 E2].
    - cbn. destruct ix; lia.
    - cbn. destruct jx; lia.
    - injection E1 as -> -> -> ->. injection E2 as -> -> ->. destruct jx; lia. }
  split; [apply Sound|].
  intros Him. enough (exists o', resolve1 s q = Some o') as (o' & E).
  { rewrite E. f_equal. pose proof (Unique _ _ Him (Sound _ E)). lia. }
  destruct Him as (ix & a & n & al & a' & n' & al' & Hc & Hx). pose proof (C_pos _ _ _ _ _ Hc) as Hn.
  unfold resolve1. destruct ix.
  - destruct Hx as [Hx _].
    destruct (find_off q (s_offs s)) as [o0|] eqn:E; [eauto|].
    assert (Hr : In (a, a' - B, n) (s_rngs s)). { apply Tr, in_rngs. left. eauto 8. }
    unfold resolve_range, pred_range.
    destruct (pred_range_covers q (s_rngs s) (a, a' - B, n) Hr ltac:(cbn; lia) None ltac:(discriminate)) as (r & Er & Hrb).
    rewrite Er. cbn [fst] in Hrb. destruct r as [[b st] k]. cbn [fst snd] in *.
    destruct (pred_range_in _ _ _ _ Er) as [E1|Hi]; [discriminate|].
    apply Tr, in_rngs in Hi as [(al2 & b' & k' & al2' & Hc2 & ->)|(Hres & -> & ->)].
    + pose proof (C_pos _ _ _ _ _ Hc2).
      destruct (C_unique _ _ _ _ _ _ b Hd1 Hc Hc2) as [E1 E2]; [cbn; lia|cbn; lia|].
      injection E1 as <- <- <-. unfold in_range. replace ((a <=? q) && (q <? a + n)) with true by lia. eauto.
    + destruct (C_match _ _ Hc) as (_ & Hb & _). apply (In_blks B HB) in Hb.
      specialize (Hd2 _ _ _ _ _ Hb Hres). lia.
  - destruct Hx as [-> _].
    assert (Ho : In (a, a' - B) (s_offs s)). { apply To, in_offs. eauto 10. }
    unfold find_off. destruct (find (fun e => fst e =? a) (s_offs s)) as [e|] eqn:E; [eauto|].
    apply (find_none _ _ E) in Ho. cbn in Ho. lia.
Qed.

(* ---- the pass over pending pointers ---- *)
Definition img (s : st) (p : option Z) : option Z :=
  match p with None => None | Some q => match resolve1 s q with Some o => Some (B + o) | None => None end end.
Definition slots_of : list (Z * Z) := map (fun y => (fst (fst (fst y)), 8)) (ptrs tr').
Let Q := combine (ptrs tr) (ptrs tr').
Hypothesis Hslots : ForallOrdPairs apart2 slots_of.

Lemma Q_unique x1 x2 y1 y2 : In (x1, y1) Q -> In (x2, y2) Q ->
  (x1 = x2 /\ y1 = y2) \/ apart (fst (fst (fst y1))) 8 (fst (fst (fst y2))) 8.
Proof.
  unfold Q. revert Hslots. unfold slots_of. generalize (ptrs tr) (ptrs tr'). clear.
  intros xs ys; revert xs; induction ys as [|y ys IH]; intros [|x xs] H H1 H2; cbn in H1, H2; try tauto.
  cbn [map] in H. inversion H as [|? ? Hx Hxs]; subst. rewrite Forall_forall in Hx.
  assert (K : forall x' y', In (x', y') (combine xs ys) -> apart (fst (fst (fst y))) 8 (fst (fst (fst y'))) 8).
  { intros x' y' Hi. apply in_combine_r in Hi. apply (Hx (fst (fst (fst y')), 8)). now apply (in_map (fun y => (fst (fst (fst y)), 8))). }
  destruct H1 as [E1|H1], H2 as [E2|H2].
  - left. split; congruence.
  - injection E1 as <- <-. right. eapply K; eauto.
  - injection E2 as <- <-. right. pose proof (K _ _ H1). unfold apart in *. lia.
  - eapply IH; eauto.
Qed.

Variables s0 s1 : st.
Hypothesis Htabs : tabs s1.
Hypothesis Hinv : tab_inv s1.
Hypothesis Hlen : len s1 <= LIM.
Hypothesis Hin : forall x y, In (x, y) Q -> B <= fst (fst (fst y)) /\ fst (fst (fst y)) + 8 <= B + len s1.

Definition outside_slots (z : Z) : Prop := forall x y, In (x, y) Q -> ~ (fst (fst (fst y)) <= z < fst (fst (fst y)) + 8).
Definition state_ok (L : list (option Z * Z)) (s : st) : Prop :=
  len s = len s1 /\ s_offs s = s_offs s1 /\ s_rngs s = s_rngs s1 /\
  (forall z, outside_slots z -> M B s z = M B s1 z) /\
  forall x y, In (x, y) Q ->
    word B be s (fst (fst (fst y))) = Some (img s1 (snd (fst (fst x)))) \/
    (word B be s (fst (fst (fst y))) = Some None /\ In (snd (fst (fst x)), fst (fst (fst y)) - B) L).

Lemma resolve1_cong s q : s_offs s = s_offs s1 -> s_rngs s = s_rngs s1 -> resolve1 s q = resolve1 s1 q.
Proof. intros E1 E2. unfold resolve1, resolve_range. now rewrite E1, E2. Qed.
Lemma resolve1_bound q o : resolve1 s1 q = Some o -> 0 <= o <= len s1.
Proof.
  intros H. apply (resolves_bound s1 q o Hinv). unfold resolve1 in H.
  destruct (find_off q (s_offs s1)) as [o0|] eqn:E.
  - injection H as <-. left. now apply find_off_in.
  - right. apply resolve_range_in in H as (b & st & n & H1 & H2 & H3). eauto 8.
Qed.

Lemma word_patched s s' pos x : patched B s s' pos (of_int be 8 x) -> (x < 256 ^ 8)%N ->
  word B be s' (B + pos) = Some (ptr_of true (B + pos) x).
Proof.
  intros P Hx. unfold word. destruct (patched_same_int B be s s' pos 8 x P Hx) as [E1 E2]. now rewrite E1, E2.
Qed.

Lemma flush_step p pos L s : state_ok ((p, pos) :: L) s -> pends_ok B (ptrs tr) (ptrs tr') (p, pos) ->
  exists s', resolve be s p pos false = Ok s' /\ s_pend s' = s_pend s /\ state_ok L s'.
Proof.
  intros (El & Eo & Er & Em & Hw) (x0 & y0 & Hq & Ep & Epos). cbn [fst snd] in *. fold Q in Hq.
  pose proof (Hin _ _ Hq) as Hr0.
  assert (Case : img s1 p = None /\ (exists q, p = Some q /\ resolve1 s q = None) \/
    exists off, resolve be s p pos false = patch_off be s pos off /\ ptr_of true (B + pos) (u_of_z off) = img s1 p).
  { unfold img. destruct p as [q|].
    - rewrite <- (resolve1_cong s q Eo Er). destruct (resolve1 s q) as [o|] eqn:E1.
      + right. exists (o - pos). split.
        * unfold resolve1 in E1. cbn [resolve]. destruct (find_off q (s_offs s)) as [o0|]; [congruence|]. rewrite E1. reflexivity.
        * rewrite (resolve1_cong s q Eo Er) in E1. apply resolve1_bound in E1. apply (ptr_word B HB); lia.
      + left. split; [reflexivity|]. eauto.
    - right. exists NULLPTR_OFFSET. split; [reflexivity|]. apply ptr_word_null. }
  destruct Case as [(Ei & q & -> & E1)|(off & E1 & E2)].
  - exists s. unfold resolve. unfold resolve1 in E1. destruct (find_off q (s_offs s)); [discriminate|]. rewrite E1.
    split; [reflexivity|]. split; [reflexivity|]. repeat (split; [assumption|]).
    intros x y Hxy. destruct (Hw x y Hxy) as [H|[H [H1|H1]]]; [now left| |now right].
    left. rewrite H. injection H1 as H1 H2. rewrite <- H1, Ei. reflexivity.
  - destruct (patch_off_ok B be s pos off ltac:(lia) ltac:(lia)) as (s' & E & P).
    exists s'. rewrite E1. split; [exact E|]. pose proof P as (Pl & Po & Pr & Pp & _).
    split; [exact Pp|]. split; [congruence|]. split; [congruence|]. split; [congruence|]. split.
    + intros z Hz. rewrite <- Em by exact Hz. eapply patched_out; [exact P|]. rewrite of_int_length.
      intros Hz'. apply (Hz _ _ Hq). lia.
    + intros x y Hxy. destruct (Q_unique _ _ _ _ Hxy Hq) as [[-> ->]|Hap].
      * left. rewrite <- Epos, <- Ep. rewrite (word_patched _ _ _ _ P (u_of_z_bound _)). now rewrite E2.
      * assert (Ew : word B be s' (fst (fst (fst y))) = word B be s (fst (fst (fst y)))).
        { apply word_ext. intros z Hz. eapply patched_out; [exact P|]. rewrite of_int_length. unfold apart in Hap. lia. }
        rewrite Ew. destruct (Hw x y Hxy) as [H|[H [H1|H1]]]; [now left| |now right].
        injection H1 as H1 H2. unfold apart in Hap. lia.
Qed.

Lemma flush_list L : forall s, state_ok L s -> Forall (pends_ok B (ptrs tr) (ptrs tr')) L ->
  exists s', foldM (fun p s => resolve be s (fst p) (snd p) false) L s = Ok s' /\ state_ok [] s'.
Proof.
  induction L as [|[p pos] L IH]; intros s Hs HL.
  - exists s. split; [reflexivity|exact Hs].
  - inversion HL as [|? ? H1 H2]; subst. destruct (flush_step _ _ _ _ Hs H1) as (s' & E & _ & Hs').
    cbn [foldM fst snd]. rewrite E. cbn [bind]. now apply IH.
Qed.
End F.
