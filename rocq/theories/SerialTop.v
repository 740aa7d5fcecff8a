(* The whole of serialize(): header, object graph, pending pointers, checksum. *)
From Verif Require Import Base Bytes FnvModel FnvProofs HeaderModel HeaderSpec HeaderProofs HashModel SerialModel SerialSpec
  SerialMem SerialPost SerialSer SerialFlush.
Local Open Scope Z_scope.

(* ---- every byte of the buffer stays below 256 ---- *)
Definition bok (s : st) : Prop := bytes_ok (s_buf s).
Lemma of_int_ok be w x : bytes_ok (of_int be w x).
Proof. unfold of_int. destruct be; [apply rev_ok|]; apply le_enc_ok. Qed.
Lemma patch_bok s p d s' : bok s -> bytes_ok d -> patch s p d = Ok s' -> bok s'.
Proof.
  unfold patch, buf_write_at. intros Hb Hd. destruct (_ <=? _)%nat; cbn [verify bind]; [|discriminate].
  intros H. injection H as <-. apply put_ok; assumption.
Qed.
Lemma patch_int_bok be s p w x s' : bok s -> patch_int be s p w x = Ok s' -> bok s'.
Proof. unfold patch_int. intros Hb. apply patch_bok; [exact Hb|apply of_int_ok]. Qed.
Lemma patch_off_bok be s p o s' : bok s -> patch_off be s p o = Ok s' -> bok s'.
Proof. unfold patch_off. apply patch_int_bok. Qed.
Lemma append_bok s d al s' start : bok s -> bytes_ok d -> append s d al = (s', start) -> bok s'.
Proof.
  unfold append, buf_write, bok. intros Hb Hd H. apply (f_equal fst) in H. cbn [fst] in H. rewrite <- H. cbn [s_buf].
  apply put_ok; [|exact Hd]. apply Forall_app. split; [exact Hb|apply zeros_ok].
Qed.
Lemma resolve_bok be s p pos b s' : bok s -> resolve be s p pos b = Ok s' -> bok s'.
Proof.
  intros Hb. unfold resolve. destruct p as [q|]; [|now apply patch_off_bok].
  destruct (find_off q (s_offs s)); [now apply patch_off_bok|].
  destruct (resolve_range s q); [now apply patch_off_bok|].
  destruct b; [|intros H; injection H as <-; exact Hb].
  destruct (patch_off be s pos NULLPTR_OFFSET) as [s1| | |] eqn:E; cbn [bind]; try discriminate.
  intros H. injection H as <-. exact (patch_off_bok _ _ _ _ _ Hb E).
Qed.
Lemma foldM_bok {I} (g : I -> st -> res st) l : (forall i s s', bok s -> g i s = Ok s' -> bok s') ->
  forall s s', bok s -> foldM g l s = Ok s' -> bok s'.
Proof.
  intros Hg. induction l as [|i l IH]; intros s s' Hb H; cbn in H; [now injection H as <-|].
  destruct (g i s) as [s1| | |] eqn:E; cbn [bind] in H; try discriminate. eapply IH; [|exact H]. eapply Hg; eauto.
Qed.

Lemma bind_assoc {X Y Z0} (r : res X) (f : X -> res Y) (g : Y -> res Z0) :
  bind (bind r f) g = bind r (fun x => bind (f x) g).
Proof. now destruct r. Qed.

Section Bok.
Variables (env : list ty) (be_src be rel : bool) (src : mem).
Hypothesis Hsrc : total src.
Lemma sbytes_bok q n d : sbytes src q n = Ok d -> bytes_ok d.
Proof.
  unfold sbytes. destruct (rdn src q n) as [l|] eqn:E; [|discriminate]. intros H. injection H as <-.
  eapply rdn_bytes; eauto.
Qed.
Ltac bstep :=
  match goal with
  | H : Ok _ = Ok _ |- _ => injection H as <-
  | H : (let (_, _) := ?x in _) = Ok _ |- _ => destruct x as [? ?] eqn:?
  | H : bind (match ?p with Some _ => _ | None => _ end) _ = Ok _ |- _ => destruct p as [?|] eqn:?
  | H : bind (if ?p then _ else _) _ = Ok _ |- _ => destruct p eqn:?
  | H : bind (let (_, _) := ?x in _) _ = Ok _ |- _ => destruct x as [? ?] eqn:?
  | H : bind (bind _ _) _ = Ok _ |- _ => rewrite bind_assoc in H
  | H : bind (Ok _) _ = Ok _ |- _ => cbn [bind] in H
  | H : bind ?r _ = Ok _ |- _ => destruct r as [?| | |] eqn:?; cbn [bind] in H; try discriminate H
  | H : match ?p with Some _ => _ | None => _ end = Ok _ |- _ => destruct p as [?|] eqn:?
  | H : (if ?p then _ else _) = Ok _ |- _ => destruct p eqn:?
  | H : patch_int _ ?s _ _ _ = Ok ?s', Hb : bok ?s |- _ => apply (patch_int_bok _ _ _ _ _ _ Hb) in H
  | H : patch_off _ ?s _ _ = Ok ?s', Hb : bok ?s |- _ => apply (patch_off_bok _ _ _ _ _ Hb) in H
  | H : resolve _ ?s _ _ _ = Ok ?s', Hb : bok ?s |- _ => apply (resolve_bok _ _ _ _ _ _ Hb) in H
  | H : sbytes _ _ _ = Ok _ |- _ => apply sbytes_bok in H
  | H : append ?s ?d _ = (_, _), Hb : bok ?s, Hd : bytes_ok ?d |- _ => apply (append_bok _ _ _ _ _ Hb Hd) in H
  end; try discriminate; try assumption.
Lemma ser_bok f : forall t a pos s s', bok s -> ser env be_src be rel src f t a pos s = Ok s' -> bok s'.
Proof.
  induction f as [|f IH]; intros t a pos s s' Hb H; [discriminate H|].
  assert (Hbs : forall b o r p, bok b -> bok (St (s_buf b) o r p)) by (intros; assumption).
  assert (He : bytes_ok empty_group).
  { unfold bytes_ok. rewrite Forall_forall. intros x Hx. repeat (destruct Hx as [<-|Hx]; [reflexivity|]). destruct Hx. }
  cbn [ser] in H. destruct t.
  - repeat bstep.
  - repeat bstep.
  - repeat bstep.
  - eapply foldM_bok; [|exact Hb|exact H]. cbn. intros. eapply IH; eauto.
  - repeat bstep. eapply IH; eauto.
  - repeat bstep. eapply IH; [|exact H]. assumption.
  - repeat bstep. eapply IH; [|exact H]. apply Hbs. assumption.
  - destruct (sptr be_src rel src a) as [p| | |]; cbn [bind] in H; try discriminate H.
    destruct (sint be_src src (a + 8) w) as [used| | |]; cbn [bind] in H; try discriminate H.
    match type of H with bind ?r _ = _ => destruct r as [[s1 st1]| | |] eqn:E1 end; cbn [bind] in H; try discriminate H.
    assert (bok s1). { repeat bstep; injection E1 as <- <-; assumption. }
    repeat bstep; (eapply foldM_bok; [| |exact H]; [cbn; intros; eapply IH; eauto|]; destruct ix; [apply Hbs|]; assumption).
  - repeat bstep.
  - destruct (sint be_src src (a + 15) 1) as [rem| | |]; cbn [bind] in H; try discriminate H.
    destruct (rem <? 128)%N; [now injection H as <-|].
    destruct (sptr be_src rel src a) as [p| | |]; cbn [bind] in H; try discriminate H.
    destruct (sint be_src src (a + 8) 4) as [size| | |]; cbn [bind] in H; try discriminate H.
    match type of H with bind ?r _ = _ => destruct r as [d| | |] eqn:E1 end; cbn [bind] in H; try discriminate H.
    assert (Hd : bytes_ok (d ++ [0%N])).
    { apply Forall_app. split; [|repeat constructor]. destruct p; [now apply sbytes_bok in E1|].
      destruct (size =? 0)%N; [injection E1 as <-; constructor|discriminate]. }
    repeat bstep.
  - destruct (sptr be_src rel src a) as [pe| | |]; cbn [bind] in H; try discriminate H.
    destruct (sptr be_src rel src (a + 8)) as [pc| | |]; cbn [bind] in H; try discriminate H.
    destruct (sint be_src src (a + 16) 8) as [size| | |]; cbn [bind] in H; try discriminate H.
    destruct (sint be_src src (a + 24) 8) as [cap| | |]; cbn [bind] in H; try discriminate H.
    destruct (sint be_src src (a + 32) 8) as [growth| | |]; cbn [bind] in H; try discriminate H.
    match type of H with bind ?r _ = _ => destruct r as [[[s1 st1] c1]| | |] eqn:E1 end; cbn [bind] in H; try discriminate H.
    assert (bok s1).
    { destruct pe.
      - destruct (sbytes src _ _) as [d| | |] eqn:Ed; cbn [bind] in E1; try discriminate E1. apply sbytes_bok in Ed.
        destruct (append s d _) as [s2 st2] eqn:Ea. injection E1 as <- <- <-. eapply append_bok; [exact Hb| |exact Ea]; assumption.
      - destruct (append s empty_group 1) as [s2 st2] eqn:Ea. injection E1 as <- <- <-. eapply append_bok; [exact Hb| |exact Ea]; assumption. }
    repeat bstep.
    all: eapply foldM_bok; [| |exact H]; [|assumption]; cbn; intros i sa sb Hsa Hx; repeat bstep; eapply IH; eauto.
Qed.
Lemma flush_bok s s' : bok s -> flush_pending be s = Ok s' -> bok s'.
Proof.
  unfold flush_pending. intros Hb H. eapply foldM_bok; [|exact Hb|exact H]. cbn. intros i s1 s2 H1 H2.
  eapply resolve_bok; eauto.
Qed.
End Bok.

(* ---- the graph in the finished buffer ---- *)
Lemma FOP_slots tr : ForallOrdPairs apart2 (spans tr) -> ForallOrdPairs apart2 (slots_of tr).
Proof.
  unfold slots_of, ptrs, spans. induction tr as [|e tr IH]; [constructor|]. cbn [flat_map].
  assert (K : forall z, In z (map (fun y : Z * option Z * Z * Z => (fst (fst (fst y)), 8))
                 (flat_map (fun e => match e with PtrAt s p z al => [(s, p, z, al)] | _ => [] end) tr)) ->
              In z (flat_map (fun e => match e with Rd a n => [(a, n)] | PtrAt s _ _ _ => [(s, 8)] | _ => [] end) tr)).
  { intros z Hz. apply in_map_iff in Hz as (y & <- & Hy). apply in_flat_map in Hy as (e' & He & Hy).
    destruct e'; cbn in Hy; try tauto. destruct Hy as [<-|[]]. apply in_flat_map. eexists. split; [exact He|]. now left. }
  intros H. destruct e; cbn [app map] in *; try (now apply IH).
  - inversion H; subst. now apply IH.
  - inversion H as [|? ? H1 H2]; subst. cbn [map app]. constructor; [|now apply IH].
    rewrite Forall_forall in *. intros z Hz. apply H1. now apply K.
Qed.
Lemma In_ptrs tr s p sz al : In (s, p, sz, al) (ptrs tr) <-> In (PtrAt s p sz al) tr.
Proof.
  unfold ptrs. rewrite in_flat_map. split.
  - intros (e & He & Hx). destruct e; cbn in Hx; try tauto. destruct Hx as [E|[]]. congruence.
  - intros H. eexists. split; [exact H|]. now left.
Qed.
Lemma blks_setp g tr : blks (map (setp g) tr) = blks tr.
Proof. induction tr as [|e tr IH]; [reflexivity|]. unfold blks in *. destruct e; cbn; rewrite ?IH; reflexivity. Qed.
Lemma spans_setp g tr : spans (map (setp g) tr) = spans tr.
Proof. induction tr as [|e tr IH]; [reflexivity|]. unfold spans in *. destruct e; cbn in *; now rewrite IH. Qed.
Lemma ptrs_setp g tr : ptrs (map (setp g) tr) = map (fun y => match y with (s, p, sz, al) => (s, g s, sz, al) end) (ptrs tr).
Proof. induction tr as [|e tr IH]; [reflexivity|]. unfold ptrs in *. destruct e; cbn; rewrite ?IH; reflexivity. Qed.
Lemma Forall2_combine {X Y} (P : X -> Y -> Prop) xs ys :
  Forall2 P xs ys -> forall x y, In (x, y) (combine xs ys) -> P x y.
Proof. induction 1; cbn; [tauto|]. intros a b [E|E]; [congruence|auto]. Qed.
Lemma Forall2_intro {X Y} (P : X -> Y -> Prop) xs : forall ys, length xs = length ys ->
  (forall x y, In (x, y) (combine xs ys) -> P x y) -> Forall2 P xs ys.
Proof.
  induction xs as [|x xs IH]; intros [|y ys] H K; try discriminate; constructor.
  - apply K. now left.
  - apply IH; [now injection H|]. intros. apply K. now right.
Qed.
Lemma Forall2_len {X Y} (P : X -> Y -> Prop) xs ys : Forall2 P xs ys -> length xs = length ys.
Proof. induction 1; cbn; congruence. Qed.
Lemma combine_map_r {X Y Y'} (g : Y -> Y') (xs : list X) : forall ys x y, In (x, y) (combine xs (map g ys)) ->
  exists y0, In (x, y0) (combine xs ys) /\ y = g y0.
Proof.
  induction xs as [|x0 xs IH]; intros [|y0 ys] x y; cbn; try tauto. intros [E|E].
  - injection E as <- <-. eauto.
  - apply IH in E as (y1 & ? & ?). eauto.
Qed.
Lemma In_combine_ex {X Y} (xs : list X) : forall (ys : list Y) y, length xs = length ys -> In y ys ->
  exists x, In (x, y) (combine xs ys).
Proof.
  induction xs as [|x xs IH]; intros [|y0 ys] y H Hy; try discriminate; [destruct Hy|].
  destruct Hy as [<-|Hy]; [exists x; now left|]. destruct (IH ys y ltac:(now injection H) Hy) as (x' & H').
  exists x'. now right.
Qed.

Section Core.
Variables (env : list ty) (A : Z).
Hypothesis Hwf : wf_env A env.
Variables (be_src be rel : bool) (src : mem).
Hypothesis Hsrc : total src.
Variable tab : N -> N -> N -> list N -> bool.
Hypothesis Htab : tab_empty tab.

Lemma core B f t a v tr pos b :
  0 < B < 2 ^ 62 -> (A | B) -> wf A t -> 0 <= pos -> pos mod align_of t = 0 ->
  let s0 := St b [] [] [] in pos + size_of t <= len s0 ->
  (forall z, 0 <= z < size_of t -> M B s0 (B + pos + z) = src (a + z)) ->
  dec env (plain be_src src rel None tab) f t a = Some (v, tr) -> disjoint_blocks tr -> pointers_fit tr ->
  exists s1, ser env be_src be rel src f t a pos s0 = Ok s1 /\
  (len s1 <= LIM -> exists s2, flush_pending be s1 = Ok s2 /\ len s2 = len s1 /\ len s0 <= len s2 /\
     (forall z, z < B + pos -> M B s2 z = M B s0 z) /\
     forall m', (forall z, B + pos <= z -> m' z = M B s2 z) ->
     exists tr', dec env (plain be m' true (Some (B, B + len s2)) tab) f t (B + pos) = Some (v, tr') /\
       mirrors tr tr' /\ tidy tr' /\ starts (B + pos) tr').
Proof.
  intros HB HA Hwt Hp Hmod s0 Hl Hc Hdec Hdis Hfit.
  assert (Hinv0 : inv s0). { intros _. split; cbn; tauto. }
  destruct (ser_good env A Hwf B HB HA be_src be rel src Hsrc tab Htab f t Hwt a pos s0 v tr Hp Hmod Hl Hinv0 Hc Hdec)
    as (s1 & Eser & HP).
  exists s1. split; [exact Eser|]. intros Hlim.
  pose proof (Post_inv B HB be _ _ _ _ _ _ HP Hinv0 Hlim) as Hinv1.
  destruct HP as [[Hgrow Hsame] HP]. destruct (HP Hlim) as (tr1 & D1 & Ein & Etidy & Bm & Pm & Of & Rg & new & Epend & Fp).
  pose proof (proj1 Etidy) as Eap.
  assert (Hsz : 0 < size_of t) by (pose proof (wf_basic env A Hwf t Hwt); tauto).
  assert (Hspan : forall x n, span_in B (seg B pos (size_of t)) (len s0) (len s1) x n ->
                              0 < n /\ B + pos <= x /\ x + n <= B + len s1).
  { intros x n [Hn [K|K]]; [|lia]. pose proof (K x ltac:(lia)). pose proof (K (x + n - 1) ltac:(lia)). unfold seg in *. lia. }
  rewrite Forall_forall in Ein.
  assert (Hpos : forall ix x n al, In (Blk ix x n al) tr1 -> 0 < n).
  { intros ix x n al Hi. apply Ein in Hi. apply Hi. }
  assert (Htabs : tabs B tr tr1 s1).
  { split; intros e; [rewrite (Of e)|rewrite (Rg e)]; cbn; tauto. }
  assert (Hin : forall x y, In (x, y) (combine (ptrs tr) (ptrs tr1)) ->
                 B + pos <= fst (fst (fst y)) /\ fst (fst (fst y)) + 8 <= B + len s1).
  { intros x y Hxy. apply in_combine_r in Hxy. destruct y as [[[sl p] sz] al]. apply In_ptrs in Hxy. apply Ein in Hxy.
    destruct Hxy as [_ Hxy]. apply Hspan in Hxy. cbn [fst]. lia. }
  assert (Hok : state_ok B be tr tr1 s1 (s_pend s1) s1).
  { repeat (split; [reflexivity|]). intros x y Hxy. pose proof (Forall2_combine _ _ _ Pm _ _ Hxy) as Hm.
    destruct x as [[[slx p] sz] al], y as [[[sly p'] sz'] al']. cbn [fst snd]. destruct Hm as (_ & _ & Hm).
    destruct p as [q|]; cbn [slot_state img] in *; [|now left].
    destruct Hm as [(o & Hw & Hr)|Hm]; [|now right].
    left. rewrite Hw. do 2 f_equal.
    enough (resolve1 s1 q = Some o) as -> by reflexivity.
    apply (resolve1_spec B HB be tr tr1 Hdis Bm Hpos s1 q o Htabs).
    destruct Hr as [Hr|(b0 & st0 & n0 & Hr & Hr2 & ->)].
    - apply Htabs, (in_offs B tr tr1 Bm) in Hr as (n & al0 & a' & n' & al1 & Hcc & ->).
      exists false, q, n, al0, a', n', al1. split; [exact Hcc|]. split; [reflexivity|lia].
    - apply Htabs, (in_rngs B HB tr tr1 Bm) in Hr as [(al0 & a' & n' & al1 & Hcc & ->)|(_ & _ & ->)]; [|lia].
      exists true, b0, n0, al0, a', n', al1. split; [exact Hcc|]. split; [exact Hr2|lia]. }
  assert (Fp' : Forall (pends_ok B (ptrs tr) (ptrs tr1)) (s_pend s1)) by (rewrite Epend; exact Fp).
  destruct (flush_list B HB be tr tr1 Hpos (FOP_slots _ Eap) s1 Hinv1 Hlim
              ltac:(intros x y Hxy; pose proof (Hin x y Hxy); lia) _ _ Hok Fp') as (s2 & Efl & Hok2).
  destruct Hok2 as (El2 & _ & _ & Em2 & Hw2).
  exists s2. split; [exact Efl|]. split; [exact El2|]. split; [lia|].
  assert (Hlow : forall z, z < B + pos -> outside_slots tr tr1 z).
  { intros z Hz x y Hxy. pose proof (Hin x y Hxy). lia. }
  split.
  { intros z Hz. rewrite Em2 by (now apply Hlow). apply Hsame; [lia|]. unfold seg. lia. }
  intros m' Hm'.
  (* frame *)
  assert (D2 : dec env (Rt B be tab m' (B + len s1)) f t (B + pos) = Some (v, tr1)).
  { eapply dec_frame; [|exact D1|].
    - repeat split; cbn; auto. lia.
    - intros x n Hi z Hz. cbn [Rt r_mem]. pose proof (Ein _ Hi) as Hs. cbn [ev_in] in Hs. apply Hspan in Hs.
      rewrite Hm' by lia. symmetry. apply Em2. intros xx yy Hxy Hcon.
      apply in_combine_r in Hxy. destruct yy as [[[sl p] sz] al]. apply In_ptrs in Hxy. cbn [fst] in Hcon.
      assert (K : forall l, ForallOrdPairs apart2 (spans l) -> In (Rd x n) l -> In (PtrAt sl p sz al) l -> apart x n sl 8).
      { clear. induction l as [|e l IH]; intros H H1 H2; [destruct H1|].
        change (e :: l) with ([e] ++ l) in H. rewrite spans_app in H.
        destruct H1 as [->|H1], H2 as [E|H2]; try discriminate.
        - cbn in H. inversion H as [|? ? F _]; subst. rewrite Forall_forall in F. apply (F (sl, 8)).
          unfold spans. apply in_flat_map. eexists. split; [exact H2|]. now left.
        - subst e. cbn in H. inversion H as [|? ? F _]; subst. rewrite Forall_forall in F.
          specialize (F (x, n)). cbv beta in F. unfold apart2, apart in *. cbn [fst snd] in F.
          enough (In (x, n) (spans l)) as G by (specialize (F G); lia).
          unfold spans. apply in_flat_map. eexists. split; [exact H1|]. now left.
        - apply IH; auto. destruct e; cbn in H; try assumption; now inversion H. }
      specialize (K _ Eap Hi Hxy). unfold apart in K. lia. }
  set (g := fun sl => match (let? l := rdn m' sl 8 in Some (ptr_of true sl (to_int be l))) with Some p => p | None => None end).
  assert (Hg : forall x y, In (x, y) (combine (ptrs tr) (ptrs tr1)) ->
     (let? l := rdn m' (fst (fst (fst y))) 8 in Some (ptr_of true (fst (fst (fst y))) (to_int be l))) =
     Some (img B s1 (snd (fst (fst x)))) /\ g (fst (fst (fst y))) = img B s1 (snd (fst (fst x)))).
  { intros x y Hxy. destruct (Hw2 x y Hxy) as [Hw|[_ []]]. unfold g.
    assert (Ew : rdn m' (fst (fst (fst y))) 8 = rdn (M B s2) (fst (fst (fst y))) 8).
    { apply rdn_ext. intros z Hz. apply Hm'. pose proof (Hin x y Hxy). lia. }
    rewrite Ew. unfold word in Hw. rewrite Hw. split; reflexivity. }
  assert (Himg : forall q o, img B s1 (Some q) = Some o <-> image (combine (blks tr) (blks tr1)) q o).
  { intros q o. cbn [img]. pose proof (fun o' => resolve1_spec B HB be tr tr1 Hdis Bm Hpos s1 q o' Htabs) as K.
    destruct (resolve1 s1 q) as [o'|] eqn:E.
    - split; [intros [= <-]; now apply K|]. intros Hi. replace o with (B + (o - B)) in Hi by lia.
      apply K in Hi. injection Hi as ->. f_equal. lia.
    - split; [discriminate|]. intros Hi. replace o with (B + (o - B)) in Hi by lia. apply K in Hi. discriminate. }
  assert (Lp : length (ptrs tr) = length (ptrs tr1)) by (eapply Forall2_len; exact Pm).
  exists (map (setp g) tr1). split.
  - rewrite El2.
    apply (dec_ptr env be m' (fun _ => Some None) (fun sl => let? l := rdn m' sl 8 in Some (ptr_of true sl (to_int be l)))
             true (Some (B, B + len s1)) tab g f t (B + pos) v tr1 D2).
    intros sl p sz al Hi. apply In_ptrs in Hi. destruct (In_combine_ex _ _ _ Lp Hi) as (x & Hxy).
    destruct (Hg _ _ Hxy) as [Hg1 Hg2]. cbn [fst] in Hg1, Hg2. rewrite Hg2. split; [exact Hg1|].
    destruct x as [[[slx px] szx] alx]. cbn [fst snd] in *.
    destruct (img B s1 px) as [o|] eqn:Ei; [|exact I]. destruct px as [q|]; [|discriminate Ei].
    apply Himg in Ei. destruct Ei as (ix & a0 & n0 & al0 & a' & n' & al' & Hcc & Hx).
    pose proof (Forall2_combine _ _ _ Bm _ _ Hcc) as (_ & -> & ->).
    pose proof (Forall2_combine _ _ _ Pm _ _ Hxy) as (-> & -> & _).
    pose proof (in_combine_l _ _ _ _ Hcc) as Hbl. apply (In_blks B HB) in Hbl.
    pose proof (in_combine_r _ _ _ _ Hcc) as Hbr. apply (In_blks B HB) in Hbr. apply Ein in Hbr. cbn [ev_in] in Hbr.
    pose proof (in_combine_l _ _ _ _ Hxy) as Hpl. apply In_ptrs in Hpl.
    assert (Hxq : if ix then a0 <= q < a0 + n0 else q = a0) by (destruct ix; lia).
    destruct (Hfit _ _ _ _ _ _ _ _ Hpl Hbl Hxq) as (F1 & F2 & F3).
    assert (Eo : o = a' + (q - a0) /\ a0 <= q) by (destruct ix; lia). destruct Eo as [Eo Hqa].
    unfold inside. cbn [r_ck]. rewrite !andb_true_iff. repeat split; try lia.
    apply Z.eqb_eq. destruct (Z.eq_dec alx 0) as [->|Hnz]; [destruct F2 as [k ->]; rewrite Z.mul_0_r in Hbr; destruct F3 as [k' F3]; destruct Hbr as (_ & _ & _ & Hb0); rewrite Z.mul_0_r in F3; rewrite Zmod_0_r in *; lia|].
    apply Z.mod_divide; [exact Hnz|]. rewrite Eo. apply Z.divide_add_r; [|exact F3].
    apply (Z.divide_trans _ al0); [exact F2|]. destruct (Z.eq_dec al0 0) as [->|Hnz0].
    + destruct Hbr as (_ & _ & _ & Hb0). rewrite Zmod_0_r in Hb0. subst a'. apply Z.divide_0_r.
    + apply Z.mod_divide; [exact Hnz0|tauto].
  - split; [|split].
    2:{ unfold tidy. rewrite spans_setp, blks_setp. exact Etidy. }
    2:{ unfold starts. rewrite spans_setp. apply Forall_forall. intros x Hx. unfold spans in Hx. apply in_flat_map in Hx as (e & He & Hx).
        pose proof (Ein _ He) as Hev. destruct e; cbn [In] in Hx; try contradiction; destruct Hx as [<-|[]]; cbn [fst ev_in] in *.
        - apply Hspan in Hev. lia.
        - destruct Hev as [_ Hev]. apply Hspan in Hev. lia. }
    split.
    + rewrite blks_setp. exact Bm.
    + rewrite blks_setp, ptrs_setp. apply Forall2_intro; [rewrite map_length; exact Lp|].
      intros x y Hxy. apply combine_map_r in Hxy as (y0 & Hxy & ->). destruct y0 as [[[sl p] sz] al].
      destruct (Hg _ _ Hxy) as [_ Hg2]. cbn [fst snd] in *. rewrite Hg2.
      destruct x as [[[slx px] szx] alx]. cbn [fst snd] in *. destruct px as [q|]; [|exact I].
      cbn [pointer_image]. destruct (img B s1 (Some q)) as [o|] eqn:Ei; [now apply Himg|].
      intros o Ho. apply Himg in Ho. congruence.
Qed.

Variables (m th : N).
Hypothesis Hbe : be = is_mode_enabled m SERIALIZE_BIG_ENDIAN.

Theorem roundtrip f t a v tr : A < 2 ^ 62 -> wf A t -> writer_mode m -> (th < W64)%N ->
  Z.of_nat (data_start m) mod align_of t = 0 ->
  dec env (plain be_src src rel None tab) f t a = Some (v, tr) -> disjoint_blocks tr -> pointers_fit tr ->
  (exists root b io pos s, sbytes src a (Z.to_nat (size_of t)) = Ok root /\
     serialize_start be_src m th (fun _ => 0%nat) root (Z.to_nat (align_of t)) = (b, io, pos) /\
     ser env be_src be rel src f t a (Z.of_nat pos) (St b [] [] []) = Ok s /\ 2 ^ 62 < len s) \/
  exists out, serialize env be_src rel m th src f t a = Ok out /\
    bytes_ok out /\ check be_src m th out = Ok tt /\ Z.of_nat (length out) <= 2 ^ 62 /\
    forall B, 0 < B < 2 ^ 62 -> (A | B) ->
    exists tr', dec env (plain be (at_base B out) true (Some (B, B + Z.of_nat (length out))) tab)
                    f t (B + Z.of_nat (data_start m)) = Some (v, tr') /\ mirrors tr tr' /\
      tidy tr' /\ starts (B + Z.of_nat (data_start m)) tr'.
Proof.
  intros HA62 Hwt Hwm Hth Hroot Hdec Hdis Hfit.
  pose proof (wf_basic env A Hwf t Hwt) as (Hsz & Hal & _).
  pose proof Hwf as (_ & HA0 & _).
  set (pos := Z.of_nat (data_start m)) in *.
  destruct (src_rdn src Hsrc a (Z.to_nat (size_of t))) as (root & Eroot & Hrok & Hrl).
  assert (Esb : sbytes src a (Z.to_nat (size_of t)) = Ok root) by (unfold sbytes; now rewrite Eroot).
  destruct (serialize_start be_src m th (fun _ => 0%nat) root (Z.to_nat (align_of t))) as [[b io] off] eqn:ES.
  assert (Eoff : off = data_start m).
  { change off with (snd (b, io, off)). rewrite <- ES. apply root_offset; [exact Hwm| |lia|].
    - intros n. apply Nat.mod_0_l. lia.
    - apply Nat2Z.inj. rewrite Nat2Z.inj_mod, Z2Nat.id by lia. exact Hroot. }
  subst off.
  assert (Eb : b = hdr_prefix be_src m th ++ root).
  { pose proof ES as ES'. rewrite serialize_start_eq in ES' by exact Hwm.
    rewrite buf_write_append in ES'; [injection ES' as <- _; reflexivity|].
    right. right. rewrite hdr_prefix_length by exact Hwm. cbn [plus].
    apply Nat2Z.inj. rewrite Nat2Z.inj_mod, Z2Nat.id by lia. exact Hroot. }
  pose proof (hdr_prefix_length be_src m th Hwm) as Hhl.
  set (s0 := St b [] [] []).
  assert (Hb0 : bok s0).
  { unfold bok, s0. cbn [s_buf]. rewrite Eb. apply Forall_app. split.
    - unfold hdr_prefix. apply Forall_app. split.
      + destruct (version_enabled m); [exact (hdr_ok be_src m th)|exact (Forall_nil _)].
      + destruct (is_mode_enabled m WITH_INTEGRITY); [exact (host_bytes_ok be_src 8 0%N)|exact (Forall_nil _)].
    - exact Hrok. }
  assert (Hl0 : len s0 = pos + size_of t).
  { unfold len, s0. cbn [s_buf]. rewrite Eb, app_length, Hhl, Hrl. unfold pos. lia. }
  assert (Hc : forall B z, 0 <= z < size_of t -> M B s0 (B + pos + z) = src (a + z)).
  { intros B z Hz. unfold M, at_base, s0. cbn [s_buf]. replace (B + pos + z <? B) with false by (unfold pos; lia).
    rewrite Eb, nth_error_app2 by (rewrite Hhl; unfold pos; lia).
    rewrite Hhl. replace (Z.to_nat (B + pos + z - B) - data_start m)%nat with (Z.to_nat z) by (unfold pos; lia).
    rewrite <- (rdn_nth _ _ _ _ _ Eroot) by lia. f_equal. lia. }
  assert (Hcore : forall B, 0 < B < 2 ^ 62 -> (A | B) -> _) by
    (intros B HB HA; exact (core B f t a v tr pos b HB HA Hwt ltac:(unfold pos; lia) Hroot ltac:(fold s0; lia) (Hc B) Hdec Hdis Hfit)).
  fold s0 in Hcore.
  destruct (Hcore A ltac:(lia) ltac:(apply Z.divide_refl)) as (s1 & Es1 & K1).
  destruct (Z_le_gt_dec (len s1) LIM) as [Hlim|Hlim].
  2:{ left. exists root, b, io, (data_start m), s1. repeat (split; [assumption|]). unfold LIM in Hlim. lia. }
  right. destruct (K1 Hlim) as (s2 & Efl & El2 & El0 & Elow & _). clear K1.
  assert (Hb2 : bok s2).
  { eapply flush_bok; [|exact Efl]. eapply ser_bok; eauto. }
  assert (HF : firstn (data_start m) (s_buf s2) = firstn (data_start m) b).
  { assert (Hfe : forall (l l' : list N) n, (n <= length l)%nat -> (n <= length l')%nat ->
                   (forall i, (i < n)%nat -> nth_error l i = nth_error l' i) -> firstn n l = firstn n l').
    { clear. intros l l' n. revert l l'; induction n; intros [|x l] [|y l'] H1 H2 H3; cbn in *; try lia; [reflexivity..|].
      f_equal; [specialize (H3 0%nat ltac:(lia)); cbn in H3; congruence|]. apply IHn; try lia.
      intros i Hi. apply (H3 (S i)). lia. }
    apply Hfe.
    - unfold len in *. unfold pos in *. lia.
    - rewrite Eb, app_length. lia.
    - intros i Hi. specialize (Elow (A + Z.of_nat i) ltac:(unfold pos; lia)). unfold M, at_base in Elow.
      replace (A + Z.of_nat i <? A) with false in Elow by lia.
      replace (Z.to_nat (A + Z.of_nat i - A)) with i in Elow by lia. exact Elow. }
  destruct (writer_accepted' be_src m th (fun _ => 0%nat) root (Z.to_nat (align_of t)) b io (data_start m) (s_buf s2) Hwm Hth ES
              Hb2 ltac:(unfold len, pos in *; lia) HF) as (out & Efin & Elo & Esk & Eck).
  exists out. split.
  { unfold serialize. rewrite Esb. cbn [bind]. rewrite ES, <- Hbe. fold s0 pos. rewrite Es1. cbn [bind]. rewrite Efl. exact Efin. }
  split.
  { unfold serialize_finish in Efin. destruct (is_mode_enabled m WITH_INTEGRITY); [|now injection Efin as <-].
    unfold buf_write_at in Efin. destruct (_ <=? _)%nat; [|discriminate]. cbn [verify bind] in Efin. injection Efin as <-.
    apply put_ok; [exact Hb2|apply hdr_ok]. }
  split; [exact Eck|]. split; [unfold len, LIM in *; lia|].
  intros B HB HA. destruct (Hcore B HB HA) as (s1' & Es1' & K).
  assert (s1' = s1) by congruence. subst s1'. destruct (K Hlim) as (s2' & Efl' & _ & _ & _ & Kd).
  assert (s2' = s2) by congruence. subst s2'.
  specialize (Kd (at_base B out)). unfold len in Kd. rewrite Elo. apply Kd.
  intros z Hz. unfold M, at_base. destruct (z <? B); [reflexivity|].
  replace (Z.to_nat (z - B)) with (data_start m + (Z.to_nat (z - B) - data_start m))%nat by (unfold pos in *; lia).
  rewrite <- !skipn_nth, Esk. reflexivity.
Qed.
End Core.
