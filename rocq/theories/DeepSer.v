(* What serialize writes passes the deep check: two readings of equal contents walk in step. *)
From Verif Require Import Base Bytes HeaderModel HashModel SerialModel SerialSpec ConvModel ConvSpec DeepModel DeepSpec.
Local Open Scope Z_scope.

Lemma combine_app {X Y} (l1 l2 : list X) (k1 k2 : list Y) : length l1 = length k1 ->
  combine (l1 ++ l2) (k1 ++ k2) = combine l1 k1 ++ combine l2 k2.
Proof. revert k1. induction l1 as [|x l1 IH]; intros [|y k1] H; try discriminate; [reflexivity|]. cbn. f_equal. apply IH. now injection H. Qed.
Lemma ptrs_app l1 l2 : ptrs (l1 ++ l2) = ptrs l1 ++ ptrs l2.
Proof. apply flat_map_app. Qed.
Lemma blks_app l1 l2 : blks (l1 ++ l2) = blks l1 ++ blks l2.
Proof. apply flat_map_app. Qed.

(* events that are of the same kinds in the same order *)
Definition same (u u' : list ev) : Prop := length (ptrs u) = length (ptrs u') /\ length (blks u) = length (blks u').
Notation PP u u' := (combine (ptrs u) (ptrs u')).
Notation BB u u' := (combine (blks u) (blks u')).
Lemma same_app u u' w w' : same u u' -> same w w' -> same (u ++ w) (u' ++ w').
Proof. intros [H1 H2] [H3 H4]. split; rewrite ?ptrs_app, ?blks_app, !app_length; lia. Qed.
Lemma PP_app u u' w w' : same u u' -> PP (u ++ w) (u' ++ w') = PP u u' ++ PP w w'.
Proof. intros [H _]. now rewrite !ptrs_app, combine_app. Qed.
Lemma BB_app u u' w w' : same u u' -> BB (u ++ w) (u' ++ w') = BB u u' ++ BB w w'.
Proof. intros [_ H]. now rewrite !blks_app, combine_app. Qed.
Definition quiet (u : list ev) : Prop := ptrs u = [] /\ blks u = [].
Lemma quiet_same u u' : quiet u -> quiet u' -> same u u'.
Proof. intros [H1 H2] [H3 H4]. unfold same. now rewrite H1, H2, H3, H4. Qed.
Lemma quiet_app u w : quiet u -> quiet w -> quiet (u ++ w).
Proof. intros [H1 H2] [H3 H4]. unfold quiet. now rewrite ptrs_app, blks_app, H1, H2, H3, H4. Qed.
Lemma quiet_rd a n u : quiet u -> quiet (Rd a n :: u).
Proof. exact (fun H => H). Qed.
Lemma quiet_nil : quiet [].
Proof. now split. Qed.
Lemma quiet_res q u : quiet u -> quiet (Res q :: u).
Proof. exact (fun H => H). Qed.

(* events in front that say nothing *)
Lemma PP_quiet u u' w w' : quiet u -> quiet u' -> PP (u ++ w) (u' ++ w') = PP w w'.
Proof. intros [H1 _] [H2 _]. now rewrite !ptrs_app, H1, H2. Qed.
Lemma BB_quiet u u' w w' : quiet u -> quiet u' -> BB (u ++ w) (u' ++ w') = BB w w'.
Proof. intros [_ H1] [_ H2]. now rewrite !blks_app, H1, H2. Qed.

(* mapM over the same list in both readings *)
Lemma mapM2 {I X} (g g' : I -> option (X * list ev)) l : forall xs tr tr',
  mapM g l = Some (xs, tr) -> mapM g' l = Some (xs, tr') ->
  (forall i x u u', In i l -> g i = Some (x, u) -> g' i = Some (x, u') -> same u u') ->
  same tr tr' /\
  (forall i, In i l -> exists x u u', g i = Some (x, u) /\ g' i = Some (x, u') /\ incl (PP u u') (PP tr tr')) /\
  (forall e, In e (BB tr tr') -> exists i x u u', In i l /\ g i = Some (x, u) /\ g' i = Some (x, u') /\
                                   incl (PP u u') (PP tr tr') /\ In e (BB u u')).
Proof.
  induction l as [|i l IH]; cbn [mapM]; intros xs tr tr' H H' Hs.
  { injection H as <- <-. injection H' as <-. split; [now split|]. split; [intros ? []|intros ? []]. }
  destruct (g i) as [[x u]|] eqn:E; [|discriminate H]. destruct (mapM g l) as [[ys ts]|]; [|discriminate H]. injection H as <- <-.
  destruct (g' i) as [[x' u']|] eqn:E'; [|discriminate H']. destruct (mapM g' l) as [[ys' ts']|]; [|discriminate H']. injection H' as -> -> <-.
  pose proof (Hs i x u u' (or_introl eq_refl) E E') as Hu.
  destruct (IH ys ts ts' eq_refl eq_refl (fun j y w w' Hj => Hs j y w w' (or_intror Hj))) as (H1 & H2 & H3).
  split; [now apply same_app|]. rewrite PP_app, BB_app by exact Hu. split.
  - intros j [<-|Hj].
    + exists x, u, u'. split; [exact E|]. split; [exact E'|]. now apply incl_appl.
    + destruct (H2 j Hj) as (y & w & w' & G & G' & Hi). exists y, w, w'. split; [exact G|]. split; [exact G'|]. now apply incl_appr.
  - intros e He. apply in_app_or in He. destruct He as [He|He].
    + exists i, x, u, u'. split; [now left|]. split; [exact E|]. split; [exact E'|]. split; [now apply incl_appl|exact He].
    + destruct (H3 e He) as (j & y & w & w' & Hj & G & G' & Hi & He').
      exists j, y, w, w'. split; [now right|]. split; [exact G|]. split; [exact G'|]. split; [now apply incl_appr|exact He'].
Qed.
Lemma mapM_len {I X} (g : I -> option (X * list ev)) l : forall xs tr, mapM g l = Some (xs, tr) -> length xs = length l.
Proof.
  induction l as [|i l IH]; cbn [mapM]; intros xs tr H; [now injection H as <- _|].
  destruct (g i) as [[x u]|]; [|discriminate H]. destruct (mapM g l) as [[ys ts]|]; [|discriminate H].
  injection H as <- _. cbn. f_equal. eapply IH. reflexivity.
Qed.
Lemma rdn_length m n : forall a l, rdn m a n = Some l -> length l = n.
Proof.
  induction n as [|n IH]; cbn [rdn]; intros a l H; [now injection H as <-|].
  destruct (m a); [|discriminate H]. destruct (rdn m (a + 1) n) eqn:E; [|discriminate H]. injection H as <-. cbn. f_equal. eapply IH, E.
Qed.

Section Twin.
Variable env : list ty.
Notation tyof := (tyof env).
Variables R R' : env_of_reader.
Notation D := (dec env R).
Notation D' := (dec env R').

(* the object of type t at a and its copy at a', read together, with their pointers *)
Definition twin (f : nat) (t : ty) (a a' : Z) (C : list ((Z * option Z * Z * Z) * (Z * option Z * Z * Z))) : Prop :=
  exists f0 v tr tr', (f0 <= f)%nat /\ D f0 t a = Some (v, tr) /\ D' f0 t a' = Some (v, tr') /\ incl (PP tr tr') C.

Lemma zero_quiet Q a z : zero_at Q a = Some z -> quiet z.
Proof.
  unfold zero_at. destruct (r_ck Q).
  - destruct (rint Q a 1) as [b|]; [|discriminate]. destruct (b =? 0)%N; [|discriminate]. intros H. injection H as <-. now split.
  - intros H. injection H as <-. now split.
Qed.

Definition facts (f : nat) (t : ty) (a a' : Z) (tr tr' : list ev) : Prop :=
  same tr tr' /\
  (forall n s', holds env R' t a' n s' -> exists s p p' sz al, holds env R t a n s /\ r_ptr R s = Some p /\ r_ptr R' s' = Some p' /\
     In ((s, p, sz, al), (s', p', sz, al)) (PP tr tr')) /\
  (forall x x', In (x, x') (BB tr tr') -> exists ix b n al b' n' al' k c, x = (ix, b, n, al) /\ x' = (ix, b', n', al') /\
     owns env R t a ix k b c /\ n = size_of (tyof k) * Z.of_nat c /\
     forall i, (i < c)%nat -> twin f (tyof k) (b + Z.of_nat i * size_of (tyof k)) (b' + Z.of_nat i * size_of (tyof k)) (PP tr tr')).
Lemma twin_up f f1 t a a' C C1 : twin f t a a' C -> (f <= f1)%nat -> incl C C1 -> twin f1 t a a' C1.
Proof. intros (f0 & v & tr & tr' & H & H1 & H2 & H3) Hf Hi. exists f0, v, tr, tr'. split; [lia|]. split; [exact H1|]. split; [exact H2|]. eapply incl_tran; eassumption. Qed.

(* objects without pointers and blocks *)
Lemma facts_quiet f t a a' tr tr' : quiet tr -> quiet tr' -> (forall n s, ~ holds env R' t a' n s) -> facts f t a a' tr tr'.
Proof.
  intros H H' Hh. split; [now apply quiet_same|]. split.
  - intros n s' Hs. destruct (Hh n s' Hs).
  - destruct H as [_ H], H' as [_ H']. rewrite H, H'. intros x x' [].
Qed.
(* one object inside another *)
Lemma facts_sub f t a a' t1 a1 a1' u u' tr tr' : quiet u -> quiet u' ->
  (forall n s, holds env R' t a' n s -> holds env R' t1 a1' n s) ->
  (forall n s, holds env R t1 a1 n s -> holds env R t a n s) ->
  (forall ix k q c, owns env R t1 a1 ix k q c -> owns env R t a ix k q c) ->
  facts f t1 a1 a1' tr tr' -> facts (S f) t a a' (u ++ tr) (u' ++ tr').
Proof.
  intros Hu Hu' Hh Hh' Ho (H1 & H2 & H3). split; [apply same_app; [now apply quiet_same|exact H1]|].
  rewrite PP_quiet, BB_quiet by assumption. split.
  - intros n s' Hs. destruct (H2 n s' (Hh n s' Hs)) as (s & p & p' & sz & al & G1 & G2 & G3 & G4). exists s, p, p', sz, al. auto.
  - intros x x' Hx. destruct (H3 x x' Hx) as (ix & b & n & al & b' & n' & al' & k & c & E & E' & G1 & G2 & G3).
    exists ix, b, n, al, b', n', al', k, c. split; [exact E|]. split; [exact E'|]. split; [now apply Ho|]. split; [exact G2|].
    intros i Hi. eapply twin_up; [now apply G3|lia|apply incl_refl].
Qed.
(* several objects inside another *)
Lemma facts_map {I X} (g g' : I -> option (X * list ev)) (ti : I -> ty) (ai ai' : I -> Z) (live : I -> Prop) l f t a a' u u' xs tr tr' :
  quiet u -> quiet u' -> mapM g l = Some (xs, tr) -> mapM g' l = Some (xs, tr') ->
  (forall i x w w', In i l -> g i = Some (x, w) -> g' i = Some (x, w') ->
     (live i /\ facts f (ti i) (ai i) (ai' i) w w') \/ (~ live i /\ quiet w /\ quiet w')) ->
  (forall n s, holds env R' t a' n s -> exists i, In i l /\ live i /\ holds env R' (ti i) (ai' i) n s) ->
  (forall i n s, In i l -> live i -> holds env R (ti i) (ai i) n s -> holds env R t a n s) ->
  (forall i ix k q c, In i l -> live i -> owns env R (ti i) (ai i) ix k q c -> owns env R t a ix k q c) ->
  facts (S f) t a a' (u ++ tr) (u' ++ tr').
Proof.
  intros Hu Hu' E E' Hf Hh Hh' Ho.
  destruct (mapM2 g g' l xs tr tr' E E') as (H1 & H2 & H3).
  { intros i x w w' Hi G G'. destruct (Hf i x w w' Hi G G') as [[_ (H & _)]|(_ & Q & Q')]; [exact H|now apply quiet_same]. }
  split; [apply same_app; [now apply quiet_same|exact H1]|]. rewrite PP_quiet, BB_quiet by assumption. split.
  - intros n s' Hs. destruct (Hh n s' Hs) as (i & Hi & Hl & Hs'). destruct (H2 i Hi) as (x & w & w' & G & G' & Hinc).
    destruct (Hf i x w w' Hi G G') as [[_ (_ & F2 & _)]|(Hn & _)]; [|destruct (Hn Hl)].
    destruct (F2 n s' Hs') as (s & p & p' & sz & al & G1 & G2 & G3 & G4). exists s, p, p', sz, al.
    split; [now apply (Hh' i)|]. split; [exact G2|]. split; [exact G3|]. now apply Hinc.
  - intros y y' Hy. destruct (H3 _ Hy) as (i & x & w & w' & Hi & G & G' & Hinc & Hin).
    destruct (Hf i x w w' Hi G G') as [[Hl (_ & _ & F3)]|(_ & [_ Q] & _)]; [|rewrite Q in Hin; destruct Hin].
    destruct (F3 y y' Hin) as (ix & b & n & al & b' & n' & al' & k & c & E1 & E1' & G1 & G2 & G3).
    exists ix, b, n, al, b', n', al', k, c. split; [exact E1|]. split; [exact E1'|]. split; [now apply (Ho i)|]. split; [exact G2|].
    intros j Hj. eapply twin_up; [now apply G3|lia|exact Hinc].
Qed.
(* a block in front *)
Lemma facts_blk f t a a' ix b b' n al n' al' k c u u' tr tr' :
  quiet u -> quiet u' -> facts f t a a' (u ++ tr) (u' ++ tr') -> owns env R t a ix k b c -> n = size_of (tyof k) * Z.of_nat c ->
  (forall i, (i < c)%nat -> twin f (tyof k) (b + Z.of_nat i * size_of (tyof k)) (b' + Z.of_nat i * size_of (tyof k)) (PP tr tr')) ->
  facts f t a a' (u ++ Blk ix b n al :: tr) (u' ++ Blk ix b' n' al' :: tr').
Proof.
  intros Hu Hu' (H1 & H2 & H3) Ho Hn Hi. rewrite PP_quiet, BB_quiet in * by assumption. unfold facts.
  rewrite PP_quiet, BB_quiet by assumption. change (ptrs (Blk ix b n al :: tr)) with (ptrs tr). change (ptrs (Blk ix b' n' al' :: tr')) with (ptrs tr').
  split; [|split; [exact H2|]].
  - destruct Hu as [U1 U2], Hu' as [U1' U2'], H1 as [S1 S2]. split; rewrite ?ptrs_app, ?blks_app in *; rewrite ?U1, ?U2, ?U1', ?U2' in *; [exact S1|]. cbn [app] in *.
    change (S (length (blks tr)) = S (length (blks tr'))). now f_equal.
  - intros x x' [E|Hx]; [|now apply H3]. injection E as <- <-. exists ix, b, n, al, b', n', al', k, c. auto 6.
Qed.

Lemma step2 f : forall t a a' v tr tr', D f t a = Some (v, tr) -> D' f t a' = Some (v, tr') -> facts f t a a' tr tr'.
Proof.
  induction f as [|f IH]; intros t a a' v tr tr' H H'; [discriminate H|]. cbn [dec] in H, H'.
  destruct ((a mod align_of t =? 0) && inside R a (size_of t) (align_of t)); [|discriminate H].
  destruct ((a' mod align_of t =? 0) && inside R' a' (size_of t) (align_of t)); [|discriminate H'].
  destruct t.
  - destruct (rint R a w); [|discriminate H]. destruct (rint R' a' w); [|discriminate H']. injection H as <- <-. injection H' as _ <-.
    apply facts_quiet; [now split|now split|]. intros ? ? Hh; inversion Hh.
  - destruct (rdn (r_mem R) a w); [|discriminate H]. destruct (rdn (r_mem R') a' w); [|discriminate H']. injection H as <- <-. injection H' as _ <-.
    apply facts_quiet; [now split|now split|]. intros ? ? Hh; inversion Hh.
  - destruct (r_ptr R a) as [p|] eqn:E; [|discriminate H]. destruct (r_ptr R' a') as [p'|] eqn:E'; [|discriminate H'].
    destruct (match p with Some q => inside R q (size_of (tyof n)) (align_of (tyof n)) | None => true end); [|discriminate H].
    destruct (match p' with Some q => inside R' q (size_of (tyof n)) (align_of (tyof n)) | None => true end); [|discriminate H'].
    injection H as <- <-. injection H' as <-. split; [now split|]. split.
    + intros n' s' Hh. inversion Hh; subst. do 5 eexists. split; [constructor|]. split; [exact E|]. split; [exact E'|]. left. reflexivity.
    + intros x x' [].
  - destruct (mapM (fun ft => D f (snd ft) (a + fst ft)) fs) as [[vs u]|] eqn:E; [|discriminate H]. injection H as <- <-.
    destruct (mapM (fun ft => D' f (snd ft) (a' + fst ft)) fs) as [[vs' u']|] eqn:E'; [|discriminate H']. injection H' as -> <-.
    apply (facts_map _ _ snd (fun ft => a + fst ft) (fun ft => a' + fst ft) (fun _ => True) fs f (TAgg fs sz al) a a' [] [] vs u u' quiet_nil quiet_nil E E').
    + intros [o t] x w w' Hi G G'. left. split; [exact I|]. eapply IH; eassumption.
    + intros n s Hh. inversion Hh; subst. exists (o, t). auto.
    + intros [o t] n s Hi _ Hh. eapply h_agg; eassumption.
    + intros [o t] ix k q c Hi _ Hh. eapply o_agg; eassumption.
  - destruct (rint R a 1) as [b|] eqn:Eb; [|discriminate H]. destruct (rint R' a' 1) as [b'|] eqn:Eb'; [|discriminate H'].
    destruct (b =? 0)%N eqn:Z0.
    + injection H as <- <-. destruct (b' =? 0)%N eqn:Z0'.
      * injection H' as <-. apply facts_quiet; [now split|now split|]. intros ? ? Hh. inversion Hh; subst.
        apply N.eqb_eq in Z0'. congruence.
      * destruct (b' =? 1)%N; [|discriminate H']. destruct (D' f t (a' + off)) as [[? ?]|]; discriminate H'.
    + destruct (b =? 1)%N; [|discriminate H]. destruct (D f t (a + off)) as [[v0 u]|] eqn:E; [|discriminate H]. injection H as <- <-.
      destruct (b' =? 0)%N eqn:Z0'; [discriminate H'|]. destruct (b' =? 1)%N; [|discriminate H'].
      destruct (D' f t (a' + off)) as [[v0' u']|] eqn:E'; [|discriminate H']. injection H' as -> <-.
      apply N.eqb_neq in Z0.
      apply (facts_sub f (TOpt t off sz al) a a' t (a + off) (a' + off) [Rd a 1] [Rd a' 1] u u'); try now split.
      * intros n s Hh. now inversion Hh; subst.
      * intros n s Hh. now apply h_opt with (b := b).
      * intros ix k q c Hh. now apply o_opt with (b := b).
      * eapply IH; eassumption.
  - destruct (rint R a 1) as [i|] eqn:Eb; [|discriminate H]. destruct (rint R' a' 1) as [i'|] eqn:Eb'; [|discriminate H'].
    destruct (nth_error ts (N.to_nat i)) as [t|] eqn:Et; [|discriminate H]. destruct (nth_error ts (N.to_nat i')) as [t'|] eqn:Et'; [|discriminate H'].
    destruct (D f t (a + off)) as [[v0 u]|] eqn:E; [|discriminate H]. injection H as <- <-.
    destruct (D' f t' (a' + off)) as [[v0' u']|] eqn:E'; [|discriminate H']. injection H' as -> -> <-.
    assert (t' = t) as -> by congruence.
    apply (facts_sub f (TVar ts off sz al) a a' t (a + off) (a' + off) [Rd a 1] [Rd a' 1] u u'); try now split.
    + intros n s Hh. inversion Hh; subst. congruence.
    + intros n s Hh. now apply h_var with (i := i) (t := t).
    + intros ix k q c Hh. now apply o_var with (i := i) (t := t).
    + eapply IH; eassumption.
  - destruct (rptr R (r_rel R) a) as [p|] eqn:Ep; [|discriminate H]. destruct (rptr R' (r_rel R') a') as [p'|] eqn:Ep'; [|discriminate H'].
    destruct (zero_at R (a + 8)) as [z|] eqn:Ez; [|discriminate H]. destruct (zero_at R' (a' + 8)) as [z'|] eqn:Ez'; [|discriminate H'].
    apply zero_quiet in Ez. apply zero_quiet in Ez'. destruct p as [q|].
    + destruct (D f (tyof n) q) as [[v0 u]|] eqn:E; [|discriminate H]. injection H as <- <-. destruct p' as [q'|]; [|discriminate H'].
      destruct (D' f (tyof n) q') as [[v0' u']|] eqn:E'; [|discriminate H']. injection H' as -> <-.
      apply (facts_blk (S f) (TUniq n) a a' false q q' _ _ _ _ n 1 (Rd a 8 :: z) (Rd a' 8 :: z') u u').
      * exact Ez.
      * exact Ez'.
      * apply (facts_sub f _ a a' (tyof n) q q'); try assumption.
        -- intros k s Hh. inversion Hh; subst. congruence.
        -- intros k s Hh. now apply h_uniq with (q := q).
        -- intros ix k q1 c Hh. now apply o_uniq_in with (q0 := q).
        -- eapply IH; eassumption.
      * now apply o_uniq.
      * lia.
      * intros [|i] Hi; [|lia]. cbn [Z.of_nat Z.mul]. rewrite !Z.add_0_r. exists f, v0, u, u'. split; [lia|]. split; [exact E|]. split; [exact E'|]. apply incl_refl.
    + injection H as <- <-. destruct p' as [q'|]; [destruct (D' f (tyof n) q') as [[? ?]|]; discriminate H'|]. injection H' as <-.
      apply facts_quiet; [exact Ez|exact Ez'|]. intros ? ? Hh. inversion Hh; subst. congruence.
  - destruct (rptr R (r_rel R) a) as [p|] eqn:Ep; [|discriminate H]. destruct (rptr R' (r_rel R') a') as [p'|] eqn:Ep'; [|discriminate H'].
    destruct (rint R (a + 8) w) as [used|] eqn:Eu; [|discriminate H]. destruct (rint R' (a' + 8) w) as [used'|] eqn:Eu'; [|discriminate H'].
    destruct (match r_ck R with Some _ => rint R (a + 8 + Z.of_nat w) w | None => Some used end) as [al|]; [|discriminate H].
    destruct (match r_ck R' with Some _ => rint R' (a' + 8 + Z.of_nat w) w | None => Some used' end) as [al'|]; [|discriminate H'].
    destruct (al =? used)%N; [|discriminate H]. destruct (al' =? used')%N; [|discriminate H'].
    destruct (zero_at R (a + 8 + 2 * Z.of_nat w)) as [z|] eqn:Ez; [|discriminate H].
    destruct (zero_at R' (a' + 8 + 2 * Z.of_nat w)) as [z'|] eqn:Ez'; [|discriminate H'].
    apply zero_quiet in Ez. apply zero_quiet in Ez'. cbv zeta in H, H'.
    set (own := Rd a 8 :: _) in H. set (own' := Rd a' 8 :: _) in H'.
    assert (Ho : quiet own) by (unfold own; apply quiet_rd, quiet_rd, quiet_app; [destruct (r_ck R); now split|exact Ez]).
    assert (Ho' : quiet own') by (unfold own'; apply quiet_rd, quiet_rd, quiet_app; [destruct (r_ck R'); now split|exact Ez']).
    clearbody own own'.
    destruct (used =? 0)%N eqn:Z0.
    + match type of H with (if ?c then _ else _) = _ => destruct c; [|discriminate H] end. injection H as <- <-.
      destruct (used' =? 0)%N eqn:Z0'.
      * match type of H' with (if ?c then _ else _) = _ => destruct c; [|discriminate H'] end. injection H' as <-.
        apply N.eqb_eq in Z0'. subst used'.
        apply facts_quiet; try (apply quiet_app; [assumption|]; destruct p, p', ix; now split).
        intros ? ? Hh. inversion Hh; subst. match goal with U : rint R' (a' + 8) w = Some ?x |- _ => replace x with 0%N in * by congruence; lia end.
      * destruct p' as [q'|]; [|discriminate H']. destruct (inside R' q' _ _); [|discriminate H'].
        destruct (mapM _ _) as [[vs' u']|] eqn:E' in H'; [|discriminate H']. injection H' as -> _.
        apply mapM_len in E'. rewrite seq_length in E'. cbn in E'. lia.
    + destruct p as [q|]; [|discriminate H]. destruct (inside R q _ _); [|discriminate H].
      destruct (mapM _ _) as [[vs u]|] eqn:E in H; [|discriminate H]. injection H as <- <-.
      assert (Hlen : length vs = N.to_nat used) by (apply mapM_len in E; now rewrite seq_length in E).
      destruct (used' =? 0)%N eqn:Z0'.
      * match type of H' with (if ?c then _ else _) = _ => destruct c; [|discriminate H'] end. injection H' as Hx _. rewrite <- Hx in Hlen. cbn in Hlen. lia.
      * destruct p' as [q'|]; [|discriminate H']. destruct (inside R' q' _ _); [|discriminate H'].
        destruct (mapM _ _) as [[vs' u']|] eqn:E' in H'; [|discriminate H']. injection H' as -> <-.
        assert (used' = used) as -> by (apply mapM_len in E'; rewrite seq_length in E'; lia).
        assert (Hf : facts (S f) (TVec w ix n) a a' (own ++ u) (own' ++ u')).
        { apply (facts_map _ _ (fun _ => tyof n) (fun i => q + Z.of_nat i * size_of (tyof n)) (fun i => q' + Z.of_nat i * size_of (tyof n))
                   (fun _ => True) _ f (TVec w ix n) a a' own own' vs u u' Ho Ho' E E').
          - intros i x y y' Hi G G'. left. split; [exact I|]. eapply IH; eassumption.
          - intros k s Hh. inversion Hh; subst. exists i. split; [apply in_seq; replace used with used0 by congruence; lia|]. split; [exact I|].
            replace q' with q0 by congruence. assumption.
          - intros i k s Hi _ Hh. apply in_seq in Hi. apply h_vec with (q := q) (used := used) (i := i); try assumption. lia.
          - intros i jx k q1 c Hi _ Hh. apply in_seq in Hi. apply o_vec_in with (q0 := q) (used := used) (i := i); try assumption. lia. }
        destruct ix; [|exact Hf].
        apply (facts_blk (S f) (TVec w true n) a a' true q q' _ _ _ _ n (N.to_nat used) own own' u u' Ho Ho' Hf).
        -- apply o_vec; [exact Ep|exact Eu|]. now apply N.eqb_neq.
        -- lia.
        -- intros i Hi. destruct (mapM2 _ _ _ _ _ _ E E') as (_ & H2 & _).
           { intros j x y y' Hj G G'. exact (proj1 (IH _ _ _ _ _ _ G G')). }
           destruct (H2 i) as (x & y & y' & G & G' & Hinc); [apply in_seq; lia|]. exists f, x, y, y'. split; [lia|]. auto.
  - apply facts_quiet; [| |intros ? ? Hh; inversion Hh].
    + clear H'. destruct (rint R a 1) as [b|]; [|discriminate H]. destruct (negb (b =? 0)%N).
      * destruct (b =? 1)%N; [|discriminate H]. destruct (rdn _ _ _); [|discriminate H]. injection H as _ <-. now split.
      * destruct (rptr _ _ _) as [p|]; [|discriminate H]. destruct (rint R (a + 4) 4) as [size|]; [|discriminate H].
        destruct (zero_at R (a + 1)) as [z|] eqn:Ez; [|discriminate H]. apply zero_quiet in Ez. destruct p as [q|].
        -- match type of H with (if ?x then _ else _) = _ => destruct x; [|discriminate H] end. destruct (rdn _ _ _); [|discriminate H]. injection H as _ <-. apply (quiet_app (_ :: _ :: _ :: z)); [exact Ez|now split].
        -- destruct (size =? 0)%N; [|discriminate H]. injection H as _ <-. exact Ez.
    + clear H. destruct (rint R' a' 1) as [b|]; [|discriminate H']. destruct (negb (b =? 0)%N).
      * destruct (b =? 1)%N; [|discriminate H']. destruct (rdn _ _ _); [|discriminate H']. injection H' as _ <-. now split.
      * destruct (rptr _ _ _) as [p|]; [|discriminate H']. destruct (rint R' (a' + 4) 4) as [size|]; [|discriminate H'].
        destruct (zero_at R' (a' + 1)) as [z|] eqn:Ez; [|discriminate H']. apply zero_quiet in Ez. destruct p as [q|].
        -- match type of H' with (if ?x then _ else _) = _ => destruct x; [|discriminate H'] end. destruct (rdn _ _ _); [|discriminate H']. injection H' as _ <-. apply (quiet_app (_ :: _ :: _ :: z)); [exact Ez|now split].
        -- destruct (size =? 0)%N; [|discriminate H']. injection H' as _ <-. exact Ez.
  - apply facts_quiet; [| |intros ? ? Hh; inversion Hh].
    + clear H'. destruct (rint R (a + 15) 1) as [b|]; [|discriminate H]. destruct (b <? 128)%N.
      * destruct (b <=? 15)%N; [|discriminate H]. destruct (rdn _ _ _); [|discriminate H]. injection H as _ <-. now split.
      * destruct (rptr _ _ _) as [p|]; [|discriminate H]. destruct (rint R (a + 8) 4) as [size|]; [|discriminate H].
        destruct (size =? 0)%N; [injection H as _ <-; now split|]. destruct p; [|discriminate H].
        destruct (rdn _ _ _); [|discriminate H]. injection H as _ <-. now split.
    + clear H. destruct (rint R' (a' + 15) 1) as [b|]; [|discriminate H']. destruct (b <? 128)%N.
      * destruct (b <=? 15)%N; [|discriminate H']. destruct (rdn _ _ _); [|discriminate H']. injection H' as _ <-. now split.
      * destruct (rptr _ _ _) as [p|]; [|discriminate H']. destruct (rint R' (a' + 8) 4) as [size|]; [|discriminate H'].
        destruct (size =? 0)%N; [injection H' as _ <-; now split|]. destruct p; [|discriminate H'].
        destruct (rdn _ _ _); [|discriminate H']. injection H' as _ <-. now split.
  - destruct (rptr R (r_rel R) a) as [pe|] eqn:Ep; [|discriminate H]. destruct (rptr R' (r_rel R') a') as [pe'|] eqn:Ep'; [|discriminate H'].
    destruct (rptr R (r_rel R) (a + 8)) as [pc|] eqn:Ec; [|discriminate H]. destruct (rptr R' (r_rel R') (a' + 8)) as [pc'|] eqn:Ec'; [|discriminate H'].
    destruct (rint R (a + 16) 8) as [size|]; [|discriminate H]. destruct (rint R' (a' + 16) 8) as [size'|]; [|discriminate H'].
    destruct (rint R (a + 24) 8) as [cap|] eqn:Eu; [|discriminate H]. destruct (rint R' (a' + 24) 8) as [cap'|] eqn:Eu'; [|discriminate H'].
    destruct (rint R (a + 32) 8) as [growth|]; [|discriminate H]. destruct (rint R' (a' + 32) 8) as [growth'|]; [|discriminate H'].
    destruct (zero_at R (a + 40)) as [z|] eqn:Ez; [|discriminate H]. destruct (zero_at R' (a' + 40)) as [z'|] eqn:Ez'; [|discriminate H'].
    apply zero_quiet in Ez. apply zero_quiet in Ez'. destruct pc as [c|]; [|discriminate H]. destruct pc' as [c'|]; [|discriminate H'].
    match type of H with (if ?x then _ else _) = _ => destruct x; [|discriminate H] end.
    match type of H' with (if ?x then _ else _) = _ => destruct x; [|discriminate H'] end.
    destruct (rdn (r_mem R) c (N.to_nat cap + 9)) as [ctrl|] eqn:El; [|discriminate H].
    destruct (rdn (r_mem R') c' (N.to_nat cap' + 9)) as [ctrl'|] eqn:El'; [|discriminate H'].
    destruct (r_tab R size cap growth ctrl); [|discriminate H]. destruct (r_tab R' size' cap' growth' ctrl'); [|discriminate H'].
    cbv zeta in H, H'. set (own := Rd a 8 :: _) in H. set (own' := Rd a' 8 :: _) in H'.
    assert (Ho : quiet own) by (unfold own; apply (quiet_app z); [exact Ez|now split]).
    assert (Ho' : quiet own') by (unfold own'; apply (quiet_app z'); [exact Ez'|now split]).
    clearbody own own'. apply rdn_length in El as Hcl. apply rdn_length in El' as Hcl'.
    assert (Hv : forall l l', VTab size growth ctrl l = VTab size' growth' ctrl' l' -> cap' = cap /\ ctrl' = ctrl /\ l' = l).
    { intros l l' E. injection E as _ _ -> ->. split; [lia|auto]. }
    destruct pe as [e|].
    + match type of H with (if ?x then _ else _) = _ => destruct x; [|discriminate H] end. destruct (mapM _ _) as [[vs u]|] eqn:E in H; [|discriminate H]. injection H as <- <-.
      destruct pe' as [e'|].
      * match type of H' with (if ?x then _ else _) = _ => destruct x; [|discriminate H'] end. destruct (mapM _ _) as [[vs' u']|] eqn:E' in H'; [|discriminate H']. 
        injection H' as Hs Hg Hc Hvs <-. subst. assert (cap' = cap) as -> by lia.
        apply (facts_map _ _ (fun _ => tyof n) (fun i => e + Z.of_nat i * size_of (tyof n)) (fun i => e' + Z.of_nat i * size_of (tyof n))
                   (fun i => is_full (nth i ctrl EMPTY) = true) _ f (THash n) a a' own own' vs u u' Ho Ho' E E').
        -- intros i x y y' Hi G G'. destruct (is_full (nth i ctrl EMPTY)).
           ++ left. split; [reflexivity|]. destruct (D f _ _) as [[v1 w1]|] eqn:E1; [|discriminate G]. destruct (D' f _ _) as [[v1' w1']|] eqn:E1'; [|discriminate G'].
              injection G as <- <-. injection G' as -> <-. eapply IH; eassumption.
           ++ right. injection G as _ <-. injection G' as _ <-. split; [discriminate|]. now split.
        -- intros k s Hh. inversion Hh; subst. assert (cap0 = cap) as -> by congruence. assert (c0 = c') as -> by congruence.
           assert (ctrl0 = ctrl) as -> by congruence. exists i. split; [apply in_seq; lia|]. split; [assumption|]. replace e' with e0 by congruence. assumption.
        -- intros i k s Hi Hl Hh. apply in_seq in Hi. eapply h_hash; try eassumption. lia.
        -- intros i jx k q1 c1 Hi Hl Hh. apply in_seq in Hi. eapply o_hash_in; try eassumption. lia.
      * destruct (cap' =? 0)%N eqn:Ecap; [|discriminate H']. destruct (size' =? 0)%N; [|discriminate H']. cbn [andb] in H'. injection H' as _ _ Hc Hvs <-. subst.
        apply mapM_len in E as Hl. rewrite seq_length in Hl. assert (cap = 0%N) as -> by (cbn in Hl; lia). cbn [N.to_nat seq mapM] in E. injection E as <-.
        rewrite app_nil_r. apply facts_quiet; [exact Ho|exact Ho'|]. intros ? ? Hh. inversion Hh; subst. congruence.
    + destruct (cap =? 0)%N eqn:Ecap; [|discriminate H]. destruct (size =? 0)%N; [|discriminate H]. cbn [andb] in H. injection H as <- <-.
      destruct pe' as [e'|].
      * match type of H' with (if ?x then _ else _) = _ => destruct x; [|discriminate H'] end. destruct (mapM _ _) as [[vs' u']|] eqn:E' in H'; [|discriminate H'].
        injection H' as _ _ Hc Hvs <-. subst. assert (cap' = 0%N) as -> by lia. cbn [N.to_nat seq mapM] in E'. injection E' as <-. rewrite app_nil_r.
        apply facts_quiet; [exact Ho|exact Ho'|]. intros ? ? Hh. inversion Hh; subst. replace cap0 with 0%N in * by congruence. lia.
      * match type of H' with (if ?x then _ else _) = _ => destruct x; [|discriminate H'] end. injection H' as _ _ _ <-. apply facts_quiet; [exact Ho|exact Ho'|]. intros ? ? Hh. inversion Hh; subst. congruence.
Qed.

(* members keep their places *)
Lemma part2 f t a t1 a1 C : part R t a t1 a1 -> forall a', twin f t a a' C -> twin f t1 a1 (a' + (a1 - a)) C.
Proof.
  induction 1 as [t a|fs sz al a o t t1 a1 Hi Hp IH|t off sz al a b t1 a1 Eb Hb Hp IH|ts off sz al a i t t1 a1 Ei Et Hp IH]; intros a' (f0 & v & tr & tr' & Hf & H & H' & Hinc).
  - replace (a' + (a - a)) with a' by lia. exists f0, v, tr, tr'. auto.
  - replace (a' + (a1 - a)) with (a' + o + (a1 - (a + o))) by lia. apply IH.
    destruct f0 as [|f0]; [discriminate H|]. cbn [dec] in H, H'.
    match type of H with (if ?c then _ else _) = _ => destruct c; [|discriminate H] end.
    match type of H' with (if ?c then _ else _) = _ => destruct c; [|discriminate H'] end.
    destruct (mapM (fun ft => D f0 (snd ft) (a + fst ft)) fs) as [[vs u]|] eqn:E; [|discriminate H]. injection H as <- <-.
    destruct (mapM (fun ft => D' f0 (snd ft) (a' + fst ft)) fs) as [[vs' u']|] eqn:E'; [|discriminate H']. injection H' as -> <-.
    destruct (mapM2 _ _ _ _ _ _ E E') as (_ & H2 & _).
    { intros j x y y' Hj G G'. exact (proj1 (step2 _ _ _ _ _ _ _ G G')). }
    destruct (H2 _ Hi) as (x & y & y' & G & G' & Hinc'). exists f0, x, y, y'. split; [lia|]. split; [exact G|]. split; [exact G'|]. eapply incl_tran; eassumption.
  - replace (a' + (a1 - a)) with (a' + off + (a1 - (a + off))) by lia. apply IH.
    destruct f0 as [|f0]; [discriminate H|]. cbn [dec] in H, H'.
    match type of H with (if ?c then _ else _) = _ => destruct c; [|discriminate H] end.
    match type of H' with (if ?c then _ else _) = _ => destruct c; [|discriminate H'] end.
    rewrite Eb in H. apply N.eqb_neq in Hb. rewrite Hb in H. destruct (b =? 1)%N; [|discriminate H].
    destruct (D f0 t (a + off)) as [[v0 u]|] eqn:E; [|discriminate H]. injection H as <- <-.
    destruct (rint R' a' 1) as [b'|]; [|discriminate H']. destruct (b' =? 0)%N; [discriminate H'|]. destruct (b' =? 1)%N; [|discriminate H'].
    destruct (D' f0 t (a' + off)) as [[v0' u']|] eqn:E'; [|discriminate H']. injection H' as -> <-.
    exists f0, v0, u, u'. split; [lia|]. auto.
  - replace (a' + (a1 - a)) with (a' + off + (a1 - (a + off))) by lia. apply IH.
    destruct f0 as [|f0]; [discriminate H|]. cbn [dec] in H, H'.
    match type of H with (if ?c then _ else _) = _ => destruct c; [|discriminate H] end.
    match type of H' with (if ?c then _ else _) = _ => destruct c; [|discriminate H'] end.
    rewrite Ei, Et in H. destruct (D f0 t (a + off)) as [[v0 u]|] eqn:E; [|discriminate H]. injection H as <- <-.
    destruct (rint R' a' 1) as [i'|]; [|discriminate H']. destruct (nth_error ts (N.to_nat i')) as [t'|] eqn:Et'; [|discriminate H'].
    destruct (D' f0 t' (a' + off)) as [[v0' u']|] eqn:E'; [|discriminate H']. injection H' as -> -> <-.
    assert (t' = t) as -> by congruence. exists f0, v0, u, u'. split; [lia|]. auto.
Qed.
Lemma part_holds t a t1 a1 n s : part R t a t1 a1 -> holds env R t1 a1 n s -> holds env R t a n s.
Proof.
  induction 1; intros Hh; [exact Hh| | |].
  - eapply h_agg; eauto.
  - eapply h_opt; eauto.
  - eapply h_var; eauto.
Qed.
Lemma owns_holds t a ix k q c n s : owns env R t a ix k q c -> forall i, (i < c)%nat ->
  holds env R (tyof k) (q + Z.of_nat i * size_of (tyof k)) n s -> holds env R t a n s.
Proof.
  induction 1; intros j Hj Hh.
  - eapply h_agg; eauto.
  - eapply h_opt; eauto.
  - eapply h_var; eauto.
  - assert (j = 0)%nat as -> by lia. cbn [Z.of_nat Z.mul] in Hh. rewrite Z.add_0_r in Hh. eapply h_uniq; eauto.
  - eapply h_uniq; eauto.
  - eapply h_vec; eauto.
  - eapply h_vec; eauto.
  - eapply h_hash; eauto.
Qed.
Lemma F2_combine {X Y} (Q : X -> Y -> Prop) l k : Forall2 Q l k -> forall x y, In (x, y) (combine l k) -> Q x y.
Proof.
  induction 1 as [|x y l k H1 H2 IH]; intros x0 y0 Hi; [destruct Hi|].
  destruct Hi as [E|Hi]; [now injection E as <- <-|now apply IH].
Qed.

(* whatever is reached in the copy is the copy of something in the original *)
Lemma reach2 f t a a' v tr tr' : D f t a = Some (v, tr) -> D' f t a' = Some (v, tr') -> mirrors tr tr' -> typed_pointers env R t a ->
  forall t1 a1, reach env R' t a' t1 a1 ->
  exists a0, twin f t1 a0 a1 (PP tr tr') /\ forall n s, holds env R t1 a0 n s -> holds env R t a n s.
Proof.
  intros H H' [_ Hp] Ht. pose proof (step2 f t a a' v tr tr' H H') as (_ & _ & HO).
  induction 1 as [|t1 a1 n s' q' Hr IH Hh Hq].
  { exists a. split; [|auto]. exists f, v, tr, tr'. split; [lia|]. split; [exact H|]. split; [exact H'|]. apply incl_refl. }
  destruct IH as (a0 & (f0 & v0 & u & u' & Hf & G & G' & Hinc) & Hsub).
  destruct (step2 _ _ _ _ _ _ _ G G') as (_ & HH & _). destruct (HH n s' Hh) as (s & p & p' & sz & al & K1 & K2 & K3 & K4).
  assert (p' = Some q') as -> by congruence. apply Hinc, (F2_combine _ _ _ Hp) in K4. cbn [fst snd] in K4.
  destruct p as [q|]; [|destruct K4]. destruct K4 as (ix & b & nn & al1 & b' & n' & al' & Hin & Hpos).
  destruct (HO _ _ Hin) as (ix0 & b0 & n0 & al0 & b0' & n0' & al0' & k & c & E & E' & O1 & O2 & O3).
  injection E as <- <- <- <-. injection E' as <- <- <-.
  destruct (Ht n s q ix k b c (Hsub _ _ K1) K2 O1) as (i & Hi & Hpart).
  { rewrite <- O2. destruct ix; tauto. }
  exists q. split.
  - replace q' with (b' + Z.of_nat i * size_of (tyof k) + (q - (b + Z.of_nat i * size_of (tyof k)))) by (destruct ix; lia).
    apply (part2 _ _ _ _ _ _ Hpart). now apply O3.
  - intros n1 s1 Hs1. eapply owns_holds; [exact O1|exact Hi|]. eapply part_holds; eassumption.
Qed.
End Twin.
