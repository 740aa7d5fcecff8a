(* The rtree: lemmas on rectangles and on the entries of one node. *)
From Coq Require Import Permutation.
From Verif Require Import Base RtModel RtSpec.
Ltac Zify.zify_post_hook ::= Z.to_euclidean_division_equations.
Lemma min_items_half m : 2 <= m -> 2 * min_items m <= m.
Proof. unfold min_items. lia. Qed.
Lemma min_items_two m : 3 <= m -> 2 <= m - min_items m.
Proof. unfold min_items. lia. Qed.
Ltac Zify.zify_post_hook ::= idtac.


Section Ents.
Variables (C : Type) (lt : C -> C -> bool) (c0 : C).
Variables (D : Type) (diff : C -> C -> D) (mulD subD : D -> D -> D) (oneD infD : D) (ltD : D -> D -> bool).
Variables (Dims MaxItems : nat).
Hypothesis O : order_ok lt.
Notation rect := (rect C).
Notation contains := (contains C lt).
Notation intersects := (intersects C lt).
Notation expand := (expand C lt).
Notation equals := (equals C lt).
Notation cmin := (cmin C lt).
Notation cmax := (cmax C lt).
Notation dim r := (length r = Dims).
Lemma lt_irr a : lt a a = false.
Proof. destruct (lt a a) eqn:E; auto. rewrite (proj1 O _ _ E) in E. auto. Qed.
Lemma lt_neg a b c : lt a b = false -> lt b c = false -> lt a c = false.
Proof. apply O. Qed.
Lemma lt_asym a b : lt a b = true -> lt b a = false.
Proof. apply O. Qed.
Lemma cmin_l a b : lt a (cmin a b) = false.
Proof. unfold cmin, RtModel.cmin. destruct (lt b a) eqn:E; [apply lt_asym; auto|apply lt_irr]. Qed.
Lemma cmin_r a b : lt b (cmin a b) = false.
Proof. unfold cmin, RtModel.cmin. destruct (lt b a) eqn:E; [apply lt_irr|auto]. Qed.
Lemma cmax_l a b : lt (cmax a b) a = false.
Proof. unfold cmax, RtModel.cmax. destruct (lt a b) eqn:E; [apply lt_asym; auto|apply lt_irr]. Qed.
Lemma cmax_r a b : lt (cmax a b) b = false.
Proof. unfold cmax, RtModel.cmax. destruct (lt a b) eqn:E; [apply lt_irr|auto]. Qed.
Lemma contains_within r o : dim r -> dim o -> (contains r o = true <-> within C lt o r).
Proof.
  intros Lr Lo. assert (L : length r = length o) by congruence. clear Lr Lo. unfold contains, RtModel.contains, within. rewrite forallb_forall. split.
  - intros H i p q Hp Hq. specialize (H (q, p)). assert (I : In (q, p) (combine r o)).
    { clear H. revert o i L Hp Hq. induction r as [|x r IH]; intros [|y o] [|i] L Hp Hq; try discriminate; cbn in *; [left; congruence|right; eapply IH; eauto]. }
    specialize (H I). cbn [fst snd] in H. apply andb_true_iff in H. destruct H as (A & B). apply negb_true_iff in A. apply negb_true_iff in B. auto.
  - intros H (q, p) I. assert (X : exists i, nth_error r i = Some q /\ nth_error o i = Some p).
    { clear H. revert o L I. induction r as [|x r IH]; intros [|y o] L I; cbn in *; try contradiction. destruct I as [E|I]; [injection E as <- <-; exists 0; auto|].
      destruct (IH o ltac:(lia) I) as (i & A & B). exists (S i). auto. }
    destruct X as (i & A & B). destruct (H i p q B A) as (E & F). cbn [fst snd]. rewrite E, F. auto.
Qed.
Lemma intersects_overlap r o : dim r -> dim o -> (intersects r o = true <-> overlap C lt r o).
Proof.
  intros Lr Lo. assert (L : length r = length o) by congruence. clear Lr Lo. unfold intersects, RtModel.intersects, overlap. rewrite forallb_forall. split.
  - intros H i p q Hp Hq. specialize (H (p, q)). assert (I : In (p, q) (combine r o)).
    { clear H. revert o i L Hp Hq. induction r as [|x r IH]; intros [|y o] [|i] L Hp Hq; try discriminate; cbn in *; [left; congruence|right; eapply IH; eauto]. }
    specialize (H I). cbn [fst snd] in H. apply andb_true_iff in H. destruct H as (A & B). apply negb_true_iff in A. apply negb_true_iff in B. auto.
  - intros H (q, p) I. assert (X : exists i, nth_error r i = Some q /\ nth_error o i = Some p).
    { clear H. revert o L I. induction r as [|x r IH]; intros [|y o] L I; cbn in *; try contradiction. destruct I as [E|I]; [injection E as <- <-; exists 0; auto|].
      destruct (IH o ltac:(lia) I) as (i & A & B). exists (S i). auto. }
    destruct X as (i & A & B). destruct (H i q p A B) as (E & F). cbn [fst snd]. rewrite E, F. auto.
Qed.
Lemma equals_same r o : dim r -> dim o -> (equals r o = true <-> same_rect C lt r o).
Proof.
  intros Lr Lo. unfold same_rect. rewrite <- !contains_within by auto. assert (L : length r = length o) by congruence. clear Lr Lo.
  unfold equals, RtModel.equals, contains, RtModel.contains, feq. revert o L. induction r as [|x r IH]; intros [|y o] L; try discriminate; cbn [combine forallb fst snd]; [tauto|].
  injection L as L. specialize (IH o L). rewrite !andb_true_iff, IH, !negb_true_iff, !orb_false_iff. tauto.
Qed.
Lemma expand_dim r n : dim r -> dim n -> dim (expand r n).
Proof. intros A B. unfold expand, RtModel.expand. rewrite map_length, combine_length. lia. Qed.
Lemma contains_trans r s o : dim r -> dim s -> dim o -> contains r s = true -> contains s o = true -> contains r o = true.
Proof.
  intros A B E. rewrite !contains_within by auto. intros H1 H2 i p q Hp Hq. destruct (nth_error s i) as [m|] eqn:M.
  - destruct (H1 _ _ _ M Hq). destruct (H2 _ _ _ Hp M). split; eapply lt_neg; eauto.
  - apply nth_error_None in M. assert (nth_error o i <> None) by congruence. apply nth_error_Some in H. lia.
Qed.
Lemma contains_refl r : dim r -> contains r r = true.
Proof. intros A. rewrite contains_within by auto. intros i p q Hp Hq. assert (p = q) by congruence. subst. split; apply lt_irr. Qed.
Lemma expand_nth r n i p : nth_error (expand r n) i = Some p -> exists a b, nth_error r i = Some a /\ nth_error n i = Some b /\ p = (cmin (fst a) (fst b), cmax (snd a) (snd b)).
Proof.
  unfold expand, RtModel.expand. revert n i. induction r as [|x r IH]; intros [|y n] [|i] H; try discriminate; cbn [combine map nth_error] in *; [injection H as <-; eauto|eauto].
Qed.
Lemma expand_l r n : dim r -> dim n -> contains (expand r n) r = true.
Proof.
  intros A B. rewrite contains_within; auto using expand_dim. intros i p q Hp Hq. apply expand_nth in Hq. destruct Hq as (a & b & Ha & Hb & ->). assert (a = p) by congruence. subst. cbn. split; [apply cmin_l|apply cmax_l].
Qed.
Lemma expand_r r n : dim r -> dim n -> contains (expand r n) n = true.
Proof.
  intros A B. rewrite contains_within; auto using expand_dim. intros i p q Hp Hq. apply expand_nth in Hq. destruct Hq as (a & b & Ha & Hb & ->). assert (b = p) by congruence. subst. cbn. split; [apply cmin_r|apply cmax_r].
Qed.
Lemma intersects_mono r s q : dim r -> dim s -> dim q -> contains r s = true -> intersects s q = true -> intersects r q = true.
Proof.
  intros A B E. rewrite contains_within, !intersects_overlap by auto. intros H1 H2 i p x Hp Hx. destruct (nth_error s i) as [m|] eqn:M.
  - destruct (H1 _ _ _ M Hp). destruct (H2 _ _ _ M Hx). split; eapply lt_neg; eauto.
  - apply nth_error_None in M. assert (nth_error r i <> None) by congruence. apply nth_error_Some in H. lia.
Qed.

(* ---- entries ---- *)
Section X.
Variable X : Type.
Notation ents := (list (rect * X)).
Definition dims (l : ents) : Prop := Forall (fun e => dim (fst e)) l.
Notation set_ent := (@set_ent C X).
Notation ent := (@ent C X).
Lemma ent_ok (l : ents) i x : ent l i = Ok x <-> nth_error l i = Some x.
Proof. unfold RtModel.ent. destruct (nth_error l i); split; congruence. Qed.
Lemma ent_lt (l : ents) i : i < length l -> exists x, nth_error l i = Some x /\ ent l i = Ok x.
Proof. intros H. unfold RtModel.ent. destruct (nth_error l i) eqn:E; eauto. apply nth_error_None in E. lia. Qed.
Lemma set_ent_len (l : ents) i x : i < length l -> length (set_ent l i x) = length l.
Proof. intros H. unfold RtModel.set_ent. rewrite app_length, firstn_length. cbn [length]. rewrite skipn_length. lia. Qed.
Lemma nth_set (l : ents) i x j : i < length l -> nth_error (set_ent l i x) j = if j =? i then Some x else nth_error l j.
Proof.
  intros H. unfold RtModel.set_ent. destruct (Nat.eqb_spec j i) as [->|N].
  - rewrite nth_error_app2; rewrite firstn_length; [|lia]. replace (i - Nat.min i (length l)) with 0 by lia. auto.
  - destruct (Nat.lt_ge_cases j i).
    + rewrite nth_error_app1 by (rewrite firstn_length; lia). rewrite <- (firstn_skipn i l) at 2. rewrite nth_error_app1 by (rewrite firstn_length; lia). auto.
    + rewrite nth_error_app2 by (rewrite firstn_length; lia). rewrite firstn_length. replace (j - Nat.min i (length l)) with (S (j - S i)) by lia. cbn [nth_error].
      rewrite <- (firstn_skipn (S i) l) at 2. rewrite nth_error_app2 by (rewrite firstn_length; lia). rewrite firstn_length. f_equal. lia.
Qed.
Lemma set_split (l : ents) i x : nth_error l i = Some x -> l = firstn i l ++ x :: skipn (S i) l.
Proof. revert i. induction l as [|y l IH]; intros [|i] H; try discriminate; cbn [nth_error firstn skipn app] in *; [congruence|]. f_equal. auto. Qed.
(* moving a multiset of one entry *)
Lemma set_perm (l : ents) i x y : nth_error l i = Some x -> Permutation (x :: set_ent l i y) (y :: l).
Proof.
  intros H. rewrite (set_split l i x H) at 2. unfold RtModel.set_ent. rewrite <- !Permutation_middle. apply perm_swap.
Qed.
Lemma set_same (l : ents) i x : nth_error l i = Some x -> set_ent l i x = l.
Proof. intros H. unfold RtModel.set_ent. symmetry. apply set_split; auto. Qed.
Lemma swap_ok (l : ents) i j : i < length l -> j < length l -> exists l', swap C X l i j = Ok l' /\ Permutation l' l /\ length l' = length l /\
  forall k, nth_error l' k = if k =? j then nth_error l i else if k =? i then nth_error l j else nth_error l k.
Proof.
  intros Hi Hj. unfold swap. destruct (ent_lt l i Hi) as (a & A & EA). destruct (ent_lt l j Hj) as (b & B & EB). fold (ent l i) (ent l j). rewrite EA, EB. cbn [bind]. eexists. split; [reflexivity|].
  assert (N : forall k, nth_error (set_ent (set_ent l i b) j a) k = if k =? j then nth_error l i else if k =? i then nth_error l j else nth_error l k).
  { intros k. rewrite nth_set by (rewrite set_ent_len; auto). rewrite nth_set by auto. rewrite A, B. auto. }
  split; [|split; [rewrite !set_ent_len; auto; rewrite set_ent_len; auto|exact N]].
  destruct (Nat.eq_dec i j) as [->|Ne].
  - assert (a = b) by congruence. subst b. rewrite (set_same l j a A). rewrite (set_same l j a A). auto.
  - assert (Q : nth_error (set_ent l i b) j = Some b) by (rewrite nth_set by auto; destruct (Nat.eqb_spec j i); congruence).
    apply Permutation_cons_inv with (a := b). rewrite (set_perm _ j b a Q). rewrite (set_perm l i a b A). auto.
Qed.
Lemma dims_perm (l k : ents) : Permutation l k -> dims l -> dims k.
Proof. intros P H. unfold dims in *. eapply Permutation_Forall; eauto. Qed.
Lemma coord_ok (l : ents) i axis mx : dims l -> i < length l -> axis < Dims -> exists c, coord C X l i axis mx = Ok c /\ forall l', nth_error l' i = nth_error l i -> coord C X l' i axis mx = Ok c.
Proof.
  intros Hd Hi Ha. unfold coord. destruct (ent_lt l i Hi) as (e & E & EE). fold (ent l i). rewrite EE. cbn [bind]. assert (L : length (fst e) = Dims) by (unfold dims in Hd; rewrite Forall_forall in Hd; apply Hd; eapply nth_error_In; eauto).
  destruct (nth_error (fst e) axis) as [p|] eqn:P; [|apply nth_error_None in P; lia]. eexists. split; [reflexivity|]. intros l' E'. unfold RtModel.ent. rewrite E', E. cbn [bind]. rewrite P. auto.
Qed.
Lemma partition_ok start nrects axis mx rv : axis < Dims -> forall k (l : ents) i lf, dims l -> i + k = nrects -> start + nrects <= length l -> lf <= i -> (i = nrects -> lf < nrects) -> 0 < nrects ->
  exists l' lf', partition C lt X k l start nrects i lf axis mx rv = Ok (l', lf') /\ Permutation l' l /\ length l' = length l /\ lf' < nrects.
Proof.
  intros Ax. induction k as [|k IH]; intros l i lf Hd Hk Hl Hlf Hfin Hn; cbn [partition].
  - exists l, lf. split; [auto|]. split; [auto|]. split; [auto|]. apply Hfin. lia.
  - destruct (coord_ok l (start + i) axis mx Hd ltac:(lia) Ax) as (a & A & _). destruct (coord_ok l (start + (nrects - 1)) axis mx Hd ltac:(lia) Ax) as (p & P & P'). rewrite A, P. cbn [bind].
    destruct (if rv then lt p a else lt a p) eqn:Cmp.
    + (* not at the pivot itself *)
      destruct (swap_ok l (start + i) (start + lf) ltac:(lia) ltac:(lia)) as (l1 & -> & Pm & L1 & _). cbn [bind].
      destruct (Nat.eq_dec k 0) as [->|Nk].
      * exfalso. assert (i = nrects - 1) by lia. subst i. rewrite A in P. injection P as ->. rewrite lt_irr in Cmp. destruct rv; discriminate.
      * destruct (IH l1 (S i) (S lf)) as (l' & lf' & -> & Pm' & L' & B); try lia. { eapply dims_perm; [symmetry; exact Pm|auto]. }
        exists l', lf'. split; [auto|]. split; [etransitivity; eauto|]. split; [lia|auto].
    + destruct (Nat.eq_dec lf nrects) as [->|]; [lia|]. destruct (IH l (S i) lf) as (l' & lf' & -> & Pm' & L' & B); try lia; auto. exists l', lf'. auto.
Qed.
Lemma qsort_ok axis mx rv : axis < Dims -> forall fuel (l : ents) start end_, dims l -> end_ <= length l -> end_ - start < fuel -> exists l', qsort C lt X fuel l start end_ axis mx rv = Ok l' /\ Permutation l' l /\ length l' = length l.
Proof.
  intros Ax. induction fuel as [|f IH]; intros l start end_ Hd He Hf; [lia|]. cbn [qsort]. destruct (Nat.ltb_spec (end_ - start) 2) as [|G]; [exists l; auto|].
  assert ((end_ - start) / 2 < end_ - start) by (apply Nat.div_lt; lia).
  destruct (swap_ok l (start + (end_ - start) / 2) (start + (end_ - start - 1)) ltac:(lia) ltac:(lia)) as (l1 & -> & P1 & L1 & _). cbn [bind].
  assert (D1 : dims l1) by (eapply dims_perm; [symmetry; eauto|auto]).
  destruct (partition_ok start (end_ - start) axis mx rv Ax (end_ - start) l1 0 0 D1 ltac:(lia) ltac:(lia) ltac:(lia) ltac:(lia) ltac:(lia)) as (l2 & lf & -> & P2 & L2 & Lf). cbn [bind].
  destruct (swap_ok l2 (start + lf) (start + (end_ - start - 1)) ltac:(lia) ltac:(lia)) as (l3 & -> & P3 & L3 & _). cbn [bind].
  assert (D3 : dims l3) by (eapply dims_perm; [symmetry; etransitivity; [exact P3|exact P2]|auto]).
  destruct (IH l3 start (start + lf) D3 ltac:(lia) ltac:(lia)) as (l4 & -> & P4 & L4). cbn [bind].
  assert (D4 : dims l4) by (eapply dims_perm; [symmetry; exact P4|auto]).
  destruct (IH l4 (start + lf + 1) end_ D4 ltac:(lia) ltac:(lia)) as (l5 & -> & P5 & L5). exists l5. split; [auto|]. split; [|lia]. rewrite P5, P4, P3, P2. auto.
Qed.
Lemma sort_ok (l : ents) axis rv mx : axis < Dims -> dims l -> exists l', sort_by_axis C lt X l axis rv mx = Ok l' /\ Permutation l' l /\ length l' = length l.
Proof. intros Ax Hd. unfold sort_by_axis. apply qsort_ok; auto; lia. Qed.
Lemma removelast_last (l : ents) z : removelast (l ++ [z]) = l.
Proof. induction l as [|x l IH]; auto. cbn [app]. rewrite <- IH at 2. destruct (l ++ [z]) eqn:E; auto. destruct l; discriminate. Qed.
Lemma remove_at_ok (l : ents) i x : nth_error l i = Some x -> exists l', remove_at C X l i = Ok l' /\ Permutation (x :: l') l /\ S (length l') = length l.
Proof.
  intros H. assert (Hi : i < length l) by (apply nth_error_Some; congruence). unfold remove_at. unfold RtModel.ent at 1. rewrite H. cbn [bind].
  destruct (ent_lt l (length l - 1) ltac:(lia)) as (z & Z & EZ). fold (ent l (length l - 1)). rewrite EZ. cbn [bind]. eexists. split; [reflexivity|].
  assert (S1 : exists m, set_ent l i z = m ++ [z]).
  { destruct (set_ent l i z) as [|y k] eqn:E using rev_ind; [exfalso; assert (length (set_ent l i z) = length l) by (apply set_ent_len; auto); rewrite E in H0; cbn in H0; lia|].
    clear IHk. exists k. f_equal. assert (N : nth_error (set_ent l i z) (length l - 1) = Some z) by (rewrite nth_set by auto; destruct (_ =? _); auto).
    assert (L : length (set_ent l i z) = length l) by (apply set_ent_len; auto). rewrite E, app_length in L. cbn in L. rewrite E in N. rewrite nth_error_app2 in N by lia. replace (length l - 1 - length k) with 0 in N by lia. cbn in N. congruence. }
  destruct S1 as (m & E). assert (L : length (set_ent l i z) = length l) by (apply set_ent_len; auto). rewrite E, app_length in L. cbn [length] in L. rewrite E, removelast_last. split; [|lia].
  assert (P : Permutation (x :: set_ent l i z) (z :: l)) by (apply set_perm; auto). rewrite E in P. apply Permutation_cons_inv with (a := z). rewrite <- P. rewrite perm_swap. apply perm_skip. rewrite Permutation_app_comm. auto.
Qed.
Notation min_items := (min_items MaxItems).
Lemma move_into_ok (l into : ents) i x : nth_error l i = Some x -> length into < MaxItems -> exists l', move_into C MaxItems X l into i = Ok (l', into ++ [x]) /\ Permutation (x :: l') l /\ S (length l') = length l.
Proof.
  intros H Hl. unfold move_into. unfold RtModel.ent at 1. rewrite H. cbn [bind]. destruct (remove_at_ok l i x H) as (l' & -> & P & L). cbn [bind]. apply Nat.ltb_lt in Hl. rewrite Hl. eauto.
Qed.
Lemma split_loop_ok nr axis : dim nr -> axis < Dims -> forall fuel (l rgt : ents) i, dims l -> length l - i < fuel -> length l + length rgt <= MaxItems ->
  exists a b, split_loop C D diff ltD MaxItems X fuel nr axis l rgt i = Ok (a, b) /\ Permutation (a ++ b) (l ++ rgt).
Proof.
  intros Dn Ax. induction fuel as [|f IH]; intros l rgt i Hd Hf Hm; [lia|]. cbn [split_loop]. destruct (Nat.ltb_spec i (length l)) as [Hi|]; [|eauto].
  destruct (ent_lt l i Hi) as (e & E & EE). fold (ent l i). rewrite EE. cbn [bind]. assert (L : length (fst e) = Dims) by (unfold dims in Hd; rewrite Forall_forall in Hd; apply Hd; eapply nth_error_In; eauto).
  destruct (nth_error (fst e) axis) as [p|] eqn:P; [|apply nth_error_None in P; unfold RtModel.rect in *; lia]. destruct (nth_error nr axis) as [q|] eqn:Q; [|apply nth_error_None in Q; unfold RtModel.rect in *; lia].
  destruct (ltD _ _).
  - destruct (move_into_ok l rgt i e E ltac:(lia)) as (l' & -> & P' & L'). cbn [bind]. destruct (IH l' (rgt ++ [e]) i) as (a & b & -> & Pab).
    { eapply dims_perm with (l := l) in Hd; [|symmetry; exact P']. inversion Hd; auto. } { lia. } { rewrite app_length. cbn. lia. }
    exists a, b. split; [auto|]. rewrite Pab, <- P'. rewrite app_assoc. rewrite Permutation_app_comm. auto.
  - apply IH; auto. lia.
Qed.
Lemma refill_ok : forall fuel (l to : ents), min_items - length to < fuel -> length to < min_items -> min_items <= length l + length to -> length l + length to <= MaxItems -> min_items <= MaxItems ->
  exists l' to', refill C MaxItems X fuel l to = Ok (l', to') /\ Permutation (l' ++ to') (l ++ to) /\ length to' = min_items.
Proof.
  induction fuel as [|f IH]; intros l to Hf Hlt Hen Hm Hmm; [lia|]. cbn [refill]. destruct (ent_lt l (length l - 1) ltac:(lia)) as (x & E & _).
  destruct (move_into_ok l to _ x E ltac:(lia)) as (l' & -> & P & L). cbn [bind]. rewrite app_length. cbn [length]. destruct (Nat.ltb_spec (length to + 1) min_items) as [G|G].
  - destruct (IH l' (to ++ [x])) as (a & b & -> & Pab & Lb); try (rewrite app_length; cbn [length]); try lia. exists a, b. split; [auto|]. split; [|auto]. rewrite Pab, <- P. rewrite app_assoc, Permutation_app_comm. auto.
  - exists l', (to ++ [x]). split; [auto|]. split; [|rewrite app_length; cbn [length]; lia]. rewrite <- P. rewrite app_assoc, Permutation_app_comm. auto.
Qed.
Lemma largest_axis_lt (r : rect) : dim r -> 0 < Dims -> largest_axis C D diff ltD r < Dims.
Proof.
  intros <- H. destruct r as [|p r]; [exfalso; cbn in H; lia|]. clear H. cbn [largest_axis length].
  assert (G : forall (r : rect) nl axis i, axis < i -> snd (fst (fold_left (fun a p => let '(nl, axis, i) := a in let l := diff (snd p) (fst p) in if ltD nl l then (l, i, S i) else (nl, axis, S i)) r (nl, axis, i))) < i + length r).
  { clear. induction r as [|p r IH]; intros nl axis i H; cbn [fold_left fst snd length]; [lia|]. destruct (ltD _ _); [specialize (IH (diff (snd p) (fst p)) i (S i) ltac:(lia))|specialize (IH nl axis (S i) ltac:(lia))]; unfold RtModel.rect in *; lia. }
  specialize (G r (diff (snd p) (fst p)) 0 1 ltac:(lia)). exact G.
Qed.
Lemma split_ents_ok br nr (l : ents) : 0 < Dims -> dim nr -> dims l -> length l = MaxItems -> 2 <= MaxItems ->
  exists a b, split_ents C lt D diff ltD MaxItems X br nr l = Ok (a, b) /\ Permutation (a ++ b) l /\ min_items <= length a /\ min_items <= length b.
Proof.
  intros HD Dn Hd Hl H2. assert (Hmin : 2 * min_items <= MaxItems) by (apply min_items_half; auto). unfold split_ents.
  assert (Ax := largest_axis_lt nr Dn HD). set (axis := largest_axis C D diff ltD nr) in *.
  destruct (split_loop_ok nr axis Dn Ax (S (length l)) l [] 0 Hd ltac:(lia) ltac:(cbn [length]; lia)) as (a & b & -> & P). cbn [bind]. rewrite app_nil_r in P.
  assert (L := Permutation_length P). rewrite app_length in L.
  assert (Dab : dims (a ++ b)) by (eapply dims_perm; [symmetry; exact P|auto]). assert (Da : dims a) by (unfold dims in *; apply Forall_app in Dab; tauto). assert (Db : dims b) by (unfold dims in *; apply Forall_app in Dab; tauto).
  assert (M : exists a' b', (if length a <? min_items then let* rgt := sort_by_axis C lt X b axis true false in let* '(rgt, old) := refill C MaxItems X (S min_items) rgt a in Ok (old, rgt)
      else if length b <? min_items then let* old := sort_by_axis C lt X a axis true true in refill C MaxItems X (S min_items) old b else Ok (a, b)) = Ok (a', b') /\ Permutation (a' ++ b') (a ++ b) /\ min_items <= length a' /\ min_items <= length b').
  { destruct (Nat.ltb_spec (length a) min_items) as [G|G].
    - destruct (sort_ok b axis true false Ax Db) as (b1 & -> & P1 & L1). cbn [bind]. destruct (refill_ok (S min_items) b1 a ltac:(lia) G ltac:(lia) ltac:(lia) ltac:(lia)) as (b2 & a2 & -> & P2 & L2). cbn [bind].
      exists a2, b2. split; [auto|]. assert (LL := Permutation_length P2). rewrite !app_length in LL. split; [|lia]. rewrite Permutation_app_comm, P2, P1. apply Permutation_app_comm.
    - destruct (Nat.ltb_spec (length b) min_items) as [G'|G'].
      + destruct (sort_ok a axis true true Ax Da) as (a1 & -> & P1 & L1). cbn [bind]. destruct (refill_ok (S min_items) a1 b ltac:(lia) G' ltac:(lia) ltac:(lia) ltac:(lia)) as (a2 & b2 & -> & P2 & L2).
        exists a2, b2. split; [auto|]. assert (LL := Permutation_length P2). rewrite !app_length in LL. split; [|lia]. rewrite P2, P1. auto.
      + exists a, b. auto. }
  destruct M as (a' & b' & -> & P' & La & Lb). cbn [bind].
  assert (Dab' : dims (a' ++ b')) by (eapply dims_perm; [symmetry; exact P'|auto]). assert (Da' : dims a') by (unfold dims in *; apply Forall_app in Dab'; tauto). assert (Db' : dims b') by (unfold dims in *; apply Forall_app in Dab'; tauto).
  destruct br.
  - destruct (sort_ok a' 0 true false HD Da') as (a2 & -> & P2 & L2). cbn [bind]. destruct (sort_ok b' 0 true false HD Db') as (b2 & -> & P3 & L3). cbn [bind]. exists a2, b2. split; [auto|]. split; [rewrite P2, P3, P'; auto|lia].
  - exists a', b'. split; [auto|]. split; [rewrite P'; auto|lia].
Qed.
Lemma choose_least_lt (l : ents) r : 0 < length l -> choose_least C lt D diff mulD subD oneD infD ltD X l r < length l.
Proof.
  intros H. unfold choose_least.
  assert (G : forall (l : ents) je j i n, j < n -> i + length l <= n -> snd (fst (fold_left (fun a e => let '(je, j, i) := a in let enl := subD (united_area C lt D diff mulD oneD (fst e) r) (area C D diff mulD oneD (fst e)) in if ltD enl je then (enl, i, S i) else (je, j, S i)) l (je, j, i))) < n).
  { clear. induction l as [|e l IH]; intros je j i n Hj Hn; cbn [fold_left fst snd length] in *; [lia|]. cbn zeta. destruct (ltD _ _); apply IH; lia. }
  apply G; auto.
Qed.
Lemma bbox_ok (l : ents) : dims l -> 0 < length l -> dim (bounding_box C lt c0 Dims X l) /\ forall e, In e l -> contains (bounding_box C lt c0 Dims X l) (fst e) = true.
Proof.
  intros Hd Hl. destruct l as [|e l]; [cbn in Hl; lia|]. cbn [bounding_box]. apply Forall_cons_iff in Hd. destruct Hd as (De & Hd). clear Hl.
  assert (G : forall (l : ents) b, dims l -> dim b -> let B := fold_left (fun b e => expand b (fst e)) l b in dim B /\ contains B b = true /\ forall e, In e l -> contains B (fst e) = true).
  { clear l e De Hd. induction l as [|e l IH]; intros b Hd Hb; cbn [fold_left]; [split; [auto|]; split; [apply contains_refl; auto|intros ? []]|].
    apply Forall_cons_iff in Hd. destruct Hd as (De & Hd). destruct (IH (expand b (fst e)) Hd (expand_dim _ _ Hb De)) as (A & B & E). split; [auto|]. split.
    - eapply contains_trans; [exact A|apply (expand_dim _ _ Hb De)|auto|exact B|apply expand_l; auto].
    - intros x [<-|I]; [|apply E; auto]. eapply contains_trans; [exact A|apply (expand_dim _ _ Hb De)|auto|exact B|apply expand_r; auto]. }
  destruct (G l (fst e) Hd De) as (A & B & E). split; [auto|]. intros x [<-|I]; auto.
Qed.
End X.
End Ents.
