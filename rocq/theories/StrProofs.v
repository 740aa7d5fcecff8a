From Verif Require Import Base FlatModel FlatSpec FlatProofs MmModel MmProofs PagedProofs StrModel StrSpec.

(* ---------------- sequences ---------------- *)
Lemma memcmp_same a : forall b, length a = length b -> memcmp_eq a b = same a b.
Proof. induction a as [|x a IH]; intros [|y b] H; cbn in *; try discriminate; auto. rewrite IH by lia. auto. Qed.
Lemma same_len a : forall b, same a b = true -> length a = length b.
Proof. induction a as [|x a IH]; intros [|y b] H; cbn in *; try discriminate; auto. apply andb_prop in H as (_ & H). rewrite (IH b H). auto. Qed.
Lemma view_eq_same a b : view_eq a b = same a b.
Proof.
  unfold view_eq. destruct (Nat.eqb_spec (length a) (length b)) as [E|E]; [apply memcmp_same; auto|].
  destruct (same a b) eqn:S; auto. apply same_len in S. congruence.
Qed.
Lemma view_lt_lex a : forall b, view_lt a b = lex_lt a b.
Proof.
  unfold view_lt. induction a as [|x a IH]; intros [|y b]; cbn [memcmp_lt memcmp_eq lex_lt length]; auto.
  - rewrite <- IH. destruct (N.eqb_spec x y) as [->|Hn]; cbn [andb orb].
    + rewrite N.ltb_irrefl. cbn [orb]. f_equal.
    + rewrite !Bool.orb_false_r. auto.
Qed.
Lemma same_eq a : forall b, same a b = true <-> a = b.
Proof.
  induction a as [|x a IH]; intros [|y b]; cbn; split; intros H; try discriminate; auto.
  - apply andb_prop in H as (H1 & H2). apply N.eqb_eq in H1. apply IH in H2. congruence.
  - injection H as -> ->. rewrite N.eqb_refl. apply IH. auto.
Qed.
Lemma prefix_cmp a : forall b, length a <= length b -> memcmp_eq a (firstn (length a) b) = prefix a b.
Proof. induction a as [|x a IH]; intros [|y b] H; cbn in *; auto; try lia. rewrite IH by lia. auto. Qed.
Lemma prefix_len a : forall b, prefix a b = true -> length a <= length b.
Proof. induction a as [|x a IH]; intros [|y b] H; cbn in *; try discriminate; try lia. apply andb_prop in H as (_ & H). specialize (IH b H). lia. Qed.
Lemma prefix_spec a b : prefix a b = true <-> exists c, b = a ++ c.
Proof.
  revert b; induction a as [|x a IH]; intros b; cbn; split; intros H; auto; try (exists b; auto; fail).
  - destruct b as [|y b]; [discriminate|]. apply andb_prop in H as (H1 & H2). apply N.eqb_eq in H1. apply IH in H2 as (c & ->). exists c. congruence.
  - destruct H as (c & ->). cbn. rewrite N.eqb_refl. apply IH. eauto.
Qed.
Lemma suffix_spec a b : suffix a b = true <-> exists c, b = c ++ a.
Proof.
  unfold suffix. rewrite prefix_spec. split; intros (c & H).
  - apply (f_equal (@rev N)) in H. rewrite rev_app_distr, !rev_involutive in H. eauto.
  - exists (rev c). rewrite H, rev_app_distr. auto.
Qed.
Lemma suffix_cmp a b : length a <= length b -> memcmp_eq a (skipn (length b - length a) b) = suffix a b.
Proof.
  intros H. assert (L : length (skipn (length b - length a) b) = length a) by (rewrite skipn_length; lia).
  rewrite memcmp_same by auto. destruct (same a _) eqn:S; symmetry.
  - apply same_eq in S. apply suffix_spec. exists (firstn (length b - length a) b). rewrite S at 2. symmetry. apply firstn_skipn.
  - destruct (suffix a b) eqn:F; auto. apply suffix_spec in F as (c & ->). rewrite app_length in S.
    replace (length c + length a - length a) with (length c) in S by lia. rewrite skipn_app, skipn_all, Nat.sub_diag in S. cbn in S.
    assert (same a a = true) by (apply same_eq; auto). congruence.
Qed.
Lemma cut32_small n : (N.of_nat n < W32)%N -> cut32 n = n.
Proof. intros H. unfold cut32. rewrite N.mod_small by auto. lia. Qed.

(* ---------------- objects and blocks ---------------- *)
Definition live (own : list block) (b : nat) : nat := match nth_error own b with Some (Live _) => 1 | _ => 0 end.
Section Frame.
Variable O : Type.
Variable rep : list str -> list block -> O -> str -> bool -> Prop.
Variable own1 : nat -> O -> nat.
Hypothesis own1_le : forall b x, own1 b x <= 1.
Hypothesis rep_frame : forall ext own own' x s v, rep ext own x s v ->
  (forall b, own1 b x = 1 -> nth_error own' b = nth_error own b) -> rep ext own' x s v.

Fixpoint owners (b : nat) (l : list O) : nat := match l with [] => 0 | x :: l => own1 b x + owners b l end.
Definition omatch (ext : list str) (own : list block) (x : O) (o : obj) : Prop :=
  match o with Some (s, v) => rep ext own x s v | None => exists s v, rep ext own x s v /\ forall b, own1 b x = 0 end.
Record Rel (w : world O) (t : sstate) : Prop := {
  rel_ext : w_ext w = fst t;
  rel_len : length (w_obj w) = length (snd t);
  rel_obj : forall i x o, nth_error (w_obj w) i = Some x -> nth_error (snd t) i = Some o -> omatch (w_ext w) (w_own w) x o;
  rel_cnt : forall b, owners b (w_obj w) = live (w_own w) b
}.
Lemma omatch_frame ext own own' x o : omatch ext own x o ->
  (forall b, own1 b x = 1 -> nth_error own' b = nth_error own b) -> omatch ext own' x o.
Proof. destruct o as [(s, v)|]; cbn; [intros; eapply rep_frame; eauto|]. intros (s & v & H & Z) F. exists s, v. split; [eapply rep_frame; eauto|auto]. Qed.
Lemma owners_upd b l : forall i x y, nth_error l i = Some x -> owners b (upd i y l) + own1 b x = owners b l + own1 b y.
Proof. induction l as [|z l IH]; intros [|i] x y H; cbn in *; try discriminate. { injection H as ->. lia. } specialize (IH i x y H). lia. Qed.
Lemma owners_in b l : forall i x, nth_error l i = Some x -> own1 b x <= owners b l.
Proof. induction l as [|z l IH]; intros [|i] x H; cbn in *; try discriminate. { injection H as ->. lia. } specialize (IH i x H). lia. Qed.
Lemma owners_two b l : forall i j x y, nth_error l i = Some x -> nth_error l j = Some y -> i <> j -> own1 b x + own1 b y <= owners b l.
Proof.
  induction l as [|z l IH]; intros [|i] [|j] x y Hi Hj Hn; cbn in *; try discriminate; try lia.
  - injection Hi as ->. pose proof (owners_in b l j y Hj). lia.
  - injection Hj as ->. pose proof (owners_in b l i x Hi). lia.
  - specialize (IH i j x y Hi Hj ltac:(lia)). lia.
Qed.
Lemma live_le own b : live own b <= 1.
Proof. unfold live. destruct (nth_error own b) as [[]|]; lia. Qed.
Lemma owned_live w t i x b : Rel w t -> nth_error (w_obj w) i = Some x -> own1 b x = 1 -> live (w_own w) b = 1.
Proof. intros R H E. pose proof (owners_in b _ _ _ H). rewrite (rel_cnt _ _ R) in H0. pose proof (live_le (w_own w) b). lia. Qed.
Lemma rel_get w t i o : Rel w t -> nth_error (snd t) i = Some o -> exists x, nth_error (w_obj w) i = Some x /\ omatch (w_ext w) (w_own w) x o.
Proof.
  intros R H. destruct (nth_error (w_obj w) i) as [x|] eqn:E.
  - exists x. split; auto. eapply rel_obj; eauto.
  - apply nth_error_None in E. rewrite (rel_len _ _ R) in E. apply nth_error_None in E. congruence.
Qed.
Lemma rel_any w t i : Rel w t -> i < length (snd t) -> exists x s v, nth_error (w_obj w) i = Some x /\ rep (w_ext w) (w_own w) x s v.
Proof.
  clear own1_le rep_frame. intros R H. destruct (nth_error (snd t) i) as [o|] eqn:E; [|apply nth_error_None in E; lia].
  destruct (rel_get w t i o R E) as (x & Ex & M). exists x. destruct o as [(s, v)|]; cbn in M; [exists s, v; auto|].
  destruct M as (s & v & M & _). exists s, v. auto.
Qed.

(* one object and possibly the block it owns change *)
Lemma rel_change w t i x own' x' s v : Rel w t -> nth_error (w_obj w) i = Some x ->
  (forall b, own1 b x = 0 -> live (w_own w) b = 1 -> nth_error own' b = nth_error (w_own w) b) ->
  (forall b, live own' b + own1 b x = live (w_own w) b + own1 b x') ->
  rep (w_ext w) own' x' s v -> Rel (World (w_ext w) own' (upd i x' (w_obj w))) (become_obj t i (Some (s, v))).
Proof.
  intros R Hx F C Hr. assert (Li : i < length (w_obj w)) by (apply nth_error_Some; congruence).
  split; cbn [w_ext w_own w_obj become_obj fst snd].
  - apply (rel_ext _ _ R).
  - rewrite !upd_length. apply (rel_len _ _ R).
  - intros j y o Hy Ho. rewrite nth_error_upd' in Hy by auto. rewrite nth_error_upd' in Ho by (rewrite <- (rel_len _ _ R); auto).
    destruct (Nat.eqb_spec i j) as [<-|Hn].
    + injection Hy as <-. injection Ho as <-. exact Hr.
    + apply (omatch_frame _ (w_own w)); [eapply rel_obj; eauto|]. intros b Hb.
      pose proof (owners_two b _ i j x y Hx Hy Hn) as T. rewrite (rel_cnt _ _ R b) in T. pose proof (live_le (w_own w) b). apply F; lia.
  - intros b. pose proof (owners_upd b _ i x x' Hx) as U. rewrite (rel_cnt _ _ R) in U. specialize (C b). lia.
Qed.
Lemma rel_same w t i x x' s v : Rel w t -> nth_error (w_obj w) i = Some x -> (forall b, own1 b x' = own1 b x) ->
  rep (w_ext w) (w_own w) x' s v -> Rel (put_obj w i x') (become_obj t i (Some (s, v))).
Proof. intros R Hx E Hr. unfold put_obj. apply (rel_change w t i x); auto. Qed.
Lemma rel_move w t i j x y oy y' s' v' : Rel w t -> i <> j -> nth_error (w_obj w) i = Some x -> nth_error (w_obj w) j = Some y ->
  nth_error (snd t) j = Some oy -> (forall b, own1 b x = 0) -> (forall b, own1 b y' = 0) -> rep (w_ext w) (w_own w) y' s' v' ->
  Rel (put_obj (put_obj w i y) j y') (become_obj (become_obj t i oy) j None).
Proof.
  intros R Hij Hx Hy Ho Zx Zy Hr. assert (Li : i < length (w_obj w)) by (apply nth_error_Some; congruence).
  assert (Lj : j < length (w_obj w)) by (apply nth_error_Some; congruence).
  split; cbn [put_obj w_ext w_own w_obj become_obj fst snd].
  - apply (rel_ext _ _ R).
  - rewrite !upd_length. apply (rel_len _ _ R).
  - intros k z o Hz Hk. rewrite !nth_error_upd' in Hz by (rewrite ?upd_length; auto).
    rewrite !nth_error_upd' in Hk by (rewrite ?upd_length, <- (rel_len _ _ R); auto).
    destruct (Nat.eqb_spec j k) as [<-|Hn]. { injection Hz as <-. injection Hk as <-. cbn. eauto. }
    destruct (Nat.eqb_spec i k) as [<-|Hm]; [|eapply rel_obj; eauto].
    injection Hz as <-. injection Hk as <-. eapply rel_obj; eauto.
  - intros b. assert (Hj' : nth_error (upd i y (w_obj w)) j = Some y).
    { rewrite nth_error_upd' by auto. destruct (Nat.eqb_spec i j); [congruence|auto]. }
    pose proof (owners_upd b _ j y y' Hj') as U2. pose proof (owners_upd b _ i x y Hx) as U1.
    rewrite (rel_cnt _ _ R) in U1. specialize (Zx b). specialize (Zy b). lia.
Qed.
Lemma held_some t i s v : held t i = Some (s, v) -> nth_error (snd t) i = Some (Some (s, v)).
Proof. unfold held. destruct (nth_error (snd t) i) as [[x|]|]; intros H; inversion H; auto. Qed.
End Frame.
Lemma live_upd own b s c k : nth_error own b = Some (Live s) -> live (upd b c own) k = if b =? k then match c with Live _ => 1 | Freed => 0 end else live own k.
Proof.
  intros H. unfold live. rewrite nth_error_upd' by (apply nth_error_Some; congruence). destruct (Nat.eqb_spec b k); auto.
Qed.
Lemma live_alloc own s k : live (own ++ [Live s]) k = live own k + (if k =? length own then 1 else 0).
Proof.
  unfold live. destruct (lt_dec k (length own)) as [L|L].
  - rewrite nth_error_app1 by auto. destruct (Nat.eqb_spec k (length own)); [lia|]. lia.
  - rewrite nth_error_app2 by lia. rewrite (proj2 (nth_error_None own k)) by lia. destruct (Nat.eqb_spec k (length own)) as [->|Hn].
    + rewrite Nat.sub_diag. auto.
    + destruct (k - length own) as [|[|q]] eqn:Q; auto. lia.
Qed.
Lemma slice_all s : slice s 0 (length s) = Ok s.
Proof. unfold slice. cbn [plus]. destruct (Nat.leb_spec (length s) (length s)); [|lia]. cbn [skipn]. rewrite firstn_all. auto. Qed.
Lemma slice_app s t off len : off + len <= length s -> slice (s ++ t) off len = Ok (firstn len (skipn off s)).
Proof.
  intros H. unfold slice. rewrite app_length. destruct (Nat.leb_spec (off + len) (length s + length t)); [|lia]. f_equal.
  rewrite skipn_app, firstn_app, skipn_length. replace (len - (length s - off)) with 0 by lia. cbn [firstn]. rewrite app_nil_r. auto.
Qed.
Lemma slice_sub (s u : str) o n off len : o + n <= length u -> s = firstn n (skipn o u) -> off + len <= n ->
  slice u (o + off) len = Ok (firstn len (skipn off s)).
Proof.
  intros H -> Hl. unfold slice. destruct (Nat.leb_spec (o + off + len) (length u)); [|lia]. f_equal.
  apply nth_ext with (d := 0%N) (d' := 0%N).
  { rewrite !firstn_length, !skipn_length, firstn_length, skipn_length. lia. }
  intros k Hk. rewrite firstn_length, skipn_length in Hk.
  assert (G : forall (l : str) a i d, nth i (skipn a l) d = nth (a + i) l d).
  { induction l as [|z l IH]; intros [|a] i d; cbn; auto; destruct i; auto. }
  assert (G2 : forall (l : str) a i d, i < a -> nth i (firstn a l) d = nth i l d).
  { induction l as [|z l IH]; intros [|a] [|i] d Hi; cbn; auto; try lia. apply IH. lia. }
  rewrite !G2 by lia. rewrite !G, G2 by lia. rewrite G. f_equal. lia.
Qed.

(* ---------------- string ---------------- *)
Section Str.
Variable lim : nat.
Variable raw : bool.
Variable nullchar : N.

Definition srep (ext : list str) (own : list block) (x : gs) (s : str) (v : bool) : Prop :=
  u32 s = true /\
  match x with
  | Short buf => v = false /\ length s <= lim /\ ~ In 0%N s /\ buf = s ++ repeat 0%N (lim - length s)
  | Heap None n _ => n = 0 /\ s = [] /\ v = false
  | Heap (Some (AOwn b)) n self => self = true /\ v = false /\ n = length s /\ exists r, nth_error own b = Some (Live (s ++ r))
  | Heap (Some (AExt e off)) n self => self = false /\ v = true /\ n = length s /\ lim < n /\
      exists u, nth_error ext e = Some u /\ off + n <= length u /\ s = firstn n (skipn off u)
  end.
Definition sown (b : nat) (x : gs) : nat := match x with Heap (Some (AOwn c)) _ true => if b =? c then 1 else 0 | _ => 0 end.
Lemma sown_le b x : sown b x <= 1.
Proof. unfold sown. destruct x as [|[[|c]|] n []]; auto. destruct (b =? c); auto. Qed.
Lemma srep_frame ext own own' x s v : srep ext own x s v -> (forall b, sown b x = 1 -> nth_error own' b = nth_error own b) -> srep ext own' x s v.
Proof.
  intros (U & H) F. split; auto. destruct x as [buf|[[e off|b]|] n self]; auto.
  destruct H as (-> & -> & H2 & r & H3). split; auto. split; auto. split; auto. exists r. rewrite <- H3. apply F. unfold sown. rewrite Nat.eqb_refl. auto.
Qed.
Notation SR := (Rel gs srep sown).
Notation Change := (rel_change gs srep sown sown_le srep_frame).
Notation Same := (rel_same gs srep sown sown_le srep_frame).

Lemma u32_nil : u32 [] = true. Proof. reflexivity. Qed.
Lemma find0_rep s k : ~ In 0%N s -> find0 (s ++ repeat 0%N k) = length s.
Proof.
  induction s as [|c s IH]; intros H; cbn.
  - destruct k; auto.
  - destruct (N.eqb_spec c 0) as [E|E]; [destruct H; left; auto|]. rewrite IH; auto. intros Q. apply H. right; auto.
Qed.
Lemma size_rep ext own x s v : srep ext own x s v -> gsize x = length s.
Proof.
  intros (U & H). destruct x as [buf|[[e off|b]|] n self]; cbn [gsize].
  - destruct H as (_ & _ & H & ->). apply find0_rep; auto.
  - apply H.
  - apply H.
  - destruct H as (-> & -> & _). auto.
Qed.
Lemma load_rep w j x s v off len : nth_error (w_obj w) j = Some x -> srep (w_ext w) (w_own w) x s v -> off + len <= length s ->
  load lim nullchar w (shift (gdata x j) off) len = Ok (firstn len (skipn off s)).
Proof.
  intros Hx (U & H) Hl. destruct x as [buf|[[e o|b]|] n self]; cbn [gdata shift load load_addr].
  - rewrite (idx_some _ _ _ Hx). cbn [bind inline plus]. destruct H as (_ & _ & _ & ->). apply slice_app. auto.
  - destruct H as (-> & -> & -> & _ & u & Hu & H1 & H2). rewrite (idx_some _ _ _ Hu). cbn [bind]. cbn [plus].
    apply (slice_sub s u o (length s)); auto.
  - destruct H as (-> & -> & -> & r & Hr). rewrite (idx_some _ _ _ Hr). cbn [bind plus]. apply slice_app. auto.
  - destruct H as (_ & -> & _). cbn in Hl. assert (off = 0) as -> by lia. assert (len = 0) as -> by lia. auto.
Qed.
Lemma load_all w j x s v : nth_error (w_obj w) j = Some x -> srep (w_ext w) (w_own w) x s v -> load lim nullchar w (gdata x j) (length s) = Ok s.
Proof.
  intros Hx Hr. assert (E : gdata x j = shift (gdata x j) 0). { destruct x as [|[[|]|] ? ?]; auto. }
  rewrite E, (load_rep w j x s v 0 (length s)); auto. cbn [skipn]. rewrite firstn_all. auto.
Qed.

Lemma reset_ok w t i : SR w t -> i < length (snd t) -> exists w', reset w i = Ok w' /\ SR w' (become_obj t i (Some ([], false))) /\
  nth_error (w_obj w') i = Some gs0 /\ w_ext w' = w_ext w /\ forall j, j <> i -> nth_error (w_obj w') j = nth_error (w_obj w) j.
Proof.
  intros R Hi. destruct (rel_any _ _ _ w t i R Hi) as (x & s & v & Hx & Hr). unfold reset. rewrite (idx_some _ _ _ Hx). cbn [bind].
  assert (Li : i < length (w_obj w)) by (apply nth_error_Some; congruence).
  assert (Z : forall ext own, srep ext own gs0 [] false) by (intros; split; [reflexivity|cbn; auto]).
  assert (T : forall own', exists w', Ok (put_obj (World (w_ext w) own' (w_obj w)) i gs0) = Ok w' /\ w' = World (w_ext w) own' (upd i gs0 (w_obj w)) /\
     nth_error (w_obj w') i = Some gs0 /\ w_ext w' = w_ext w /\ forall j, j <> i -> nth_error (w_obj w') j = nth_error (w_obj w) j).
  { intros own'. eexists. split; [reflexivity|]. split; [reflexivity|]. cbn [put_obj w_obj w_ext]. split; [|split; auto].
    - rewrite nth_error_upd' by auto. rewrite Nat.eqb_refl. auto.
    - intros j Hj. rewrite nth_error_upd' by auto. destruct (Nat.eqb_spec i j); [congruence|auto]. }
  assert (D : (exists b m, x = Heap (Some (AOwn b)) m true) \/ (forall b, sown b x = 0) /\
     match x with Heap (Some a) _ true => release w a | _ => Ok w end = Ok w).
  { destruct x as [buf|[[e o|b]|] n []]; try (right; split; [intros; reflexivity|reflexivity]).
    - destruct Hr as (_ & Hr). destruct Hr as (Hr & _). discriminate.
    - left. eauto. }
  destruct D as [(b & m & ->)|(Zx & ->)].
  - destruct Hr as (_ & _ & _ & _ & r & Hb). cbn [release]. rewrite (idx_some _ _ _ Hb). cbn [bind].
    destruct (T (upd b Freed (w_own w))) as (w' & E & -> & T3). exists (World (w_ext w) (upd b Freed (w_own w)) (upd i gs0 (w_obj w))).
    split; [exact E|]. split; [|exact T3]. apply (Change w t i (Heap (Some (AOwn b)) m true)); auto.
    + intros k Hk _. cbn in Hk. rewrite nth_error_upd' by (apply nth_error_Some; congruence). destruct (Nat.eqb_spec b k) as [->|]; auto.
      rewrite Nat.eqb_refl in Hk. discriminate.
    + intros k. rewrite (live_upd _ _ _ _ _ Hb). cbn [sown gs0]. rewrite (Nat.eqb_sym k b). destruct (Nat.eqb_spec b k) as [->|]; [|lia].
      unfold live. rewrite Hb. auto.
  - cbn [bind]. destruct (T (w_own w)) as (w' & E & -> & T3). exists (World (w_ext w) (w_own w) (upd i gs0 (w_obj w))).
    destruct w. split; [exact E|]. split; [|exact T3]. apply (Same _ t i x); auto.
Qed.
Lemma become_twice t i x y : become_obj (become_obj t i x) i y = become_obj t i y.
Proof. unfold become_obj. cbn. rewrite upd_upd. auto. Qed.
Lemma storable_short s : storable lim s = true -> length s <= lim -> ~ In 0%N s.
Proof.
  unfold storable. intros H L Q. destruct (Nat.ltb_spec lim (length s)); [lia|]. cbn [orb] in H. apply Bool.negb_true_iff in H.
  assert (E : existsb (N.eqb 0) s = true) by (apply existsb_exists; exists 0%N; auto). congruence.
Qed.
Lemma reset_again w i : nth_error (w_obj w) i = Some gs0 -> reset w i = Ok w.
Proof. intros H. unfold reset. rewrite (idx_some _ _ _ H). cbn [bind gs0]. unfold put_obj. rewrite upd_same by auto. destruct w; auto. Qed.

(* assignment: the source still reads s after the reset *)
Lemma set_owning_ok w t i p s : SR w t -> i < length (snd t) -> u32 s = true -> storable lim s = true ->
  (forall w', reset w i = Ok w' -> s <> [] -> load lim nullchar w' p (length s) = Ok s) ->
  exists w', set_owning lim nullchar w i p (length s) = Ok w' /\ SR w' (become_obj t i (Some (s, false))).
Proof.
  intros R Hi U S L. unfold set_owning. destruct (reset_ok w t i R Hi) as (w1 & E1 & R1 & O1 & X1 & _). rewrite E1. cbn [bind].
  destruct (Nat.eqb_spec (length s) 0) as [E|E]. { exists w1. split; auto. destruct s; [auto|discriminate]. }
  rewrite (L w1 E1) by (intros ->; apply E; auto). cbn [bind]. rewrite <- (become_twice t i (Some ([], false))).
  destruct (Nat.leb_spec (length s) lim) as [G|G].
  - eexists. split; [reflexivity|]. apply (Same w1 _ i gs0); auto. split; auto. split; auto. split; auto. split; auto. apply storable_short; auto.
  - cbn [alloc]. eexists. split; [reflexivity|]. unfold put_obj. cbn [w_ext w_own w_obj]. apply (Change w1 _ i gs0); auto.
    + intros k _ Hl. apply nth_error_app1. apply nth_error_Some. unfold live in Hl. destruct (nth_error (w_own w1) k); congruence.
    + intros k. rewrite live_alloc. cbn [sown gs0]. lia.
    + split; auto. split; auto. split; auto. split; auto. exists []. rewrite app_nil_r, nth_error_app2, Nat.sub_diag by auto. auto.
Qed.
Lemma set_non_owning_ok w t i p s : SR w t -> i < length (snd t) -> u32 s = true -> storable lim s = true ->
  (forall w', reset w i = Ok w' -> s <> [] -> length s <= lim -> load lim nullchar w' p (length s) = Ok s) ->
  (lim < length s -> exists e o off u, p = PAddr (AExt e o) off /\ nth_error (w_ext w) e = Some u /\ o + off + length s <= length u /\
     s = firstn (length s) (skipn (o + off) u)) ->
  exists w', set_non_owning lim nullchar w i p (length s) = Ok w' /\ SR w' (become_obj t i (Some (s, lim <? length s))).
Proof.
  intros R Hi U S L1 L2. unfold set_non_owning. destruct (reset_ok w t i R Hi) as (w1 & E1 & R1 & O1 & X1 & _). rewrite E1. cbn [bind].
  destruct (Nat.eqb_spec (length s) 0) as [E|E].
  { exists w1. split; auto. destruct s; [|discriminate]. cbn [length]. destruct (Nat.ltb_spec lim 0); [lia|auto]. }
  rewrite <- (become_twice t i (Some ([], false))). destruct (Nat.leb_spec (length s) lim) as [G|G].
  - destruct (Nat.ltb_spec lim (length s)); [lia|]. apply set_owning_ok; auto.
    + cbn [become_obj snd]. rewrite upd_length. auto.
    + intros w' E' Hs. rewrite (reset_again w1 i O1) in E'. injection E' as <-. auto.
  - destruct (L2 G) as (e & o & off & u & -> & Hu & H1 & H2). destruct (Nat.ltb_spec lim (length s)); [|lia].
    eexists. split; [reflexivity|]. apply (Same w1 _ i gs0); auto. split; auto. split; auto. split; auto. split; auto. split; auto.
    exists u. rewrite X1. auto.
Qed.

(* arguments *)
Lemma arg_ok w t a s : SR w t -> arg_of t a = Some s -> u32 s = true ->
  exists p, argument w a = Ok (p, length s) /\ load lim nullchar w p (length s) = Ok s.
Proof.
  intros R H U. unfold u32 in U. apply N.ltb_lt in U. destruct a as [s0|e off len|j off len]; cbn [arg_of argument] in *.
  - injection H as ->. rewrite cut32_small by auto. exists (PLit s). split; auto. cbn [load]. apply slice_all.
  - destruct (nth_error (fst t) e) as [u|] eqn:Eu; [|discriminate]. unfold piece in H.
    destruct (Nat.leb_spec (off + len) (length u)); [|discriminate]. injection H as <-.
    rewrite firstn_length, skipn_length in *. rewrite Nat.min_l in * by lia. rewrite cut32_small by auto.
    eexists. split; [reflexivity|]. cbn [load load_addr]. rewrite <- (rel_ext _ _ _ _ _ R) in Eu. rewrite (idx_some _ _ _ Eu). cbn [bind plus].
    unfold slice. destruct (Nat.leb_spec (off + len) (length u)); [auto|lia].
  - destruct (held t j) as [(u, v)|] eqn:Eh; [|discriminate]. apply held_some in Eh. unfold piece in H.
    destruct (Nat.leb_spec (off + len) (length u)) as [L|L]; [|discriminate]. injection H as <-.
    destruct (rel_get _ _ _ w t j _ R Eh) as (x & Hx & Hr). cbn [omatch] in Hr. rewrite (idx_some _ _ _ Hx). cbn [bind].
    rewrite (size_rep _ _ _ _ _ Hr). rewrite firstn_length, skipn_length in *. rewrite Nat.min_l in * by lia.
    destruct (Nat.leb_spec (off + len) (length u)); [|lia]. rewrite cut32_small by auto. eexists. split; [reflexivity|].
    apply (load_rep w j x u v); auto.
Qed.
Lemma arg_apart w t i a s p n : SR w t -> i < length (snd t) -> apart t i a = true -> arg_of t a = Some s -> u32 s = true -> argument w a = Ok (p, n) ->
  forall w', reset w i = Ok w' -> load lim nullchar w' p (length s) = Ok s.
Proof.
  intros R Hi Ha Hs U Ea w' E'. destruct (reset_ok w t i R Hi) as (w1 & E1 & R1 & O1 & X1 & J1). rewrite E1 in E'. injection E' as <-.
  assert (D : (forall j off len, a = SStr j off len -> i <> j) \/ exists off len, a = SStr i off len /\ viewing t i = true).
  { destruct a as [| |j off len]; try (left; intros; discriminate). cbn [apart] in Ha. destruct (Nat.eqb_spec i j) as [<-|Hn].
    - right. exists off, len. auto.
    - left. intros ? ? ? [= <- _ _]. auto. }
  clear Ha. destruct D as [Ha|(off & len & -> & Ha)].
  2: { destruct (arg_ok w t _ s R Hs U) as (p1 & P1 & L1). rewrite Ea in P1. injection P1 as <- _.
    unfold viewing in Ha. destruct (held t i) as [(u, v)|] eqn:Eh; [|discriminate]. subst v. apply held_some in Eh.
    destruct (rel_get _ _ _ w t i _ R Eh) as (x & Hx & _ & Hr). cbn [argument] in Ea. rewrite (idx_some _ _ _ Hx) in Ea. cbn [bind] in Ea.
    destruct x as [buf|[[e o|b]|] m self]; [destruct Hr; discriminate| | |].
    - destruct (off + len <=? _); [|discriminate]. injection Ea as <- _. cbn [gdata shift load load_addr] in *. rewrite X1. exact L1.
    - destruct Hr as (_ & Hr & _). discriminate.
    - destruct Hr as (_ & _ & Hr). discriminate. }
  assert (A1 : arg_of (become_obj t i (Some ([], false))) a = Some s).
  { rewrite <- Hs. destruct a as [|e off len|j off len]; cbn [arg_of]; auto.
    assert (Q : held (become_obj t i (Some ([], false))) j = held t j); [|rewrite Q; auto].
    unfold held, become_obj. cbn [snd]. rewrite nth_error_upd' by auto. destruct (Nat.eqb_spec i j) as [Q|]; [destruct (Ha _ _ _ eq_refl Q)|auto]. }
  destruct (arg_ok w1 _ a s R1 A1 U) as (p1 & P1 & L1).
  assert (P2 : argument w1 a = argument w a).
  { destruct a as [| |j off len]; auto. cbn [argument]. unfold idx. rewrite J1; auto. intros Q. exact (Ha _ _ _ eq_refl (eq_sym Q)). }
  rewrite P2, Ea in P1. injection P1 as -> _. auto.
Qed.
Lemma set_obj_some t i c s v t' r : set_obj t i c s v = Some (t', r) ->
  i < length (snd t) /\ c = true /\ u32 s = true /\ t' = become_obj t i (Some (s, v)) /\ r = YNone.
Proof.
  unfold set_obj. intros H. apply guard_some in H as (H & E). apply andb_prop in H as (H & H3). apply andb_prop in H as (H1 & H2).
  unfold has in H1. apply Nat.ltb_lt in H1. injection E as <- <-. auto.
Qed.
(* the contents of another object as a source *)
Lemma other_src w t i j y s v : SR w t -> i < length (snd t) -> i <> j -> held t j = Some (s, v) -> u32 s = true -> nth_error (w_obj w) j = Some y ->
  forall w', reset w i = Ok w' -> load lim nullchar w' (gdata y j) (length s) = Ok s.
Proof.
  intros R Hi Hn Hh U Hy. pose proof (held_some _ _ _ _ Hh) as Ho. destruct (rel_get _ _ _ w t j _ R Ho) as (x & Hx & Hr). cbn [omatch] in Hr.
  rewrite Hy in Hx. injection Hx as <-. intros w' E'.
  assert (A : arg_of t (SStr j 0 (length s)) = Some s).
  { cbn [arg_of]. rewrite Hh. unfold piece. cbn [plus]. destruct (Nat.leb_spec (length s) (length s)); [|lia]. cbn [skipn]. rewrite firstn_all. auto. }
  apply (arg_apart w t i (SStr j 0 (length s)) s _ (length s) R Hi); auto.
  - cbn [apart]. destruct (Nat.eqb_spec i j); auto.
  - cbn [argument]. rewrite (idx_some _ _ _ Hy). cbn [bind]. rewrite (size_rep _ _ _ _ _ Hr). cbn [plus].
    destruct (Nat.leb_spec (length s) (length s)); [|lia]. rewrite cut32_small by (unfold u32 in U; apply N.ltb_lt in U; auto).
    f_equal. f_equal. destruct y as [|[[|]|] ? ?]; auto.
Qed.
Lemma view_ext ext own x s i : srep ext own x s true -> exists e o u, gdata x i = PAddr (AExt e o) 0 /\ nth_error ext e = Some u /\ o + 0 + length s <= length u /\
  s = firstn (length s) (skipn (o + 0) u) /\ lim < length s /\ x = Heap (Some (AExt e o)) (length s) false.
Proof.
  intros (_ & H). destruct x as [buf|[[e o|b]|] n self].
  - destruct H; discriminate.
  - destruct H as (-> & _ & -> & G & u & Hu & H1 & H2). exists e, o, u. rewrite Nat.add_0_r. auto 10.
  - destruct H as (_ & H & _). discriminate.
  - destruct H as (_ & _ & H). discriminate.
Qed.
Lemma not_view_lim ext own x s v : srep ext own x s v -> (lim <? length s) = v \/ v = false.
Proof.
  intros H. destruct v; auto. destruct (view_ext _ _ _ _ 0 H) as (_ & _ & _ & _ & _ & _ & _ & G & _). left. apply Nat.ltb_lt. auto.
Qed.

Lemma skipn_app_exact {B} (a b : list B) : skipn (length a) (a ++ b) = b.
Proof. rewrite skipn_app, skipn_all, Nat.sub_diag. auto. Qed.
Lemma firstn_app_exact {B} (a b : list B) : firstn (length a) (a ++ b) = a.
Proof. rewrite firstn_app, firstn_all, Nat.sub_diag. cbn. apply app_nil_r. Qed.
Lemma cut_out_ok (s r : str) pos n : pos + n <= length s ->
  cut_out (s ++ r) (length s) pos n = Ok ((firstn pos s ++ skipn (pos + n) s) ++ repeat 0%N n ++ r).
Proof.
  intros H. set (a := firstn pos s). set (b := firstn n (skipn pos s)). set (c := skipn (pos + n) s).
  assert (La : length a = pos) by (unfold a; rewrite firstn_length; lia).
  assert (Lb : length b = n) by (unfold b; rewrite firstn_length, skipn_length; lia).
  assert (Lc : length c = length s - (pos + n)) by (unfold c; rewrite skipn_length; auto).
  assert (Es : s = a ++ b ++ c).
  { unfold a, b, c. rewrite <- (firstn_skipn pos s) at 1. f_equal. rewrite <- (firstn_skipn n (skipn pos s)) at 1. f_equal.
    clear. revert pos; induction s as [|x s IH]; intros [|pos]; cbn; auto. rewrite skipn_nil. auto. }
  clearbody a b c. subst s. rewrite !app_length in *. unfold cut_out.
  destruct (Nat.leb_spec (pos + n) (length a + (length b + length c))); [|lia].
  replace (length a + (length b + length c) - (pos + n)) with (length c) by lia.
  assert (B : bmove ((a ++ b ++ c) ++ r) pos (pos + n) (length c) = Ok (a ++ c ++ skipn (length (a ++ c)) (a ++ b ++ c ++ r))).
  { rewrite <- !app_assoc. unfold bmove. rewrite !app_length. destruct (Nat.eqb_spec (length c) 0) as [E|E].
    - destruct c; [|discriminate]. cbn [app length]. rewrite Nat.add_0_r, skipn_app_exact. auto.
    - destruct (Nat.leb_spec (pos + length c) (length a + (length b + (length c + length r)))); [|lia].
      destruct (Nat.leb_spec (pos + n + length c) (length a + (length b + (length c + length r)))); [|lia]. cbn [andb]. f_equal.
      rewrite <- La at 1. rewrite firstn_app_exact. f_equal. f_equal; [|f_equal; lia].
      replace (pos + n) with (length (a ++ b)) by (rewrite app_length; lia). rewrite (app_assoc a b), skipn_app_exact, firstn_app_exact. auto. }
  rewrite B. cbn [bind]. unfold zfill. set (X := skipn (length (a ++ c)) (a ++ b ++ c ++ r)).
  assert (LX : length X = n + length r) by (unfold X; rewrite skipn_length, !app_length; lia).
  replace (length a + (length b + length c) - n) with (length (a ++ c)) by (rewrite app_length; lia). rewrite (app_assoc a c X).
  assert (LT : length ((a ++ c) ++ X) = length (a ++ c) + (n + length r)) by (rewrite app_length; lia). rewrite LT.
  destruct (Nat.leb_spec (length (a ++ c) + n) (length (a ++ c) + (n + length r))); [|lia]. rewrite firstn_app_exact. do 3 f_equal.
  assert (SK : forall {B} (l : list B) i j, skipn (i + j) l = skipn j (skipn i l)).
  { clear. induction l as [|x l IH]; intros [|i] j; cbn; auto. destruct j; auto. }
  rewrite SK, skipn_app_exact. unfold X. rewrite <- SK.
  replace (length (a ++ c) + n) with (length (a ++ b ++ c)) by (rewrite !app_length; lia).
  replace (a ++ b ++ c ++ r) with ((a ++ b ++ c) ++ r) by (rewrite <- !app_assoc; auto). apply skipn_app_exact.
Qed.
Lemma u32_le s s' : u32 s = true -> length s' <= length s -> u32 s' = true.
Proof. unfold u32. intros H L. apply N.ltb_lt in H. apply N.ltb_lt. lia. Qed.
Lemma erase_len (s : str) pos n : pos + n <= length s -> length (firstn pos s ++ skipn (pos + n) s) = length s - n.
Proof. intros H. rewrite app_length, firstn_length, skipn_length. lia. Qed.
Definition erase_owned (w : world gs) (i pos n : nat) : res (world gs) :=
  let* x := idx (w_obj w) i in
  match x with
  | Short s => let* s := cut_out s (gsize x) pos n in Ok (put_obj w i (Short s))
  | Heap (Some (AOwn b)) m self =>
      let* c := idx (w_own w) b in
      match c with
      | Live s => let* s := cut_out s m pos n in Ok (put_obj (set_own w b s) i (Heap (Some (AOwn b)) (m - n) self))
      | Freed => UB
      end
  | Heap (Some (AExt _ _)) _ _ => UB
  | Heap None m self => if pos + n <=? m then Ok (put_obj w i (Heap None (m - n) self)) else UB
  end.
Lemma erase_owned_ok w t i x s pos n : SR w t -> nth_error (w_obj w) i = Some x -> srep (w_ext w) (w_own w) x s false -> pos + n <= length s ->
  exists w', erase_owned w i pos n = Ok w' /\ SR w' (become_obj t i (Some (firstn pos s ++ skipn (pos + n) s, false))).
Proof.
  intros R Hx Hr Hp. unfold erase_owned. rewrite (idx_some _ _ _ Hx). cbn [bind]. pose proof (size_rep _ _ _ _ _ Hr) as Sz.
  destruct Hr as (U & Hr). pose proof (erase_len s pos n Hp) as EL.
  assert (U' : u32 (firstn pos s ++ skipn (pos + n) s) = true) by (apply (u32_le s); auto; lia).
  destruct x as [buf|[[e o|b]|] m self].
  - destruct Hr as (_ & H1 & H2 & ->). rewrite Sz, cut_out_ok by auto. cbn [bind]. eexists. split; [reflexivity|].
    apply (Same w t i (Short (s ++ repeat 0%N (lim - length s)))); auto. split; auto. split; auto. split; [lia|]. split.
    + intros Q. apply H2. apply in_app_or in Q as [Q|Q].
      * rewrite <- (firstn_skipn pos s). apply in_or_app. auto.
      * rewrite <- (firstn_skipn (pos + n) s). apply in_or_app. auto.
    + f_equal. rewrite <- repeat_app. f_equal. lia.
  - destruct Hr as (_ & Hr & _). discriminate.
  - destruct Hr as (-> & _ & -> & r & Hb). rewrite (idx_some _ _ _ Hb). cbn [bind]. rewrite cut_out_ok by auto. cbn [bind].
    eexists. split; [reflexivity|]. unfold put_obj, set_own. cbn [w_ext w_own w_obj].
    assert (Lb : b < length (w_own w)) by (apply nth_error_Some; congruence).
    apply (Change w t i (Heap (Some (AOwn b)) (length s) true)); auto.
    + intros k Hk _. cbn in Hk. rewrite nth_error_upd' by auto. destruct (Nat.eqb_spec b k) as [->|]; auto. rewrite Nat.eqb_refl in Hk. discriminate.
    + intros k. rewrite (live_upd _ _ _ _ _ Hb). cbn [sown]. rewrite (Nat.eqb_sym k b). destruct (Nat.eqb_spec b k) as [->|]; [|lia].
      unfold live. rewrite Hb. auto.
    + split; auto. split; auto. split; auto. split; [lia|]. exists (repeat 0%N n ++ r). rewrite nth_error_upd', Nat.eqb_refl by auto. auto.
  - destruct Hr as (-> & -> & _). cbn in Hp. destruct (Nat.leb_spec (pos + n) 0); [|lia]. eexists. split; [reflexivity|].
    apply (Same w t i (Heap None 0 self)); auto. split; auto. assert (pos = 0) as -> by lia. assert (n = 0) as -> by lia. cbn. auto.
Qed.
Lemma erase_ok w t i s v pos n : SR w t -> held t i = Some (s, v) -> pos + n <= length s ->
  exists w', erase lim nullchar w i pos n = Ok w' /\ SR w' (become_obj t i (Some (firstn pos s ++ skipn (pos + n) s, false))).
Proof.
  intros R Hh Hp. pose proof (held_some _ _ _ _ Hh) as Ho. destruct (rel_get _ _ _ w t i _ R Ho) as (x & Hx & Hr). cbn [omatch] in Hr.
  assert (Hi : i < length (snd t)) by (apply nth_error_Some; congruence).
  unfold erase. rewrite (idx_some _ _ _ Hx). cbn [bind]. destruct v.
  - destruct (view_ext _ _ _ _ i Hr) as (e & o & u & Ed & Hu & H1 & H2 & G & ->). cbn [gdata]. pose proof (proj1 Hr) as U.
    destruct (set_owning_ok w t i (PAddr (AExt e o) 0) s R Hi U) as (w1 & -> & R1).
    { unfold storable. destruct (Nat.ltb_spec lim (length s)); [auto|lia]. }
    { intros w' E' _. destruct (reset_ok w t i R Hi) as (w2 & E2 & _ & _ & X2 & _). rewrite E2 in E'. injection E' as <-.
      cbn [load load_addr]. rewrite X2, (idx_some _ _ _ Hu). cbn [bind]. unfold slice. rewrite Nat.add_0_r in *.
      destruct (Nat.leb_spec (o + length s) (length u)); [|lia]. rewrite <- H2. auto. }
    cbn [bind]. assert (O1 : nth_error (snd (become_obj t i (Some (s, false)))) i = Some (Some (s, false))).
    { cbn [become_obj snd]. rewrite nth_error_upd' by auto. rewrite Nat.eqb_refl. auto. }
    destruct (rel_get _ _ _ w1 _ i _ R1 O1) as (x1 & Hx1 & Hr1). cbn [omatch] in Hr1.
    destruct (erase_owned_ok w1 _ i x1 s pos n R1 Hx1 Hr1 Hp) as (w' & E & R'). rewrite become_twice in R'. exists w'. split; auto.
  - destruct (erase_owned_ok w t i x s pos n R Hx Hr Hp) as (w' & E & R').
    destruct x as [buf|[[e o|b]|] m []]; cbn [bind]; try (exists w'; split; [exact E|exact R']).
    + destruct Hr as (_ & _ & Q & _). discriminate.
    + destruct Hr as (_ & Q & _). discriminate.
    + destruct Hr as (_ & -> & -> & _).
      destruct (set_owning_ok w t i (gdata (Heap None 0 false) i) [] R Hi eq_refl) as (w1 & E1 & R1).
      { unfold storable. cbn. try (destruct (lim <? 0)); reflexivity. } { intros w2 _ Q. congruence. }
      cbn [length] in E1.
      assert (O1 : nth_error (snd (become_obj t i (Some ([], false)))) i = Some (Some ([], false))).
      { cbn [become_obj snd]. rewrite nth_error_upd' by auto. rewrite Nat.eqb_refl. auto. }
      destruct (rel_get _ _ _ w1 _ i _ R1 O1) as (x1 & Hx1 & Hr1). cbn [omatch] in Hr1.
      destruct (erase_owned_ok w1 _ i x1 [] pos n R1 Hx1 Hr1 Hp) as (w2 & E2 & R2). rewrite become_twice in R2.
      exists w2. rewrite E1. cbn [bind]. split; auto.
Qed.
Lemma not_in_upd s : forall p c, ~ In 0%N s -> c <> 0%N -> ~ In 0%N (upd p c s).
Proof. induction s as [|x s IH]; intros [|p] c H1 H2 Q; cbn in *; auto; destruct Q as [Q|Q]; auto. apply (IH p c) in Q; auto. Qed.
Lemma upd_app_left {B} (a b : list B) p c : p < length a -> upd p c (a ++ b) = upd p c a ++ b.
Proof. revert p; induction a as [|x a IH]; intros [|p] H; cbn in *; auto; try lia. f_equal. apply IH. lia. Qed.
Lemma write_ok w t i s p c : SR w t -> held t i = Some (s, false) -> p < length s -> c <> 0%N ->
  exists w', write w i p c = Ok w' /\ SR w' (become_obj t i (Some (upd p c s, false))).
Proof.
  intros R Hh Hp Hc. pose proof (held_some _ _ _ _ Hh) as Ho. destruct (rel_get _ _ _ w t i _ R Ho) as (x & Hx & Hr). cbn [omatch] in Hr.
  unfold write. rewrite (idx_some _ _ _ Hx). cbn [bind]. destruct Hr as (U & Hr).
  assert (U' : u32 (upd p c s) = true) by (apply (u32_le s); auto; rewrite upd_length; lia).
  destruct x as [buf|[[e o|b]|] m self].
  - destruct Hr as (_ & H1 & H2 & ->). rewrite put_ok by (rewrite app_length; lia). cbn [bind]. eexists. split; [reflexivity|].
    apply (Same w t i (Short (s ++ repeat 0%N (lim - length s)))); auto. split; auto. split; auto. rewrite upd_length. split; [lia|]. split.
    + apply not_in_upd; auto.
    + apply upd_app_left. auto.
  - destruct Hr as (_ & Hr & _). discriminate.
  - destruct Hr as (-> & _ & -> & r & Hb). rewrite (idx_some _ _ _ Hb). cbn [bind]. rewrite put_ok by (rewrite app_length; lia). cbn [bind].
    eexists. split; [reflexivity|]. unfold set_own.
    assert (Lb : b < length (w_own w)) by (apply nth_error_Some; congruence). rewrite <- (upd_same _ _ _ Hx).
    apply (Change w t i (Heap (Some (AOwn b)) (length s) true)); auto.
    + intros k Hk _. cbn in Hk. rewrite nth_error_upd' by auto. destruct (Nat.eqb_spec b k) as [->|]; auto. rewrite Nat.eqb_refl in Hk. discriminate.
    + intros k. rewrite (live_upd _ _ _ _ _ Hb). cbn [sown]. rewrite (Nat.eqb_sym k b). destruct (Nat.eqb_spec b k) as [->|]; [|lia].
      unfold live. rewrite Hb. auto.
    + split; auto. split; auto. split; auto. rewrite upd_length. split; [lia|]. exists r. rewrite nth_error_upd', Nat.eqb_refl by auto. rewrite upd_app_left; auto.
  - destruct Hr as (_ & -> & _). cbn in Hp. lia.
Qed.
Lemma view_ok w t i s v : SR w t -> held t i = Some (s, v) -> view lim nullchar w i = Ok s /\ exists x, idx (w_obj w) i = Ok x /\ gsize x = length s /\
  nth_error (w_obj w) i = Some x /\ srep (w_ext w) (w_own w) x s v.
Proof.
  intros R Hh. pose proof (held_some _ _ _ _ Hh) as Ho. destruct (rel_get _ _ _ w t i _ R Ho) as (x & Hx & Hr). cbn [omatch] in Hr.
  unfold view. rewrite (idx_some _ _ _ Hx). cbn [bind]. rewrite (size_rep _ _ _ _ _ Hr). split.
  - apply (load_all w i x s v); auto.
  - exists x. split; auto. split; [apply (size_rep _ _ _ _ _ Hr)|]. auto.
Qed.
Lemma move_ok w t i j y : SR w t -> i < length (snd t) -> nth_error (snd t) j = Some y -> i <> j ->
  exists w', move_from raw w i j = Ok w' /\ SR w' (become_obj (become_obj t i y) j None).
Proof.
  intros R Hi Ho Hn. unfold move_from. destruct (Nat.eqb_spec i j); [congruence|].
  destruct (reset_ok w t i R Hi) as (w1 & -> & R1 & O1 & X1 & J1). cbn [bind].
  assert (Ho1 : nth_error (snd (become_obj t i (Some ([], false)))) j = Some y).
  { cbn [become_obj snd]. rewrite nth_error_upd' by auto. destruct (Nat.eqb_spec i j); [congruence|auto]. }
  destruct (rel_get _ _ _ w1 _ j y R1 Ho1) as (x & Hx & Hr). rewrite (idx_some _ _ _ Hx). cbn [bind].
  rewrite <- (become_twice t i (Some ([], false))).
  assert (Z : forall self, srep (w_ext w1) (w_own w1) (Heap None 0 self) [] false) by (intros; split; [reflexivity|cbn; auto]).
  destruct raw.
  - eexists. split; [reflexivity|]. apply (rel_move gs srep sown sown_le w1 _ i j gs0 x y _ [] false); auto.
  - destruct x as [buf|p m self].
    + eexists. split; [reflexivity|].
      assert (E : put_obj w1 i (Short buf) = put_obj (put_obj w1 i (Short buf)) j (Short buf)).
      { unfold put_obj. cbn [w_ext w_own w_obj]. f_equal. symmetry. apply upd_same. rewrite nth_error_upd' by (apply nth_error_Some; congruence).
        destruct (Nat.eqb_spec i j); [congruence|auto]. }
      rewrite E. assert (exists s v, srep (w_ext w1) (w_own w1) (Short buf) s v) as (s & v & Hs).
      { destruct y as [(s, v)|]; cbn [omatch] in Hr; [eauto|]. destruct Hr as (s & v & Hr & _). eauto. }
      apply (rel_move gs srep sown sown_le w1 _ i j gs0 (Short buf) y _ s v); auto.
    + eexists. split; [reflexivity|]. apply (rel_move gs srep sown sown_le w1 _ i j gs0 (Heap p m self) y _ [] false); auto.
Qed.

Lemma str_step_ok w t o t' r : SR w t -> str_spec lim t o = Some (t', r) -> exists w', str_step lim raw nullchar w o = Ok (w', r) /\ SR w' t'.
Proof.
  intros R E. destruct o; cbn [str_spec str_step] in *.
  - injection E as <- <-. eexists. split; [reflexivity|]. destruct R as [R1 R2 R3 R4]. split; cbn [w_ext w_own w_obj fst snd]; auto.
    + rewrite !app_length. cbn. lia.
    + intros i x ob Hx Hob. destruct (lt_dec i (length (w_obj w))) as [L|L].
      * rewrite nth_error_app1 in Hx by auto. rewrite nth_error_app1 in Hob by lia. eapply R3; eauto.
      * rewrite nth_error_app2 in Hx by lia. rewrite nth_error_app2 in Hob by lia. rewrite R2 in Hx. destruct (i - length (snd t)) as [|[|q]]; try discriminate.
        cbn in Hx, Hob. injection Hx as <-. injection Hob as <-. cbn [omatch]. split; [reflexivity|]. cbn. auto.
    + intros b. rewrite <- R4. clear. induction (w_obj w) as [|x l IH]; cbn [app owners]; [auto|]. rewrite IH. auto.
  - injection E as <- <-. eexists. split; [reflexivity|]. destruct R as [R1 R2 R3 R4]. split; cbn [w_ext w_own w_obj fst snd]; auto.
    + congruence.
    + intros i x ob Hx Hob. specialize (R3 i x ob Hx Hob).
      assert (G : forall s0 v, srep (w_ext w) (w_own w) x s0 v -> srep (w_ext w ++ [s]) (w_own w) x s0 v).
      { intros s0 v (U & H). split; auto. destruct x as [|[[e off|b]|] n self]; auto. destruct H as (H1 & H2 & H3 & H4 & u & H5 & H6).
        split; auto. split; auto. split; auto. split; auto. exists u. rewrite nth_error_app1; auto. apply nth_error_Some. congruence. }
      destruct ob as [(s0, v)|]; cbn [omatch] in *; [auto|]. destruct R3 as (s0 & v & H & Z). exists s0, v. auto.
  - destruct (arg_of t a) as [s|] eqn:Ea; [|discriminate]. apply set_obj_some in E as (Hi & C & U & -> & ->). apply andb_prop in C as (C1 & C2).
    destruct (arg_ok w t a s R Ea U) as (p & Hp & Hl). rewrite Hp. cbn [bind].
    destruct (set_owning_ok w t i p s R Hi U C1) as (w' & -> & R').
    { intros w' E' _. apply (arg_apart w t i a s p (length s) R Hi C2 Ea U Hp w' E'). }
    exists w'. auto.
  - cbn [arg_of] in E. destruct (nth_error (fst t) e) as [u|] eqn:Eu; [|discriminate]. unfold piece in E.
    destruct (Nat.leb_spec (off + len) (length u)) as [L|L]; [|discriminate]. set (s := firstn len (skipn off u)) in *.
    assert (Ls : length s = len) by (unfold s; rewrite firstn_length, skipn_length; lia).
    apply set_obj_some in E as (Hi & C & U & -> & ->). cbn [argument bind]. assert (CU : cut32 len = length s) by (rewrite <- Ls; apply cut32_small; unfold u32 in U; apply N.ltb_lt in U; auto). rewrite CU.
    rewrite <- (rel_ext _ _ _ _ _ R) in Eu.
    destruct (set_non_owning_ok w t i (PAddr (AExt e 0) off) s R Hi U C) as (w' & -> & R').
    { intros w' E' _ _. destruct (reset_ok w t i R Hi) as (w2 & E2 & _ & _ & X2 & _). rewrite E2 in E'. injection E' as <-.
      cbn [load load_addr]. rewrite X2, (idx_some _ _ _ Eu). cbn [bind plus]. unfold slice. rewrite Ls. destruct (Nat.leb_spec (off + len) (length u)); [auto|lia]. }
    { intros _. exists e, 0, off, u. rewrite Ls. auto. }
    exists w'. auto.
  - destruct (nth_error (snd t) j) as [y|] eqn:Ey; [|discriminate]. apply guard_some in E as (H & E). unfold has in H. apply Nat.ltb_lt in H.
    destruct (Nat.eqb_spec i j) as [->|Hn].
    + injection E as <- <-. unfold move_from. rewrite Nat.eqb_refl. exists w. auto.
    + injection E as <- <-. destruct (move_ok w t i j y R H Ey Hn) as (w' & -> & R'). exists w'. auto.
  - destruct (held t j) as [(s, v)|] eqn:Eh; [|discriminate]. unfold copy_from. destruct (Nat.eqb_spec i j) as [->|Hn].
    { injection E as <- <-. exists w. auto. }
    apply set_obj_some in E as (Hi & C & U & -> & ->). destruct (view_ok w t j s v R Eh) as (_ & x & _ & Sz & Hx & Hr).
    destruct (reset_ok w t i R Hi) as (w1 & E1 & R1 & O1 & X1 & J1). rewrite E1. cbn [bind].
    assert (Hx1 : nth_error (w_obj w1) j = Some x) by (rewrite J1; auto). rewrite (idx_some _ _ _ Hx1). cbn [bind].
    assert (SRC : forall w', reset w1 i = Ok w' -> load lim nullchar w' (gdata x j) (length s) = Ok s).
    { intros w' E'. rewrite (reset_again w1 i O1) in E'. injection E' as <-. apply (other_src w t i j x s v R Hi Hn Eh U Hx); auto. }
    assert (Hi1 : i < length (snd (become_obj t i (Some ([], false))))) by (cbn [become_obj snd]; rewrite upd_length; auto).
    rewrite <- (become_twice t i (Some ([], false))).
    assert (Hr1 : srep (w_ext w1) (w_own w1) x s v).
    { assert (O : nth_error (snd (become_obj t i (Some ([], false)))) j = Some (Some (s, v))).
      { cbn [become_obj snd]. rewrite nth_error_upd' by auto. destruct (Nat.eqb_spec i j); [congruence|]. apply held_some; auto. }
      destruct (rel_get _ _ _ w1 _ j _ R1 O) as (x1 & Hx' & Hr1). rewrite Hx1 in Hx'. injection Hx' as <-. exact Hr1. }
    destruct x as [buf|p m self].
    + eexists. split; [reflexivity|]. apply (Same w1 _ i gs0); auto.
    + rewrite Sz. destruct v.
      * destruct (view_ext _ _ _ _ j Hr1) as (e & o & u & Ed & Hu & H1 & H2 & G & Ex). injection Ex as -> -> ->.
        destruct (set_non_owning_ok w1 _ i (gdata (Heap (Some (AExt e o)) (length s) false) j) s R1 Hi1 U C) as (w' & -> & R').
        { intros w' E' _ _. apply SRC; auto. }
        { intros _. exists e, o, 0, u. auto. }
        destruct (Nat.ltb_spec lim (length s)); [|lia]. exists w'. auto.
      * destruct self.
        -- destruct (set_owning_ok w1 _ i (gdata (Heap p m true) j) s R1 Hi1 U C) as (w' & -> & R'). { intros w' E' _. apply SRC; auto. } exists w'. auto.
        -- assert (s = []) as ->.
           { destruct p as [[e o|b]|]; destruct Hr1 as (_ & Hr1); [destruct Hr1 as (_ & Q & _); discriminate|destruct Hr1; discriminate|]. destruct Hr1 as (_ & ? & _). auto. }
           destruct (set_non_owning_ok w1 _ i (gdata (Heap p m false) j) [] R1 Hi1 U C) as (w' & -> & R').
           { intros w' E' Q. congruence. } { cbn. lia. }
           cbn [length] in R'. destruct (Nat.ltb_spec lim 0); [lia|]. exists w'. auto.
  - destruct (held t j) as [(s, v)|] eqn:Eh; [|discriminate]. unfold assign_string. destruct (Nat.eqb_spec i j) as [->|Hn].
    { injection E as <- <-. exists w. auto. }
    apply set_obj_some in E as (Hi & C & U & -> & ->). destruct (view_ok w t j s v R Eh) as (_ & x & Ex & Sz & Hx & Hr). rewrite Ex. cbn [bind]. rewrite Sz.
    destruct (set_owning_ok w t i (gdata x j) s R Hi U C) as (w' & -> & R'). { intros w' E' _. apply (other_src w t i j x s v R Hi Hn Eh U Hx w' E'). }
    exists w'. auto.
  - destruct (held t j) as [(s, v)|] eqn:Eh; [|discriminate]. unfold assign_view.
    apply set_obj_some in E as (Hi & C & U & -> & ->). apply andb_prop in C as (C1 & C2).
    destruct (view_ok w t j s v R Eh) as (_ & x & Ex & Sz & Hx & Hr). rewrite Ex. cbn [bind]. rewrite Sz.
    destruct v.
    + destruct (view_ext _ _ _ _ j Hr) as (e & o & u & Ed & Hu & H1 & H2 & G & _). rewrite Ed.
      destruct (set_non_owning_ok w t i (PAddr (AExt e o) 0) s R Hi U C1) as (w' & -> & R').
      { intros w' E' _ Q. lia. } { intros _. exists e, o, 0, u. auto. }
      destruct (Nat.ltb_spec lim (length s)); [|lia]. exists w'. auto.
    + destruct (Nat.eqb_spec i j) as [->|Hn]; [discriminate|]. cbn [orb] in C2. apply Nat.leb_le in C2.
      destruct (set_non_owning_ok w t i (gdata x j) s R Hi U C1) as (w' & -> & R').
      { intros w' E' _ _. apply (other_src w t i j x s false R Hi Hn Eh U Hx w' E'). } { lia. }
      destruct (Nat.ltb_spec lim (length s)); [lia|]. exists w'. auto.
  - destruct (held t i) as [(s, v)|] eqn:Eh; [|discriminate]. apply set_obj_some in E as (Hi & C & U & -> & ->). apply Nat.leb_le in C.
    destruct (erase_ok w t i s v pos n R Eh C) as (w' & -> & R'). exists w'. auto.
  - destruct (held t i) as [(s, v)|] eqn:Eh; [|discriminate]. apply set_obj_some in E as (Hi & C & U & -> & ->).
    apply andb_prop in C as (C & C3). apply andb_prop in C as (C1 & C2). apply Nat.ltb_lt in C1. destruct v; [discriminate|].
    destruct (N.eqb_spec c 0); [discriminate|]. destruct (write_ok w t i s p c R Eh C1) as (w' & -> & R'); auto. exists w'. auto.
  - apply set_obj_some in E as (Hi & C & U & -> & ->). destruct (reset_ok w t i R Hi) as (w' & -> & R' & _). exists w'. auto.
  - destruct (held t i) as [(s, v)|] eqn:Eh; [|discriminate]. injection E as <- <-. rewrite (proj1 (view_ok w t i s v R Eh)). exists w. auto.
  - destruct (held t i) as [(s, v)|] eqn:Eh; [|discriminate]. injection E as <- <-. destruct (view_ok w t i s v R Eh) as (_ & x & -> & Sz & _).
    cbn [bind]. rewrite Sz. exists w. auto.
  - destruct (held t i) as [(s, v)|] eqn:Eh; [|discriminate]. destruct (held t j) as [(s2, v2)|] eqn:Eh2; [|discriminate]. injection E as <- <-.
    rewrite (proj1 (view_ok w t i s v R Eh)), (proj1 (view_ok w t j s2 v2 R Eh2)). cbn [bind]. rewrite view_eq_same. exists w. auto.
  - destruct (held t i) as [(s, v)|] eqn:Eh; [|discriminate]. destruct (held t j) as [(s2, v2)|] eqn:Eh2; [|discriminate]. injection E as <- <-.
    rewrite (proj1 (view_ok w t i s v R Eh)), (proj1 (view_ok w t j s2 v2 R Eh2)). cbn [bind]. rewrite view_lt_lex. exists w. auto.
  - destruct (held t i) as [(b, v)|] eqn:Eh; [|discriminate]. destruct (arg_of t a) as [s|] eqn:Ea; [|discriminate].
    apply guard_some in E as (U & E). injection E as <- <-. destruct (arg_ok w t a s R Ea U) as (p & -> & Hl). cbn [bind].
    destruct (view_ok w t i b v R Eh) as (_ & x & Ex & Sz & Hx & Hr). unfold starts_with. rewrite Ex. cbn [bind]. rewrite Sz. exists w. split; auto.
    destruct (Nat.ltb_spec (length b) (length s)) as [L|L].
    { cbn [bind]. destruct (prefix s b) eqn:P; auto. apply prefix_len in P. lia. }
    destruct (Nat.eqb_spec (length s) 0) as [Z|Z]. { destruct s; [auto|discriminate]. }
    destruct (Nat.eqb_spec (length b) 0); [lia|]. rewrite Hl. cbn [bind].
    assert (Q : gdata x i = shift (gdata x i) 0). { destruct x as [|[[|]|] ? ?]; auto. }
    rewrite Q, (load_rep w i x b v 0 (length s)) by auto. cbn [bind skipn]. rewrite prefix_cmp by auto. auto.
  - destruct (held t i) as [(b, v)|] eqn:Eh; [|discriminate]. destruct (arg_of t a) as [s|] eqn:Ea; [|discriminate].
    apply guard_some in E as (U & E). injection E as <- <-. destruct (arg_ok w t a s R Ea U) as (p & -> & Hl). cbn [bind].
    destruct (view_ok w t i b v R Eh) as (_ & x & Ex & Sz & Hx & Hr). unfold ends_with. rewrite Ex. cbn [bind]. rewrite Sz. exists w. split; auto.
    destruct (Nat.ltb_spec (length b) (length s)) as [L|L].
    { cbn [bind]. destruct (suffix s b) eqn:P; auto. apply suffix_spec in P as (c & ->). rewrite app_length in L. lia. }
    destruct (Nat.eqb_spec (length s) 0) as [Z|Z]. { destruct s; [auto|discriminate]. }
    destruct (Nat.eqb_spec (length b) 0); [lia|]. rewrite Hl. cbn [bind].
    rewrite (load_rep w i x b v (length b - length s) (length s)) by (auto; lia). cbn [bind].
    rewrite firstn_all2 by (rewrite skipn_length; lia). rewrite suffix_cmp by auto. auto.
Qed.

(* assigning a piece of what the object itself owns *)
Lemma zero_head k m : m < k \/ m <= k /\ nullchar = 0%N -> exists l, skipn m (repeat 0%N k ++ [nullchar]) = 0%N :: l.
Proof.
  revert k. induction m as [|m IH]; intros [|k] [H|(H & E)]; try lia; cbn [repeat app skipn]; eauto.
  - rewrite E. eauto.
  - apply IH. left. lia.
  - apply IH. right. split; [lia|auto].
Qed.
Lemma own_piece w t i s off len q : SR w t -> held t i = Some (s, false) -> piece s off len = Some q -> q <> [] ->
  off + 1 < lim \/ nullchar = 0%N ->
  (exists p n, nth_error (w_obj w) i = Some (Heap p n true)) /\ str_step lim raw nullchar w (SOwn i (SStr i off len)) = UB \/
  (exists buf, nth_error (w_obj w) i = Some (Short buf)) /\
  exists w', str_step lim raw nullchar w (SOwn i (SStr i off len)) = Ok (w', YNone) /\ view lim nullchar w' i = Ok [].
Proof.
  intros R Hh Hp Hq Hn. apply held_some in Hh. destruct (rel_get _ _ _ w t i _ R Hh) as (x & Hx & Hr). cbn [omatch] in Hr.
  unfold piece in Hp. destruct (Nat.leb_spec (off + len) (length s)) as [L|]; [|discriminate]. injection Hp as <-.
  assert (L0 : len <> 0) by (intros ->; apply Hq; reflexivity).
  assert (U : cut32 len = len). { apply cut32_small. destruct Hr as (U & _). unfold u32 in U. apply N.ltb_lt in U. lia. }
  cbn [str_step argument]. rewrite (idx_some _ _ _ Hx). cbn [bind]. rewrite (size_rep _ _ _ _ _ Hr), U.
  destruct (Nat.leb_spec (off + len) (length s)); [|lia]. cbn [bind]. unfold set_owning, reset. rewrite (idx_some _ _ _ Hx). cbn [bind].
  destruct Hr as (_ & Hr). destruct x as [buf|[[e o|b]|] n self].
  - right. split; [eauto|]. cbn [bind]. destruct (Nat.eqb_spec len 0); [lia|]. cbn [gdata shift plus load].
    assert (Li : i < length (w_obj w)) by (apply nth_error_Some; congruence).
    assert (Hi : nth_error (w_obj (put_obj w i gs0)) i = Some gs0).
    { cbn [put_obj w_obj]. rewrite nth_error_upd' by auto. rewrite Nat.eqb_refl. auto. }
    rewrite (idx_some _ _ _ Hi). cbn [bind inline gs0]. destruct Hr as (_ & Ls & _).
    unfold slice at 1. rewrite app_length, repeat_length. cbn [length].
    destruct (Nat.leb_spec (off + len) (lim - 1 + 1)); [|lia]. cbn [bind]. destruct (Nat.leb_spec len lim); [|lia].
    eexists. split; [reflexivity|]. unfold view.
    match goal with |- context [put_obj (put_obj w i gs0) i ?y] => assert (H2 : nth_error (w_obj (put_obj (put_obj w i gs0) i y)) i = Some y) end.
    { cbn [put_obj w_obj]. rewrite nth_error_upd' by (rewrite upd_length; auto). rewrite Nat.eqb_refl. auto. }
    rewrite (idx_some _ _ _ H2). cbn [bind gdata gsize load]. rewrite (idx_some _ _ _ H2). cbn [bind inline].
    destruct (zero_head (lim - 1) off) as (l & ->); [lia|]. destruct len; [lia|]. cbn [firstn app find0]. rewrite N.eqb_refl. reflexivity.
  - destruct Hr as (_ & Hr & _). discriminate.
  - left. destruct Hr as (-> & _ & _ & r & Hb). split; [eauto|]. cbn [release]. rewrite (idx_some _ _ _ Hb). cbn [bind].
    destruct (Nat.eqb_spec len 0); [lia|]. cbn [gdata shift load load_addr put_obj w_own]. unfold idx.
    rewrite nth_error_upd' by (apply nth_error_Some; congruence). rewrite Nat.eqb_refl. reflexivity.
  - destruct Hr as (_ & -> & _). cbn in L. lia.
Qed.
End Str.
