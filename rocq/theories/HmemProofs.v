From Verif Require Import Base HashModel HashSpec HashProofs HashRefine HmemModel HmemSpec.

Lemma upd_upd_eq {A} (l : list A) : forall i x y, upd i x (upd i y l) = upd i x l.
Proof. induction l; intros [|i] x y; cbn; auto. now rewrite IHl. Qed.
Lemma map_upd {A B} (f : A -> B) l : forall i x, map f (upd i x l) = upd i (f x) (map f l).
Proof. induction l; intros [|i] x; cbn; auto. now rewrite IHl. Qed.
Lemma upd_self {A} (l : list A) : forall i x, nth_error l i = Some x -> upd i x l = l.
Proof. induction l; intros [|i] x E; cbn in *; try discriminate; [congruence|]. now rewrite IHl. Qed.
Lemma upd_last {A} (l : list A) x y : upd (length l) y (l ++ [x]) = l ++ [y].
Proof. induction l; cbn; congruence. Qed.
Lemma upd_app {A} (l : list A) : forall k x y, k < length l -> upd k y (l ++ [x]) = upd k y l ++ [x].
Proof. induction l; intros [|k] u v L; cbn in *; auto; try lia. rewrite IHl by lia. reflexivity. Qed.
Lemma F2_nth {A B} (P : A -> B -> Prop) l l' : Forall2 P l l' -> forall i b, nth_error l' i = Some b ->
  exists a, nth_error l i = Some a /\ P a b.
Proof. induction 1; intros [|i] b E; cbn in *; try discriminate; [injection E as <-; eauto|eauto]. Qed.
Lemma F2_upd {A B} (P : A -> B -> Prop) l l' : Forall2 P l l' -> forall i a b, P a b -> Forall2 P (upd i a l) (upd i b l').
Proof. induction 1; intros [|i] a b Q; cbn; auto. Qed.
Lemma F2_length {A B} (P : A -> B -> Prop) l l' : Forall2 P l l' -> length l = length l'.
Proof. induction 1; cbn; congruence. Qed.

(* ---- who owns which block ---- *)
Record Ow (bs : list bool) (os : list (option nat)) : Prop := {
  ow1 : forall r k, nth_error os r = Some (Some k) -> nth_error bs k = Some true;
  ow2 : forall k, nth_error bs k = Some true -> exists r, nth_error os r = Some (Some k);
  ow3 : forall r r' k, nth_error os r = Some (Some k) -> nth_error os r' = Some (Some k) -> r = r'
}.

Lemma nth_upd {A} (l : list A) r x y i : r < length l ->
  nth_error (upd r x l) i = Some y -> (i = r /\ y = x) \/ (i <> r /\ nth_error l i = Some y).
Proof.
  intros L E. destruct (Nat.eq_dec i r) as [->|Q].
  - rewrite nth_error_upd_eq in E by auto. left. split; congruence.
  - rewrite nth_error_upd_neq in E by auto. auto.
Qed.
Lemma nth_lt {A} (l : list A) r x : nth_error l r = Some x -> r < length l.
Proof. intros E. apply nth_error_Some. congruence. Qed.

Lemma ow_free bs os r k : Ow bs os -> nth_error os r = Some (Some k) -> Ow (upd k false bs) (upd r None os).
Proof.
  intros [A B C] E. pose proof (nth_lt _ _ _ E) as L. split.
  - intros i j Hi. apply nth_upd in Hi as [(-> & Q)|(Q & Hi)]; [discriminate| |auto].
    rewrite nth_error_upd_neq; eauto. intros ->. apply Q. eauto.
  - intros j Hj. pose proof (A _ _ E) as Hk. apply nth_upd in Hj as [(-> & Q)|(Q & Hj)]; [discriminate| |eapply nth_lt; eauto].
    destruct (B _ Hj) as (i & Hi). exists i. rewrite nth_error_upd_neq; auto. intros ->. congruence.
  - intros i i' j Hi Hi'. apply nth_upd in Hi as [(-> & Q)|(Q & Hi)]; [discriminate| |auto].
    apply nth_upd in Hi' as [(-> & Q')|(Q' & Hi')]; [discriminate|eauto|auto].
Qed.
Lemma ow_alloc bs os r : Ow bs os -> nth_error os r = Some None -> Ow (bs ++ [true]) (upd r (Some (length bs)) os).
Proof.
  intros [A B C] E. pose proof (nth_lt _ _ _ E) as L. split.
  - intros i j Hi. apply nth_upd in Hi as [(-> & Q)|(Q & Hi)]; auto.
    + injection Q as ->. rewrite nth_error_app2, Nat.sub_diag by lia. reflexivity.
    + pose proof (A _ _ Hi) as Hj. rewrite nth_error_app1; auto. eapply nth_lt; eauto.
  - intros j Hj. destruct (Nat.lt_ge_cases j (length bs)) as [Lj|Lj].
    + rewrite nth_error_app1 in Hj by auto. destruct (B _ Hj) as (i & Hi). exists i. rewrite nth_error_upd_neq; auto. intros ->. congruence.
    + exists r. rewrite nth_error_upd_eq by auto. pose proof (nth_lt _ _ _ Hj) as X. rewrite app_length in X. cbn in X. do 2 f_equal. lia.
  - assert (X : forall i j, nth_error os i = Some (Some j) -> j <> length bs).
    { intros i j Hi ->. apply A in Hi. apply nth_lt in Hi. lia. }
    intros i i' j Hi Hi'. apply nth_upd in Hi as [(-> & Q)|(Q & Hi)]; auto;
    apply nth_upd in Hi' as [(-> & Q')|(Q' & Hi')]; auto.
    + injection Q as ->. destruct (X _ _ Hi' eq_refl).
    + injection Q' as ->. destruct (X _ _ Hi eq_refl).
    + eauto.
Qed.
Lemma ow_app bs os : Ow bs os -> Ow bs (os ++ [None]).
Proof.
  intros [A B C].
  assert (X : forall i k, nth_error (os ++ [None]) i = Some (Some k) -> nth_error os i = Some (Some k)).
  { intros i k H. destruct (Nat.lt_ge_cases i (length os)); [now rewrite nth_error_app1 in H|].
    rewrite nth_error_app2 in H by auto. destruct (i - length os) as [|[]]; discriminate. }
  split; [eauto| |eauto]. intros k H. destruct (B _ H) as (r & Hr). exists r. rewrite nth_error_app1; auto. eapply nth_lt; eauto.
Qed.
Lemma ow_move bs os r r' x : Ow bs os -> nth_error os r = Some x -> nth_error os r' = Some None -> r <> r' ->
  Ow bs (upd r None (upd r' x os)).
Proof.
  intros [A B C] E E' Q. pose proof (nth_lt _ _ _ E) as L. pose proof (nth_lt _ _ _ E') as L'.
  assert (X : forall i k, nth_error (upd r None (upd r' x os)) i = Some (Some k) ->
    i <> r /\ nth_error os (if i =? r' then r else i) = Some (Some k)).
  { intros i k H. apply nth_upd in H as [(-> & H)|(N & H)]; [discriminate| |now rewrite upd_length].
    split; auto. apply nth_upd in H as [(-> & H)|(N' & H)]; auto.
    - rewrite Nat.eqb_refl. congruence.
    - destruct (Nat.eqb_spec i r'); congruence. }
  split.
  - intros i k H. destruct (X _ _ H). eauto.
  - intros k H. destruct (B _ H) as (i & Hi). destruct (Nat.eq_dec i r) as [->|N].
    + exists r'. rewrite nth_error_upd_neq, nth_error_upd_eq by auto. congruence.
    + exists i. rewrite !nth_error_upd_neq; auto. intros ->. congruence.
  - intros i i' k H H'. destruct (X _ _ H) as (N & Hi), (X _ _ H') as (N' & Hi'). pose proof (C _ _ _ Hi Hi') as Y.
    destruct (Nat.eqb_spec i r'), (Nat.eqb_spec i' r'); congruence.
Qed.

Section P.
Variable K V : Type.
Variable hash : K -> N.
Variable keq : K -> K -> bool.
Variable dv : V.
Variable max_cap : nat.
Hypothesis laws : key_laws K keq hash.
Hypothesis max_cap_ok : cap_bounded max_cap.
Notation Inv := (Inv K V hash keq max_cap).
Notation htab := (htab K V).
Notation cap h := (t_cap K V (h_tbl h)).

Definition owner (h : htab) : option nat := match h_at h with Own k => Some k | _ => None end.
Definition wfp (h : htab) (b : bool) : Prop :=
  match h_at h with
  | Own _ => h_self h = true /\ cap h <> 0 /\ b = true
  | Buf => h_self h = false
  | Nil => cap h = 0
  end.

Lemma fopi_cap t k t' i b : find_or_prepare_insert K V hash keq max_cap t k = Ok (t', i, b) ->
  t_cap K V t <= t_cap K V t'.
Proof.
  unfold find_or_prepare_insert, prepare_insert, rehash_and_grow_if_necessary, resize.
  destruct (find_ K V hash keq t k) as [[j|]| | |]; cbn [bind]; try discriminate. { intros E. injection E as <- _ _. auto. }
  destruct (find_first_non_full _ _ _) as [tg| | |]; cbn [bind]; try discriminate.
  destruct (rd_ctrl K V t tg) as [c| | |]; cbn [bind]; try discriminate.
  destruct ((t_growth K V t =? 0)%N && negb (is_deleted c)).
  - destruct (_ <? _); cbn [bind]; try discriminate.
    destruct (resize_loop _ _ _ _ _ _ _) as [[cs es]| | |]; cbn [bind t_cap t_ctrl t_ent]; try discriminate.
    destruct (find_first_non_full _ _ _) as [tg'| | |]; cbn [bind]; try discriminate.
    destruct (rd_ctrl K V _ tg') as [c'| | |]; cbn [bind]; try discriminate.
    destruct (set_ctrl _ _ _ _) as [cs'| | |]; cbn [bind t_cap]; try discriminate.
    intros E. injection E as <- _ _. cbn. destruct (Nat.eqb_spec (t_cap K V t) 0); lia.
  - cbn [bind]. destruct (rd_ctrl K V t tg) as [c'| | |]; cbn [bind]; try discriminate.
    destruct (set_ctrl _ _ _ _) as [cs'| | |]; cbn [bind t_cap]; try discriminate.
    intros E. injection E as <- _ _. cbn. auto.
Qed.
Lemma set_ent_cap t i x t' : set_ent K V t i x = Ok t' -> t_cap K V t' = t_cap K V t.
Proof. unfold set_ent. destruct (put_ent _ _ _ _ _); cbn; try discriminate. intros E. injection E as <-. reflexivity. Qed.
Lemma emplace_cap t e t' i b : emplace K V hash keq max_cap t e = Ok (t', i, b) -> t_cap K V t <= t_cap K V t'.
Proof.
  unfold emplace. destruct (find_or_prepare_insert _ _ _ _ _ _ _) as [[[t1 j] []]| | |] eqn:E; cbn [bind]; try discriminate;
    pose proof (fopi_cap _ _ _ _ _ E).
  - destruct (set_ent _ _ _ _ _) eqn:S; cbn [bind]; try discriminate. apply set_ent_cap in S. intros X. injection X as <- _ _. lia.
  - intros X. injection X as <- _ _. auto.
Qed.
Lemma bracket_cap t k t' i : bracket K V hash keq dv max_cap t k = Ok (t', i) -> t_cap K V t <= t_cap K V t'.
Proof.
  unfold bracket. destruct (find_or_prepare_insert _ _ _ _ _ _ _) as [[[t1 j] []]| | |] eqn:E; cbn [bind]; try discriminate;
    pose proof (fopi_cap _ _ _ _ _ E).
  - destruct (set_ent _ _ _ _ _) eqn:S; cbn [bind]; try discriminate. apply set_ent_cap in S. intros X. injection X as <- _. lia.
  - intros X. injection X as <- _. auto.
Qed.
Lemma erase_cap t k t' n : erase K V hash keq t k = Ok (t', n) -> t_cap K V t' = t_cap K V t.
Proof.
  unfold erase, erase_at, erase_meta_only. destruct (find_ _ _ _ _ _ _) as [[i|]| | |]; cbn [bind]; try discriminate.
  - destruct (rd_ent _ _ _ _); cbn [bind]; try discriminate. destruct (set_ent _ _ _ _ _) eqn:S; cbn [bind]; try discriminate.
    apply set_ent_cap in S. destruct (was_never_full _ _ _ _); cbn [bind]; try discriminate.
    destruct (set_ctrl _ _ _ _); cbn [bind]; try discriminate. intros X. injection X as <- _. exact S.
  - intros X. injection X as <- _. reflexivity.
Qed.
Definition inserting (o : op K V) : bool := match o with Emplace _ _ _ _ | Assign _ _ _ _ | Bracket _ _ _ => true | _ => false end.
Definition plain (o : op K V) : bool := match o with Clear _ _ | Rehash _ _ | Copy _ _ => false | _ => true end.
Lemma step_cap t o t' x : plain o = true -> step K V hash keq dv max_cap t o = Ok (t', x) ->
  t_cap K V t <= t_cap K V t' /\ (inserting o = false -> t_cap K V t' = t_cap K V t).
Proof.
  destruct o; cbn [plain inserting step]; try discriminate; intros _.
  - destruct (emplace _ _ _ _ _ _ _) as [[[t1 i] b]| | |] eqn:E; cbn [bind]; try discriminate. apply emplace_cap in E.
    destruct (rd_ent _ _ _ _); cbn [bind]; try discriminate. intros X. injection X as <- _. split; [auto|discriminate].
  - destruct (bracket _ _ _ _ _ _ _ _) as [[t1 i]| | |] eqn:E; cbn [bind]; try discriminate. apply bracket_cap in E.
    destruct (rd_ent _ _ _ _); cbn [bind]; try discriminate. destruct (set_ent _ _ _ _ _) eqn:S; cbn [bind]; try discriminate.
    apply set_ent_cap in S. intros X. injection X as <- _. split; [lia|discriminate].
  - destruct (bracket _ _ _ _ _ _ _ _) as [[t1 i]| | |] eqn:E; cbn [bind]; try discriminate. apply bracket_cap in E.
    destruct (rd_ent _ _ _ _); cbn [bind]; try discriminate. intros X. injection X as <- _. split; [auto|discriminate].
  - destruct (find_ _ _ _ _ _ _) as [[i|]| | |]; cbn [bind]; try discriminate; [destruct (rd_ent _ _ _ _); cbn [bind]; try discriminate|];
      intros X; injection X as <- _; auto.
  - destruct (find_ _ _ _ _ _ _) as [[i|]| | |]; cbn [bind]; try discriminate; [destruct (rd_ent _ _ _ _); cbn [bind]; try discriminate|];
      intros X; injection X as <- _; auto.
  - destruct (find_ _ _ _ _ _ _) as [[i|]| | |]; cbn [bind]; try discriminate; [destruct (rd_ent _ _ _ _); cbn [bind]; try discriminate|];
      intros X; injection X as <- _; auto.
  - destruct (erase _ _ _ _ _ _) as [[t1 n]| | |] eqn:E; cbn [bind]; try discriminate. apply erase_cap in E.
    intros X. injection X as <- _. split; [lia|auto].
  - intros X. injection X as <- _. auto.
  - destruct (iterate _ _ _); cbn [bind]; try discriminate. intros X. injection X as <- _. auto.
Qed.

(* ---- the memory operations, for a table at position r ---- *)
Lemma moved_ok bs os r h b t : Ow bs os -> nth_error os r = Some (owner h) -> wfp h b -> t_cap K V t <> 0 ->
  exists bs' h', moved K V bs h t = Ok (bs', h') /\ h_tbl h' = t /\ wfp h' true /\ Ow bs' (upd r (owner h') os).
Proof.
  intros O E W T. unfold moved. pose proof (nth_lt _ _ _ E) as L.
  destruct (h_at h) as [|k|] eqn:Eh; unfold wfp, owner in *; rewrite Eh in *.
  - rewrite W. cbn [Nat.eqb negb andb bind]. do 2 eexists. split; [reflexivity|]. cbn. split; [auto|]. split; [auto|].
    apply ow_alloc; auto.
  - destruct W as (-> & C & ->). destruct (Nat.eqb_spec (cap h) 0); [contradiction|]. cbn [negb andb free].
    pose proof (ow1 _ _ O _ _ E) as Ek. pose proof (nth_lt _ _ _ Ek) as Lk. rewrite nth_error_app1, Ek by auto. cbn [bind].
    rewrite upd_app by auto. do 2 eexists. split; [reflexivity|]. cbn. split; [auto|]. split; [auto|].
    pose proof (ow_free _ _ _ _ O E) as O1. apply (ow_alloc _ _ r) in O1; [|apply nth_error_upd_eq; auto].
    rewrite upd_upd_eq, upd_length in O1. exact O1.
  - rewrite W, andb_false_r. cbn [bind]. do 2 eexists. split; [reflexivity|]. cbn. split; [auto|]. split; [auto|].
    apply ow_alloc; auto.
Qed.
Lemma after_ok bs os r h b b' t : Ow bs os -> nth_error os r = Some (owner h) -> wfp h b -> cap h <= t_cap K V t ->
  (t_cap K V t <> cap h -> b' = true) -> (b = true -> b' = true) ->
  exists bs' h', after K V bs h t = Ok (bs', h') /\ h_tbl h' = t /\ wfp h' b' /\ Ow bs' (upd r (owner h') os).
Proof.
  intros O E W T B B'. unfold after. destruct (Nat.eqb_spec (t_cap K V t) (cap h)) as [Q|Q].
  - do 2 eexists. split; [reflexivity|]. split; [auto|]. split.
    + unfold wfp in *. cbn. rewrite Q. destruct (h_at h); auto. destruct W as (? & ? & ?). auto.
    + replace (owner _) with (owner h) by reflexivity. rewrite upd_self; auto.
  - rewrite B by auto. apply (moved_ok bs os r h b t); auto. lia.
Qed.
Lemma clear_cap t t' : t_cap K V t <> 0 -> clear K V t = Ok t' -> t_cap K V t' = 0.
Proof.
  unfold clear. destruct (Nat.eqb_spec (t_cap K V t) 0); [contradiction|]. intros _.
  destruct (destroy_all _ _ _); cbn [bind]; try discriminate. intros E. injection E as <-. reflexivity.
Qed.
Lemma inv_cap0 t m I : Inv t m I -> t_cap K V t = 0 -> m = [] /\ Inv t [] 0.
Proof.
  intros H Z. pose proof (Inv_len _ _ _ _ _ _ _ _ H) as X. pose proof (I_cnt _ _ _ _ _ _ _ _ H) as Y.
  rewrite Z in *. cbn in Y. assert (M : m = []) by (destruct m; auto; cbn in X; lia). split; auto. subst m.
  destruct H. constructor; auto. rewrite Z. cbn in *. lia.
Qed.
Lemma clear_empty t t' : t_cap K V t <> 0 -> clear K V t = Ok t' -> t' = empty_tbl K V.
Proof.
  unfold clear. destruct (Nat.eqb_spec (t_cap K V t) 0); [contradiction|]. intros _.
  destruct (destroy_all _ _ _); cbn [bind]; try discriminate. intros E. injection E as <-. reflexivity.
Qed.
Lemma clear_b_ok bs os r h b m I : Ow bs os -> nth_error os r = Some (owner h) -> wfp h b -> Inv (h_tbl h) m I ->
  exists bs' h', clear_b K V bs h = Ok (bs', h') /\ Inv (h_tbl h') [] 0 /\ wfp h' false /\
    owner h' = None /\ Ow bs' (upd r None os).
Proof.
  intros O E W H. unfold clear_b. destruct (clear_spec K V hash keq max_cap laws _ _ _ H) as (t' & Ec & H'). rewrite Ec. cbn [bind].
  destruct (Nat.eqb_spec (cap h) 0) as [Z|Z].
  - assert (N : owner h = None). { unfold wfp, owner in *. destruct (h_at h); auto. destruct W as (_ & ? & _). contradiction. }
    exists bs, h. split; [auto|]. split; [apply (inv_cap0 _ _ _ H Z)|].
    split. { unfold wfp, owner in *. destruct (h_at h); auto. discriminate. }
    split; auto. rewrite upd_self; auto. congruence.
  - rewrite (clear_empty _ _ Z Ec). unfold wfp, owner in *. destruct (h_at h) as [|k|] eqn:Eh.
    + contradiction.
    + destruct W as (-> & _ & _). cbn [free]. pose proof (ow1 _ _ O _ _ E) as ->. cbn [bind]. do 2 eexists. split; [reflexivity|].
      cbn. split; [apply Inv_empty|]. split; [auto|]. split; auto. apply ow_free; auto.
    + rewrite W. cbn [bind]. do 2 eexists. split; [reflexivity|]. cbn. split; [apply Inv_empty|]. split; [auto|]. split; auto.
      rewrite upd_self; auto.
Qed.

Lemma emplace_each_ok l : forall bs os r h b m I, Ow bs os -> nth_error os r = Some (owner h) -> wfp h b -> Inv (h_tbl h) m I ->
  distinct K V keq (l ++ m) ->
  emplace_each K V hash keq max_cap bs h l = Throw /\ max_cap < 3 * (I + length l) + 2 \/
  exists bs' h', emplace_each K V hash keq max_cap bs h l = Ok (bs', h') /\ Inv (h_tbl h') (l ++ m) (I + length l) /\
    wfp h' (match l with [] => b | _ => true end) /\ Ow bs' (upd r (owner h') os).
Proof.
  induction l as [|(k, v) l IH]; intros bs os r h b m I O E W H D; cbn [emplace_each].
  - right. exists bs, h. cbn. rewrite Nat.add_0_r. split; auto. split; auto. split; auto. rewrite upd_self; auto.
  - cbn [app] in D.
    assert (Lk : lookup K V keq m k = None).
    { apply lookup_none. intros e He. apply (keq_sym_false K hash keq laws). apply D. apply in_or_app. now right. }
    destruct (emplace_spec K V hash keq dv max_cap laws max_cap_ok _ _ _ k v H) as [(-> & L)|(t' & s & ins & e & Em & _ & R)].
    { left. cbn. split; auto. lia. }
    rewrite Em. cbn [bind fst]. rewrite Lk in R. destruct R as (_ & _ & H1).
    destruct (after_ok bs os r h b true t' O E W (emplace_cap _ _ _ _ _ Em)) as (bs1 & h1 & -> & T1 & W1 & O1); auto. cbn [bind].
    rewrite <- T1 in H1. pose proof (nth_lt _ _ _ E) as Lr.
    assert (D' : distinct K V keq (l ++ (k, v) :: m)).
    { eapply distinct_perm; [exact laws| |exact D]. apply Permutation_middle. }
    destruct (IH bs1 (upd r (owner h1) os) r h1 true ((k, v) :: m) (I + 1) O1) as [(Th & L)|(bs2 & h2 & Eq & H2 & W2 & O2)]; auto.
    { apply nth_error_upd_eq; auto. }
    + left. split; auto. cbn [length]. lia.
    + right. exists bs2, h2. rewrite upd_upd_eq in O2. split; auto. cbn [length]. replace (I + S (length l)) with (I + 1 + length l) by lia.
      split; [|split; auto; destruct l; auto]. eapply Inv_perm; [exact laws|exact H2|]. symmetry. apply Permutation_middle.
Qed.

Definition MI (w : world K V) (ms : list (fmap K V * bool)) (I : nat) : Prop :=
  Forall2 (fun h a => Inv (h_tbl h) (fst a) I /\ wfp h (snd a)) (tabs w) ms /\ Ow (blocks w) (map owner (tabs w)).

Lemma get_ok w ms I r a : MI w ms I -> nth_error ms r = Some a ->
  exists h, get K V w r = Ok h /\ nth_error (tabs w) r = Some h /\ Inv (h_tbl h) (fst a) I /\ wfp h (snd a) /\
    nth_error (map owner (tabs w)) r = Some (owner h).
Proof.
  intros (F & O) E. destruct (F2_nth _ _ _ F _ _ E) as (h & Eh & H & W). exists h. unfold get. rewrite Eh.
  assert (X : nth_error (map owner (tabs w)) r = Some (owner h)) by (rewrite nth_error_map, Eh; reflexivity).
  split; auto. unfold alive. destruct (h_at h) as [|k|] eqn:Q; cbn [bind]; auto.
  unfold owner in X. rewrite Q in X. rewrite (ow1 _ _ O _ _ X). reflexivity.
Qed.
Lemma contents_ok h m I : Inv (h_tbl h) m I -> exists l, contents K V h = Ok l /\ Permutation l m /\ length l <= I.
Proof.
  intros H. unfold contents. rewrite (I_size _ _ _ _ _ _ _ _ H). pose proof (I_ins _ _ _ _ _ _ _ _ H). pose proof (Inv_len _ _ _ _ _ _ _ _ H).
  destruct (N.eqb_spec (N.of_nat (length m)) 0) as [Z|Z].
  - exists []. destruct m; [|cbn in Z; lia]. split; auto. split; auto. cbn. lia.
  - exists (ents K V (t_ent K V (h_tbl h))). rewrite (iterate_spec K V hash keq max_cap _ _ _ H). split; auto.
    pose proof (I_perm _ _ _ _ _ _ _ _ H) as P. split; auto. rewrite (Permutation_length P). lia.
Qed.
Lemma F2_weaken hs ms I I' : Forall2 (fun h a => Inv (h_tbl h) (fst a) I /\ wfp h (snd a)) hs ms -> I <= I' ->
  Forall2 (fun h (a : fmap K V * bool) => Inv (h_tbl h) (fst a) I' /\ wfp h (snd a)) hs ms.
Proof. intros F L. induction F as [|h a hs as' (H & W)]; constructor; auto. split; auto. eapply Inv_weaken; eauto. Qed.

Lemma step_same_out w ms I m ms' x : MI w ms I -> mspec_step K V keq dv ms m = Some (ms', x) ->
  mstep K V hash keq dv max_cap w m = Throw /\ max_cap < 3 * (I + mins_of K V m) + 2 \/
  exists w' x', mstep K V hash keq dv max_cap w m = Ok (w', x') /\ MI w' ms' (I + mins_of K V m) /\ same_out K V x' x.
Proof.
  intros M E. pose proof M as (F & O). pose proof (F2_length _ _ _ F) as FL.
  destruct m as [r o| |r|r r'|r|r r'|r|r]; cbn [mspec_step mstep mins_of] in *; rewrite ?Nat.add_0_r.
  - (* On *)
    assert (NC : o <> Copy K V) by (intros ->; discriminate).
    assert (exists f b, nth_error ms r = Some (f, b) /\ (o = Rehash K V -> f <> []) /\
       ms' = upd r (fst (spec_step K V keq dv f o), holds K V o b) ms /\ x = snd (spec_step K V keq dv f o)) as (f & b & Er & R & -> & ->).
    { destruct o; try congruence; destruct (nth_error ms r) as [(f, b)|]; try discriminate; exists f, b; (split; [auto|]).
      9:{ destruct f; [discriminate|]. cbn in E. injection E as <- <-. split; [congruence|]. split; reflexivity. }
      all: split; [congruence|]; cbn [fst snd]; destruct (spec_step _ _ _ _ _ _); injection E as <- <-; split; reflexivity. }
    clear E. destruct (get_ok _ _ _ _ _ M Er) as (h & -> & Eh & H & W & X). cbn [bind fst snd] in *.
    destruct (step_spec K V hash keq dv max_cap laws max_cap_ok _ _ _ o H) as [(-> & L)|(t & y & Es & H' & S)]; [left; auto|right].
    rewrite Es. cbn [bind].
    assert (exists bs' h', match o with Clear _ _ => clear_b K V (blocks w) h | Rehash _ _ => moved K V (blocks w) h t
                        | Copy _ _ => UB | _ => after K V (blocks w) h t end = Ok (bs', h') /\
       Inv (h_tbl h') (fst (spec_step K V keq dv f o)) (I + ins_of K V o) /\ wfp h' (holds K V o b) /\
       Ow bs' (upd r (owner h') (map owner (tabs w)))) as (bs' & h' & Eb & H2 & W2 & O2).
    { destruct (plain o) eqn:Po.
      - destruct (step_cap _ _ _ _ Po Es) as (C1 & C2).
        destruct (after_ok (blocks w) _ r h b (holds K V o b) t O X W C1) as (bs' & h' & Ea & T1 & W1 & O1).
        { intros Q. destruct o; try reflexivity; try discriminate; destruct Q; apply C2; reflexivity. }
        { intros ->. destruct o; try reflexivity; discriminate. }
        rewrite <- T1 in H'. exists bs', h'. split; auto. destruct o; try discriminate; exact Ea.
      - destruct o; try discriminate; try congruence.
        + destruct (clear_b_ok (blocks w) _ r h b f I O X W H) as (bs' & h' & -> & H1 & W1 & N1 & O1).
          exists bs', h'. split; auto. cbn [spec_step fst holds]. split; [eapply Inv_weaken; [exact H1|lia]|]. split; auto. rewrite N1. exact O1.
        + assert (C : cap h <> 0). { intros Z. destruct (inv_cap0 _ _ _ H Z) as (Z' & _). apply R; auto. }
          assert (C' : t_cap K V t <> 0).
          { cbn [step] in Es. unfold rehash, resize in Es. destruct (_ <? _); try discriminate.
            destruct (resize_loop _ _ _ _ _ _ _) as [[? ?]| | |]; cbn [bind] in Es; try discriminate. injection Es as <- _. exact C. }
          destruct (moved_ok (blocks w) _ r h b t O X W C') as (bs' & h' & -> & T1 & W1 & O1).
          exists bs', h'. rewrite T1. auto. }
    rewrite Eb. cbn [bind]. do 2 eexists. split; [reflexivity|]. split; auto. split; cbn [tabs blocks].
    + apply F2_upd; auto. eapply F2_weaken; eauto. lia.
    + rewrite map_upd. exact O2.
  - (* NewT *)
    injection E as <- <-. right. do 2 eexists. split; [reflexivity|]. split; [|reflexivity]. split; cbn [tabs blocks].
    + apply Forall2_app; auto. constructor; auto. split; [apply Inv_empty|]. reflexivity.
    + rewrite map_app. apply ow_app; auto.
  - (* CopyNew *)
    destruct (nth_error ms r) as [(f, b)|] eqn:Er; [|discriminate]. injection E as <- <-.
    destruct (get_ok _ _ _ _ _ M Er) as (h & -> & Eh & H & W & X). cbn [bind fst snd] in *.
    destruct (contents_ok _ _ _ H) as (l & -> & P & Ll). cbn [bind].
    destruct (emplace_each_ok l (blocks w) (map owner (tabs w) ++ [None]) (length (tabs w)) (fresh K V) false [] 0)
      as [(-> & L)|(bs' & h' & -> & H' & W' & O')].
    + apply ow_app; auto.
    + rewrite nth_error_app2, map_length, Nat.sub_diag by (rewrite map_length; auto). reflexivity.
    + reflexivity.
    + apply Inv_empty.
    + rewrite app_nil_r. eapply distinct_perm; [exact laws|symmetry; exact P|apply (I_dist _ _ _ _ _ _ _ _ H)].
    + left. split; auto. lia.
    + right. cbn [bind]. do 2 eexists. split; [reflexivity|]. split; [|reflexivity]. split; cbn [tabs blocks].
      * apply Forall2_app; auto. constructor; auto. split.
        -- rewrite app_nil_r in H'. eapply Inv_weaken; [eapply Inv_perm; [exact laws|exact H'|exact P]|cbn; lia].
        -- destruct l, f; auto; [apply Permutation_nil in P; discriminate|symmetry in P; apply Permutation_nil in P; discriminate].
      * rewrite map_app. cbn [map]. replace (length (tabs w)) with (length (map owner (tabs w))) in O' by apply map_length.
        rewrite upd_last in O'. exact O'.
  - (* CopyTo *)
    destruct (nth_error ms r) as [(f0, b0)|] eqn:Er; [|discriminate]. destruct (nth_error ms r') as [(f, b)|] eqn:Er'; [|discriminate].
    injection E as <- <-. destruct (get_ok _ _ _ _ _ M Er) as (h & -> & Eh & H & W & X). cbn [bind fst snd] in *.
    destruct (Nat.eqb_spec r r') as [Q|Q].
    { right. do 2 eexists. split; [reflexivity|]. split; auto. reflexivity. }
    destruct (get_ok _ _ _ _ _ M Er') as (h2 & -> & Eh2 & H2 & W2 & X2). cbn [bind fst snd] in *.
    destruct (clear_b_ok (blocks w) _ r h b0 f0 I O X W H) as (bs1 & h1 & -> & H1 & W1 & N1 & O1). cbn [bind].
    destruct (contents_ok _ _ _ H2) as (l & -> & P & Ll). cbn [bind].
    destruct (emplace_each_ok l bs1 (upd r None (map owner (tabs w))) r h1 false [] 0)
      as [(-> & L)|(bs' & h' & -> & H' & W' & O')]; auto.
    + rewrite N1. apply nth_error_upd_eq. eapply nth_lt; eauto.
    + rewrite app_nil_r. eapply distinct_perm; [exact laws|symmetry; exact P|apply (I_dist _ _ _ _ _ _ _ _ H2)].
    + left. split; auto. lia.
    + right. cbn [bind]. do 2 eexists. split; [reflexivity|]. split; [|reflexivity]. split; cbn [tabs blocks].
      * apply F2_upd; auto. split.
        -- rewrite app_nil_r in H'. eapply Inv_weaken; [eapply Inv_perm; [exact laws|exact H'|exact P]|cbn; lia].
        -- destruct l, f; auto; [apply Permutation_nil in P; discriminate|symmetry in P; apply Permutation_nil in P; discriminate].
      * rewrite map_upd. rewrite upd_upd_eq in O'. exact O'.
  - (* MoveNew *)
    destruct (nth_error ms r) as [a|] eqn:Er; [|discriminate]. injection E as <- <-.
    destruct (get_ok _ _ _ _ _ M Er) as (h & -> & Eh & H & W & X). cbn [bind]. right. do 2 eexists. split; [reflexivity|].
    split; [|reflexivity]. split; cbn [tabs blocks].
    + apply Forall2_app; auto. apply F2_upd; auto. split; [apply Inv_empty|reflexivity].
    + rewrite map_app, map_upd. cbn [map]. pose proof (nth_lt _ _ _ X) as Lr.
      pose proof (ow_move _ _ r (length (map owner (tabs w))) (owner h) (ow_app _ _ O)) as K1.
      rewrite nth_error_app1, nth_error_app2, Nat.sub_diag in K1 by lia. specialize (K1 X eq_refl ltac:(lia)).
      rewrite upd_last, upd_app in K1 by auto. exact K1.
  - (* MoveTo *)
    destruct (nth_error ms r) as [(f0, b0)|] eqn:Er; [|discriminate]. destruct (nth_error ms r') as [a|] eqn:Er'; [|discriminate].
    destruct (get_ok _ _ _ _ _ M Er) as (h & -> & Eh & H & W & X). cbn [bind fst snd] in *.
    destruct (get_ok _ _ _ _ _ M Er') as (h2 & -> & Eh2 & H2 & W2 & X2). cbn [bind]. right.
    destruct (Nat.eqb_spec r r') as [Q|Q].
    { injection E as <- <-. do 2 eexists. split; [reflexivity|]. split; auto. reflexivity. }
    destruct b0; [discriminate|]. injection E as <- <-. do 2 eexists. split; [reflexivity|]. split; [|reflexivity]. split; cbn [tabs blocks].
    + apply F2_upd; [|split; [apply Inv_empty|reflexivity]]. apply F2_upd; auto.
    + rewrite !map_upd. apply ow_move; auto. rewrite X. f_equal. unfold wfp, owner in *. destruct (h_at h); auto.
      destruct W as (_ & _ & W). discriminate.
  - (* DestroyT *)
    destruct (nth_error ms r) as [(f, b)|] eqn:Er; [|discriminate]. injection E as <- <-.
    destruct (get_ok _ _ _ _ _ M Er) as (h & -> & Eh & H & W & X). cbn [bind fst snd] in *. right.
    destruct (clear_b_ok (blocks w) _ r h b f I O X W H) as (bs1 & h1 & -> & H1 & W1 & N1 & O1). cbn [bind].
    do 2 eexists. split; [reflexivity|]. split; [|reflexivity]. split; cbn [tabs blocks].
    + apply F2_upd; auto. split; [apply Inv_empty|reflexivity].
    + rewrite map_upd. exact O1.
  - (* Load *)
    destruct (nth_error ms r) as [(f, b)|] eqn:Er; [|discriminate]. injection E as <- <-.
    destruct (get_ok _ _ _ _ _ M Er) as (h & -> & Eh & H & W & X). cbn [bind fst snd] in *. right.
    do 2 eexists. split; [reflexivity|]. split; [|reflexivity]. split; cbn [tabs blocks].
    + apply Forall2_app; auto. constructor; auto. split; auto. reflexivity.
    + rewrite map_app. apply ow_app; auto.
Qed.

Lemma mrun_ok l : forall w ms I ms' xs, MI w ms I -> mspec_run K V keq dv ms l = Some (ms', xs) ->
  mrun K V hash keq dv max_cap w l = Throw /\ max_cap < 3 * (I + minserts K V l) + 2 \/
  exists w' xs', mrun K V hash keq dv max_cap w l = Ok (w', xs') /\ MI w' ms' (I + minserts K V l) /\ Forall2 (same_out K V) xs' xs.
Proof.
  induction l as [|m l IH]; intros w ms I ms' xs M E; cbn [mspec_run mrun] in *.
  - injection E as <- <-. right. exists w, []. unfold minserts. cbn. rewrite Nat.add_0_r. auto.
  - destruct (mspec_step K V keq dv ms m) as [(ms1, x)|] eqn:E1; [|discriminate].
    destruct (mspec_run K V keq dv ms1 l) as [(ms2, ys)|] eqn:E2; [|discriminate]. injection E as <- <-.
    replace (minserts K V (m :: l)) with (mins_of K V m + minserts K V l) by reflexivity. rewrite Nat.add_assoc.
    destruct (step_same_out _ _ _ _ _ _ M E1) as [(-> & L)|(w1 & x1 & -> & M1 & S1)]; cbn [bind]. { left. split; auto. lia. }
    destruct (IH _ _ _ _ _ M1 E2) as [(-> & L)|(w2 & xs2 & -> & M2 & S2)]; cbn [bind]; [left; auto|right]. eauto 8.
Qed.

Lemma live_list bs : exists ks, NoDup ks /\ length ks = in_use bs /\ forall k, In k ks -> nth_error bs k = Some true.
Proof.
  induction bs as [|b bs (ks & N & L & A)]. { exists []. split; [constructor|]. split; auto. intros k []. }
  assert (N' : NoDup (map S ks)). { apply FinFun.Injective_map_NoDup; auto. intros x y E. congruence. }
  assert (A' : forall k, In k (map S ks) -> nth_error (b :: bs) k = Some true).
  { intros k H. apply in_map_iff in H as (j & <- & H). cbn. auto. }
  destruct b.
  - exists (0 :: map S ks). unfold in_use in *. cbn. rewrite map_length. split; [|split; [congruence|]].
    + constructor; auto. rewrite in_map_iff. intros (j & E & _). discriminate.
    + intros k [<-|H]; auto.
  - exists (map S ks). unfold in_use in *. cbn. rewrite map_length. auto.
Qed.
Lemma all_released w ms I : MI w ms I -> in_use (blocks w) <= holders ms.
Proof.
  intros (F & O). destruct (live_list (blocks w)) as (ks & N & <- & A).
  set (opt := fun o : option nat => match o with Some k => [k] | None => [] end).
  transitivity (length (flat_map opt (map owner (tabs w)))).
  - apply NoDup_incl_length; auto. intros k Hk. destruct (ow2 _ _ O _ (A k Hk)) as (r & Hr).
    apply in_flat_map. exists (Some k). split; [eapply nth_error_In; eauto|now left].
  - clear A N O ks. unfold holders, in_use. induction F as [|h (m, b) hs as' (_ & W) F IH]; cbn; auto. rewrite app_length.
    unfold wfp, owner, opt in *. cbn [snd] in *. destruct (h_at h); cbn; [|destruct W as (_ & _ & ->); cbn; lia|]; destruct b; cbn; lia.
Qed.
Lemma start_MI : MI (World [] []) [] 0.
Proof. split; [constructor|]. split; cbn; [intros [|]|intros [|]|intros [|]]; discriminate. Qed.
End P.

(* the loop of clear and its short form in HashModel *)
Lemma clear_from_spec (K V : Type) (t : tbl K V) : forall n i, i + n <= length (t_ctrl K V t) -> i + n <= length (t_ent K V t) ->
  clear_from K V t n i = destroy_all K V (combine (firstn n (skipn i (t_ctrl K V t))) (firstn n (skipn i (t_ent K V t)))).
Proof.
  induction n as [|n IH]; intros i L1 L2; cbn [clear_from]; [reflexivity|]. unfold rd_ctrl, rd_ent.
  destruct (nth_error (t_ctrl K V t) i) as [c|] eqn:E1; [|apply nth_error_None in E1; lia].
  destruct (nth_error (t_ent K V t) i) as [x|] eqn:E2; [|apply nth_error_None in E2; lia].
  assert (S : forall A (l : list A) a, nth_error l i = Some a -> skipn i l = a :: skipn (S i) l).
  { clear. intros A l. revert i. induction l as [|y l IH]; intros [|i] a H; cbn in *; try discriminate; [congruence|]. now apply IH. }
  rewrite (S _ _ _ E1), (S _ _ _ E2). cbn [bind firstn combine destroy_all]. rewrite IH by lia.
  destruct (is_full c); [|reflexivity]. destruct x; reflexivity.
Qed.
Lemma clear_loop (K V : Type) (t : tbl K V) : t_cap K V t <= length (t_ctrl K V t) -> length (t_ent K V t) = t_cap K V t ->
  clear_from K V t (t_cap K V t) 0 = destroy_all K V (combine (firstn (t_cap K V t) (t_ctrl K V t)) (t_ent K V t)).
Proof.
  intros L1 L2. rewrite clear_from_spec by lia. cbn [skipn]. f_equal. f_equal. apply firstn_all2. lia.
Qed.
