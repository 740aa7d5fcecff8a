(* hash_storage refines a finite map: every operation, then every history. *)
From Coq Require Import Permutation.
From Verif Require Import Base Bytes ArithModel HashModel HashSpec HashBits HashProbe HashInv HashProofs.

Section Refine.
Variable K V : Type.
Variable hash : K -> N.
Variable keq : K -> K -> bool.
Variable dv : V.
Variable max_cap : nat.
Hypothesis laws : key_laws K keq hash.
Hypothesis max_cap_ok : cap_bounded max_cap.

Notation Inv := (Inv K V hash keq max_cap).
Notation J := (J K V hash).
Notation lookup := (lookup K V keq).
Notation ents := (ents K V).

Lemma rd_ent_ok (t : tbl K V) s e : nth_error (t_ent K V t) s = Some (Some e) -> rd_ent K V t s = Ok e.
Proof. unfold rd_ent. now intros ->. Qed.

Lemma fopi_spec t m I k : Inv t m I ->
  find_or_prepare_insert K V hash keq max_cap t k = Throw /\ lookup m k = None /\ max_cap < 3 * I + 2 \/
  (exists s e, find_or_prepare_insert K V hash keq max_cap t k = Ok (t, s, false) /\
     nth_error (t_ent K V t) s = Some (Some e) /\ lookup m k = Some e) \/
  (exists t' s, find_or_prepare_insert K V hash keq max_cap t k = Ok (t', s, true) /\ lookup m k = None /\
    forall v, set_ent K V t' s (Some (k, v)) = Ok (set_slot K V t' s (k, v)) /\
      Inv (set_slot K V t' s (k, v)) ((k, v) :: m) (I + 1) /\
      nth_error (t_ent K V (set_slot K V t' s (k, v))) s = Some (Some (k, v))).
Proof.
  intros H. unfold find_or_prepare_insert.
  destruct (find_Inv K V hash keq max_cap laws t m I k H) as ([s|] & -> & R); cbn [bind].
  - destruct R as (e & A & B). right; left. exists s, e. auto.
  - destruct (prepare_insert_spec K V hash keq dv max_cap laws max_cap_ok t m I k H R) as [(-> & L)|(t' & s & -> & P)]; cbn [bind].
    + left. auto.
    + right; right. exists t', s. auto.
Qed.

Lemma emplace_spec t m I k v : Inv t m I ->
  emplace K V hash keq max_cap t (k, v) = Throw /\ max_cap < 3 * I + 2 \/
  exists t' s ins e, emplace K V hash keq max_cap t (k, v) = Ok (t', s, ins) /\
    nth_error (t_ent K V t') s = Some (Some e) /\
    match lookup m k with
    | Some e' => ins = false /\ e = e' /\ Inv t' m I
    | None => ins = true /\ e = (k, v) /\ Inv t' ((k, v) :: m) (I + 1)
    end.
Proof.
  intros H. unfold emplace. cbn [fst].
  destruct (fopi_spec t m I k H) as [(-> & _ & L)|[(s & e & -> & A & B)|(t' & s & -> & A & B)]]; cbn [bind].
  - left. auto.
  - right. exists t, s, false, e. rewrite B. auto.
  - right. destruct (B v) as (-> & C & D). cbn [bind]. exists (set_slot K V t' s (k, v)), s, true, (k, v). rewrite A. auto.
Qed.

Lemma bracket_spec t m I k : Inv t m I ->
  bracket K V hash keq dv max_cap t k = Throw /\ max_cap < 3 * I + 2 \/
  exists t' s e, bracket K V hash keq dv max_cap t k = Ok (t', s) /\
    nth_error (t_ent K V t') s = Some (Some e) /\
    match lookup m k with
    | Some e' => e = e' /\ Inv t' m I
    | None => e = (k, dv) /\ Inv t' ((k, dv) :: m) (I + 1)
    end.
Proof.
  intros H. unfold bracket.
  destruct (fopi_spec t m I k H) as [(-> & _ & L)|[(s & e & -> & A & B)|(t' & s & -> & A & B)]]; cbn [bind].
  - left. auto.
  - right. exists t, s, e. rewrite B. auto.
  - right. destruct (B dv) as (-> & C & D). cbn [bind]. exists (set_slot K V t' s (k, dv)), s, (k, dv). rewrite A. auto.
Qed.

(* changing one value *)
Lemma set_value_rest m k v : (forall e, In e m -> keq (fst e) k = false) -> set_value K V keq m k v = m.
Proof.
  intros H. unfold set_value. rewrite <- (map_id m) at 2. apply map_ext_in. intros e He. now rewrite H.
Qed.
Lemma remove_rest m k : (forall e, In e m -> keq (fst e) k = false) -> remove K V keq m k = m.
Proof.
  induction m as [|a m IH]; intros H; cbn; auto. rewrite (H a (or_introl eq_refl)). cbn [negb].
  f_equal. apply IH. intros e He. apply H. now right.
Qed.
Lemma others m e k rest : Permutation m (e :: rest) -> distinct K V keq m -> keq (fst e) k = true ->
  forall b, In b rest -> keq (fst b) k = false.
Proof.
  intros P D Q b Hb. apply (distinct_perm K V hash keq laws _ _ P) in D. destruct D as (D & _). specialize (D b Hb).
  destruct (keq (fst b) k) eqn:E; auto. destruct laws as (_ & S & T & _).
  rewrite (T (fst e) k (fst b)) in D; auto; discriminate.
Qed.
Lemma filter_perm {A} (f : A -> bool) l l' : Permutation l l' -> Permutation (filter f l) (filter f l').
Proof.
  induction 1; cbn; auto.
  - destruct (f x); auto.
  - destruct (f x), (f y); auto. apply perm_swap.
  - etransitivity; eauto.
Qed.

Lemma set_value_spec t m I s e k v : Inv t m I -> nth_error (t_ent K V t) s = Some (Some e) -> keq (fst e) k = true ->
  exists t', set_ent K V t s (Some (fst e, v)) = Ok t' /\ Inv t' (set_value K V keq m k v) I.
Proof.
  intros H E Q. destruct (ent_full _ _ _ _ _ _ (I_J _ _ _ _ _ _ _ _ H) s e E) as (Hs & _).
  pose proof (J_ent _ _ _ _ _ _ (I_J _ _ _ _ _ _ _ _ H)) as HE.
  unfold set_ent, put_ent. rewrite HE. replace (s <? t_cap K V t) with true by lia. cbn [bind].
  eexists. split; [reflexivity|].
  assert (P := ents_del K V _ _ _ E). set (rest := ents (upd s None (t_ent K V t))) in *.
  assert (Pm : Permutation m (e :: rest)) by (rewrite <- (I_perm _ _ _ _ _ _ _ _ H); exact P).
  assert (D := I_dist _ _ _ _ _ _ _ _ H).
  assert (Pv : Permutation ((fst e, v) :: rest) (set_value K V keq m k v)).
  { unfold set_value. rewrite Pm. cbn [map]. rewrite Q. apply perm_skip.
    change (map _ rest) with (set_value K V keq rest k v). rewrite set_value_rest; [reflexivity|].
    eapply others; eauto. }
  assert (Pe : Permutation (ents (upd s (Some (fst e, v)) (t_ent K V t))) ((fst e, v) :: rest)).
  { unfold rest. rewrite <- (upd_idem (t_ent K V t) s (Some (fst e, v)) None). apply ents_put.
    rewrite nth_error_upd, Nat.eqb_refl. rewrite HE. now replace (s <? t_cap K V t) with true by lia. }
  destruct H as [H1 H2 H3 H4 H5 H6 H7 H8]. constructor; cbn [t_ent t_ctrl t_size t_cap t_growth]; auto.
  - eapply J_setval; eauto.
  - unfold set_value. now rewrite map_length.
  - now rewrite Pe.
  - eapply distinct_perm; [exact laws|exact Pv|]. cbn. split.
    + intros b Hb. apply (distinct_perm K V hash keq laws _ _ Pm) in D. now apply D.
    + apply (distinct_perm K V hash keq laws _ _ Pm) in D. now apply D.
Qed.

(* ---- erase ---- *)
Lemma erase_at_spec t m I s e k : Inv t m I -> nth_error (t_ent K V t) s = Some (Some e) -> keq (fst e) k = true ->
  exists t', erase_at K V t s = Ok t' /\ Inv t' (remove K V keq m k) I /\
    t_ent K V t' = upd s None (t_ent K V t) /\ t_cap K V t' = t_cap K V t.
Proof.
  intros H E Q. assert (D := I_dist _ _ _ _ _ _ _ _ H).
  pose proof (I_J _ _ _ _ _ _ _ _ H) as HJ.
  destruct (ent_full _ _ _ _ _ _ HJ s e E) as (Hs & Ec).
  pose proof (J_ent _ _ _ _ _ _ HJ) as HE.
  unfold erase_at. rewrite (rd_ent_ok t s e E). cbn [bind].
  unfold set_ent, put_ent. rewrite HE. replace (s <? t_cap K V t) with true by lia. cbn [bind].
  destruct t as [ent ctrl size cap growth]. cbn [t_ent t_ctrl t_size t_cap t_growth] in *.
  unfold erase_meta_only. cbn [t_ent t_ctrl t_size t_cap t_growth].
  destruct (was_never_full_spec K V hash cap ctrl ent size growth s HJ Hs) as (b & B & W); [rewrite Ec; apply h2_full|].
  change (was_never_full K V (Tbl K V (upd s None ent) ctrl size cap growth) s) with
         (was_never_full K V (Tbl K V ent ctrl size cap growth) s). rewrite B. cbn [bind].
  destruct (J_clear K V hash max_cap cap ctrl ent s e (if b then EMPTY else DELETED) HJ E) as (ctrl' & -> & J' & C1 & C2).
  { destruct b; [right; split; [reflexivity|now apply W]|now left]. }
  cbn [bind]. eexists. split; [reflexivity|]. split; [|split; reflexivity].
  assert (P := ents_del K V _ _ _ E). set (rest := ents (upd s None ent)) in *.
  assert (Pm : Permutation m (e :: rest)) by (rewrite <- (I_perm _ _ _ _ _ _ _ _ H); exact P).
  assert (Pr : Permutation rest (remove K V keq m k)).
  { unfold remove. rewrite (filter_perm _ _ _ Pm). cbn [filter]. rewrite Q. cbn [negb].
    change (filter _ rest) with (remove K V keq rest k). rewrite remove_rest; [reflexivity|]. eapply others; eauto. }
  pose proof (I_cnt _ _ _ _ _ _ _ _ H) as Cn. pose proof (I_growth _ _ _ _ _ _ _ _ H) as Cg.
  pose proof (I_ins _ _ _ _ _ _ _ _ H) as Ci. pose proof (I_size _ _ _ _ _ _ _ _ H) as Cs.
  pose proof (Inv_len _ _ _ _ _ _ _ _ H) as Cl. pose proof (cap_small _ _ _ _ _ _ _ _ H) as HC.
  cbn [t_ent t_ctrl t_size t_cap t_growth] in *. pose proof (ctg_le cap) as CL.
  assert (Lr : length m = length (remove K V keq m k) + 1).
  { rewrite <- (Permutation_length Pr), (Permutation_length Pm). cbn. lia. }
  assert (Db : b2n (is_deleted (if b then EMPTY else DELETED)) = if b then 0 else 1) by (destruct b; reflexivity).
  rewrite Db in C2.
  constructor; cbn [t_ent t_ctrl t_size t_cap t_growth]; auto.
  - destruct b; lia.
  - rewrite Cg. destruct b.
    + change 1%N with (N.of_nat 1). rewrite add64_small; [f_equal; lia|].
      change (2 ^ 60)%N with 1152921504606846976%N in HC. unfold W64. lia.
    + change 0%N with (N.of_nat 0). rewrite add64_small; [f_equal; lia|].
      change (2 ^ 60)%N with 1152921504606846976%N in HC. unfold W64. lia.
  - rewrite Cs. change 1%N with (N.of_nat 1). rewrite sub64_small by lia. f_equal. lia.
  - eapply distinct_perm; [exact laws|exact Pr|].
    apply (distinct_perm K V hash keq laws _ _ Pm) in D. apply D.
  - destruct b; lia.
  - apply H.
Qed.

Lemma erase_spec t m I k : Inv t m I ->
  exists t', erase K V hash keq t k = Ok (t', match lookup m k with Some _ => 1 | None => 0 end) /\
    Inv t' (match lookup m k with Some _ => remove K V keq m k | None => m end) I.
Proof.
  intros H. unfold erase.
  destruct (find_Inv K V hash keq max_cap laws t m I k H) as ([s|] & -> & R); cbn [bind].
  2:{ rewrite R. exists t. auto. }
  destruct R as (e & E & L). rewrite L. assert (D := I_dist _ _ _ _ _ _ _ _ H).
  assert (Q : keq (fst e) k = true) by (apply (lookup_iff K V hash keq laws m k e D) in L; tauto).
  destruct (erase_at_spec t m I s e k H E Q) as (t' & -> & H' & _). cbn [bind]. eauto.
Qed.

(* ---- clear ---- *)
Lemma destroy_all_ok l : (forall c x, In (c, x) l -> is_full c = match x with Some _ => true | None => false end) ->
  destroy_all K V l = Ok tt.
Proof.
  induction l as [|(c, x) l IH]; intros H; cbn; auto.
  rewrite (H c x (or_introl eq_refl)). rewrite IH by (intros; apply H; now right). now destruct x.
Qed.
Lemma clear_spec t m I : Inv t m I -> exists t', clear K V t = Ok t' /\ Inv t' [] I.
Proof.
  intros H. unfold clear. destruct (Nat.eqb_spec (t_cap K V t) 0) as [Z|Z].
  - exists t. split; auto. eapply Inv_perm; [exact laws|exact H|].
    pose proof (J_ent _ _ _ _ _ _ (I_J _ _ _ _ _ _ _ _ H)) as HE. rewrite Z in HE.
    rewrite <- (I_perm _ _ _ _ _ _ _ _ H). destruct (t_ent K V t); [reflexivity|discriminate].
  - rewrite destroy_all_ok by (eapply (old_ok K V hash max_cap); apply H). cbn [bind]. exists (empty_tbl K V). split; auto. apply Inv_empty.
Qed.

(* ---- iteration ---- *)
Lemma skip_spec t (HJ : J (t_cap K V t) (t_ctrl K V t) (t_ent K V t)) fuel : forall i, i <= t_cap K V t -> t_cap K V t - i < fuel ->
  exists j, skip K V fuel t i = Ok j /\ i <= j <= t_cap K V t /\
    (forall s, i <= s < j -> nth_error (t_ent K V t) s = Some None) /\
    (j = t_cap K V t \/ exists e, nth_error (t_ent K V t) j = Some (Some e)).
Proof.
  pose proof (J_len _ _ _ _ _ _ HJ) as HL. pose proof (J_ok _ _ _ _ _ _ HJ) as Hok.
  induction fuel as [|fuel IH]; intros i Hi HF; [lia|]. cbn [skip]. rewrite rd_ctrl_ok by lia. cbn [bind].
  set (ctrl := t_ctrl K V t) in *. set (cap := t_cap K V t) in *.
  destruct (is_empty_or_deleted (cb ctrl i)) eqn:Q.
  - rewrite (group_eq ctrl i) by lia. cbn [bind].
    destruct (HashInv.count_spec ctrl i Hok ltac:(lia)) as (A & B & C).
    set (n := count_leading_empty_or_deleted _) in *.
    assert (N1 : 1 <= n).
    { destruct (Nat.eq_dec n 0) as [E|]; [|lia]. specialize (C ltac:(lia)). rewrite E, Nat.add_0_r in C. congruence. }
    assert (N2 : i + n <= cap).
    { destruct (Nat.le_gt_cases (i + n) cap) as [|G]; auto. specialize (B (cap - i) ltac:(lia)).
      replace (i + (cap - i)) with cap in B by lia. rewrite (J_end _ _ _ _ _ _ HJ) in B. discriminate. }
    destruct (IH (i + n) N2 ltac:(lia)) as (j & E & Hj & P & R). exists j. split; [exact E|]. split; [lia|]. split; [|exact R].
    intros s Hs. destruct (Nat.lt_ge_cases s (i + n)) as [L|L]; [|apply P; lia].
    apply (ent_none _ _ _ _ _ _ HJ); [fold cap; lia|]. specialize (B (s - i) ltac:(lia)).
    replace (i + (s - i)) with s in B by lia. fold ctrl. destruct (is_full (cb ctrl s)) eqn:F; auto.
    apply full_not_eod in F. congruence.
  - exists i. split; [reflexivity|]. split; [lia|]. split; [intros; lia|].
    destruct (Nat.eq_dec i cap) as [|Ne]; [now left|right].
    destruct (slot_cases _ _ _ _ _ _ HJ i ltac:(fold cap; lia)) as [F|[F|F]]; fold ctrl in F.
    + destruct (slot_full _ _ _ _ _ _ HJ i ltac:(fold cap; lia) F) as (e & E & _). eauto.
    + rewrite F in Q. discriminate.
    + rewrite F in Q. discriminate.
Qed.

Lemma ents_skip_none (l : list (option (K * V))) : forall i j, i <= j -> j <= length l ->
  (forall s, i <= s < j -> nth_error l s = Some None) -> ents (skipn i l) = ents (skipn j l).
Proof.
  induction l as [|x l IH]; intros i j Hij Hj H.
  - now rewrite !skipn_nil.
  - destruct j as [|j]; [replace i with 0 by lia; reflexivity|]. destruct i as [|i].
    + cbn [skipn]. pose proof (H 0 ltac:(lia)) as E. cbn in E. injection E as ->.
      change (ents (None :: l)) with (ents (skipn 0 l)). apply IH; [lia|cbn in Hj; lia|].
      intros s Hs. apply (H (S s)). lia.
    + cbn [skipn]. apply IH; [lia|cbn in Hj; lia|]. intros s Hs. apply (H (S s)). lia.
Qed.
Lemma ents_skip_cons (l : list (option (K * V))) : forall i e, nth_error l i = Some (Some e) ->
  ents (skipn i l) = e :: ents (skipn (i + 1) l).
Proof.
  induction l as [|x l IH]; intros [|i] e H; cbn in H; try discriminate.
  - injection H as ->. reflexivity.
  - cbn [skipn Nat.add]. now apply IH.
Qed.

Lemma iterate_spec t m I : Inv t m I -> iterate K V t = Ok (ents (t_ent K V t)).
Proof.
  intros H. pose proof (I_J _ _ _ _ _ _ _ _ H) as HJ. pose proof (J_ent _ _ _ _ _ _ HJ) as HE.
  assert (L : forall fuel i, t_cap K V t - i < fuel -> i <= t_cap K V t ->
     (i = t_cap K V t \/ exists e, nth_error (t_ent K V t) i = Some (Some e)) ->
     iterate_from K V fuel t i = Ok (ents (skipn i (t_ent K V t)))).
  { induction fuel as [|fuel IH]; intros i HF Hi R; [lia|]. cbn [iterate_from].
    destruct (Nat.eqb_spec i (t_cap K V t)) as [->|Ne].
    - rewrite <- HE, skipn_all. reflexivity.
    - destruct R as [|(e & E)]; [lia|]. rewrite (rd_ent_ok t i e E). cbn [bind].
      unfold next_. destruct (skip_spec t HJ (S (t_cap K V t)) (i + 1)) as (j & -> & Hj & P & R); [lia|lia|]. cbn [bind].
      rewrite IH by (auto; lia). cbn [bind]. f_equal. rewrite (ents_skip_cons _ _ _ E). f_equal. symmetry.
      apply ents_skip_none; auto; lia. }
  unfold iterate, begin_. destruct (skip_spec t HJ (S (t_cap K V t)) 0) as (j & -> & Hj & P & R); [lia|lia|]. cbn [bind].
  rewrite L by (auto; lia). f_equal. symmetry. change (t_ent K V t) with (skipn 0 (t_ent K V t)) at 1.
  apply ents_skip_none; auto; lia.
Qed.

(* ---- copying ---- *)
Lemma emplace_all_spec l : forall t m I, Inv t m I -> distinct K V keq (l ++ m) ->
  emplace_all K V hash keq max_cap t l = Throw /\ max_cap < 3 * (I + length l) + 2 \/
  exists t', emplace_all K V hash keq max_cap t l = Ok t' /\ Inv t' (l ++ m) (I + length l).
Proof.
  induction l as [|(k, v) l IH]; intros t m I H D.
  - right. exists t. cbn. rewrite Nat.add_0_r. auto.
  - cbn [app] in D. cbn [emplace_all].
    assert (D' : distinct K V keq (l ++ (k, v) :: m)).
    { eapply distinct_perm; [exact laws|apply Permutation_middle|exact D]. }
    destruct (emplace_spec t m I k v H) as [(-> & L)|(t' & s & ins & e & -> & _ & R)]; cbn [bind].
    + left. split; auto. cbn [length]. lia.
    + assert (N0 : lookup m k = None).
      { apply lookup_none. intros b Hb. apply (keq_sym_false K hash keq laws). apply D. apply in_or_app. now right. }
      rewrite N0 in R. destruct R as (_ & _ & R).
      destruct (IH t' ((k, v) :: m) (I + 1) R D') as [(E & L)|(t2 & E & R2)].
      * left. split; auto. cbn [length]. lia.
      * right. exists t2. split; auto. cbn [length app].
        eapply Inv_weaken; [eapply Inv_perm; [exact laws|exact R2|]|lia]. symmetry. apply Permutation_middle.
Qed.

Lemma copy_spec t m I : Inv t m I ->
  copy_construct K V hash keq max_cap t = Throw /\ max_cap < 3 * I + 2 \/
  exists t', copy_construct K V hash keq max_cap t = Ok t' /\ Inv t' m I.
Proof.
  intros H. unfold copy_construct. rewrite (I_size _ _ _ _ _ _ _ _ H).
  destruct (N.eqb_spec (N.of_nat (length m)) 0) as [Z|Z].
  - right. exists (empty_tbl K V). split; auto. destruct m; [|cbn in Z; lia]. apply Inv_empty.
  - rewrite (iterate_spec _ _ _ H). cbn [bind].
    assert (P := I_perm _ _ _ _ _ _ _ _ H).
    assert (LI : length (ents (t_ent K V t)) <= I).
    { rewrite (Permutation_length P). pose proof (Inv_len _ _ _ _ _ _ _ _ H). pose proof (I_ins _ _ _ _ _ _ _ _ H). lia. }
    destruct (emplace_all_spec (ents (t_ent K V t)) _ _ 0 (Inv_empty K V hash keq max_cap 0)) as [(E & L)|(t' & E & R)].
    + rewrite app_nil_r. eapply distinct_perm; [exact laws|symmetry; exact P|apply H].
    + left. split; auto. lia.
    + right. exists t'. split; auto. rewrite app_nil_r in R.
      eapply Inv_weaken; [eapply Inv_perm; [exact laws|exact R|exact P]|lia].
Qed.

(* ---- histories ---- *)
Notation ins_of := (ins_of K V).
Notation inserts := (inserts K V).

Lemma lookup_keq m k e : lookup m k = Some e -> keq (fst e) k = true.
Proof. intros H. apply find_some in H. tauto. Qed.

Lemma step_spec t m I o : Inv t m I ->
  step K V hash keq dv max_cap t o = Throw /\ max_cap < 3 * (I + ins_of o) + 2 \/
  exists t' x, step K V hash keq dv max_cap t o = Ok (t', x) /\
    Inv t' (fst (spec_step K V keq dv m o)) (I + ins_of o) /\
    same_out K V x (snd (spec_step K V keq dv m o)).
Proof.
  intros H. destruct o as [k v|k v|k|k|k|k|k| | | | | ]; cbn [step ins_of]; rewrite ?Nat.add_0_r.
  - (* Emplace *)
    destruct (emplace_spec t m I k v H) as [(-> & L)|(t' & s & ins & e & -> & E & R)]; cbn [bind]; [left; split; auto; lia|right].
    rewrite (rd_ent_ok _ _ _ E). cbn [bind spec_step]. eexists _, _. split; [reflexivity|].
    destruct (lookup m k) as [e'|]; destruct R as (-> & -> & R); cbn [fst snd same_out]; split; auto.
    eapply Inv_weaken; [exact R|lia].
  - (* Assign *)
    destruct (bracket_spec t m I k H) as [(-> & L)|(t' & s & e & -> & E & R)]; cbn [bind]; [left; split; auto; lia|right].
    rewrite (rd_ent_ok _ _ _ E). cbn [bind spec_step].
    destruct (lookup m k) as [e'|] eqn:LK; destruct R as (-> & R).
    + destruct (set_value_spec t' m I s e' k v R E (lookup_keq _ _ _ LK)) as (t2 & -> & R2). cbn [bind].
      eexists _, _. split; [reflexivity|]. cbn [fst snd same_out]. split; auto. eapply Inv_weaken; [exact R2|lia].
    + assert (KK : keq k k = true) by (destruct laws as (RR & _); apply RR).
      destruct (set_value_spec t' _ _ s _ k v R E KK) as (t2 & -> & R2). cbn [bind].
      eexists _, _. split; [reflexivity|]. cbn [fst snd same_out]. split; auto.
      unfold set_value in R2. cbn [map fst] in R2. rewrite KK in R2.
      change (map _ m) with (set_value K V keq m k v) in R2.
      rewrite set_value_rest in R2 by (now apply lookup_none). exact R2.
  - (* Bracket *)
    destruct (bracket_spec t m I k H) as [(-> & L)|(t' & s & e & -> & E & R)]; cbn [bind]; [left; split; auto; lia|right].
    rewrite (rd_ent_ok _ _ _ E). cbn [bind spec_step]. eexists _, _. split; [reflexivity|].
    destruct (lookup m k) as [e'|]; destruct R as (-> & R); cbn [fst snd same_out]; split; auto.
    eapply Inv_weaken; [exact R|lia].
  - (* Find *)
    right. destruct (find_Inv K V hash keq max_cap laws t m I k H) as ([s|] & -> & R); cbn [bind spec_step].
    + destruct R as (e & E & LK). rewrite (rd_ent_ok _ _ _ E). cbn [bind].
      eexists _, _. split; [reflexivity|]. cbn [fst snd same_out]. split; auto. congruence.
    + eexists _, _. split; [reflexivity|]. cbn [fst snd same_out]. split; auto. congruence.
  - (* At *)
    right. destruct (find_Inv K V hash keq max_cap laws t m I k H) as ([s|] & -> & R); cbn [bind spec_step].
    + destruct R as (e & E & LK). rewrite (rd_ent_ok _ _ _ E). cbn [bind].
      eexists _, _. split; [reflexivity|]. rewrite LK. cbn [fst snd same_out]. split; auto.
    + eexists _, _. split; [reflexivity|]. rewrite R. cbn [fst snd same_out]. split; auto.
  - (* Get *)
    right. destruct (find_Inv K V hash keq max_cap laws t m I k H) as ([s|] & -> & R); cbn [bind spec_step].
    + destruct R as (e & E & LK). rewrite (rd_ent_ok _ _ _ E). cbn [bind].
      eexists _, _. split; [reflexivity|]. rewrite LK. cbn [fst snd same_out option_map]. split; auto.
    + eexists _, _. split; [reflexivity|]. rewrite R. cbn [fst snd same_out option_map]. split; auto.
  - (* Erase *)
    right. destruct (erase_spec t m I k H) as (t' & -> & R). cbn [bind spec_step].
    eexists _, _. split; [reflexivity|]. destruct (lookup m k); cbn [fst snd same_out]; split; auto.
  - (* Clear *)
    right. destruct (clear_spec t m I H) as (t' & -> & R). cbn [bind spec_step].
    eexists _, _. split; [reflexivity|]. cbn [fst snd same_out]. split; auto.
  - (* Rehash *)
    right. unfold rehash. destruct (resize_spec K V hash keq max_cap t m I (t_cap K V t) H) as [(_ & L)|(t' & -> & R & _)].
    + apply (I_J _ _ _ _ _ _ _ _ H).
    + pose proof (Inv_len _ _ _ _ _ _ _ _ H). pose proof (I_cnt _ _ _ _ _ _ _ _ H). lia.
    + pose proof (I_max _ _ _ _ _ _ _ _ H). lia.
    + cbn [bind spec_step]. eexists _, _. split; [reflexivity|]. cbn [fst snd same_out]. split; auto.
  - (* Size *)
    right. eexists _, _. split; [reflexivity|]. cbn [spec_step fst snd same_out]. split; auto.
    now rewrite (I_size _ _ _ _ _ _ _ _ H).
  - (* Iterate *)
    right. rewrite (iterate_spec _ _ _ H). cbn [bind]. eexists _, _. split; [reflexivity|].
    cbn [spec_step fst snd same_out]. split; auto. apply H.
  - (* Copy *)
    destruct (copy_spec t m I H) as [(-> & L)|(t' & -> & R)]; cbn [bind]; [left; auto|right].
    eexists _, _. split; [reflexivity|]. cbn [spec_step fst snd same_out]. split; auto.
Qed.

Lemma run_spec ops : forall t m I, Inv t m I ->
  run K V hash keq dv max_cap t ops = Throw /\ max_cap < 3 * (I + inserts ops) + 2 \/
  exists t' xs, run K V hash keq dv max_cap t ops = Ok (t', xs) /\
    Inv t' (fst (spec_run K V keq dv m ops)) (I + inserts ops) /\
    Forall2 (same_out K V) xs (snd (spec_run K V keq dv m ops)).
Proof.
  induction ops as [|o ops IH]; intros t m I H; cbn [run spec_run].
  - right. exists t, []. cbn. rewrite Nat.add_0_r. auto.
  - change (inserts (o :: ops)) with (ins_of o + inserts ops). rewrite Nat.add_assoc.
    destruct (step_spec t m I o H) as [(-> & L)|(t' & x & -> & R & S)]; cbn [bind].
    + left. split; auto. lia.
    + destruct (spec_step K V keq dv m o) as (m' & x'). cbn [fst snd] in *.
      destruct (IH t' m' (I + ins_of o) R) as [(-> & L)|(t2 & xs & -> & R2 & S2)]; cbn [bind].
      * left. auto.
      * right. destruct (spec_run K V keq dv m' ops) as (m2 & xs'). cbn [fst snd] in *.
        exists t2, (x :: xs). auto.
Qed.

(* ---- operator== ---- *)
Lemma all_in_spec veq b mb Ib l : Inv b mb Ib ->
  all_in K V hash keq veq b l =
  Ok (forallb (fun e => match lookup mb (fst e) with Some x => veq (snd e) (snd x) | None => false end) l).
Proof.
  intros H. induction l as [|e l IH]; cbn [all_in forallb]; auto.
  destruct (find_Inv K V hash keq max_cap laws b mb Ib (fst e) H) as ([s|] & -> & R); cbn [bind].
  - destruct R as (x & E & ->). rewrite (rd_ent_ok _ _ _ E). cbn [bind]. destruct (veq (snd e) (snd x)); cbn [andb]; auto.
  - now rewrite R.
Qed.

Lemma lookup_cong m k k' : keq k k' = true -> lookup m k = lookup m k'.
Proof.
  intros Q. destruct laws as (_ & S & T & _). unfold HashSpec.lookup. induction m as [|a m IH]; cbn [find]; auto.
  assert (E : keq (fst a) k = keq (fst a) k').
  { destruct (keq (fst a) k) eqn:A, (keq (fst a) k') eqn:B; auto.
    - rewrite (T _ _ _ A Q) in B. discriminate.
    - rewrite (T _ _ _ B (S _ _ Q)) in A. discriminate. }
  rewrite E, IH. reflexivity.
Qed.

Lemma equal_spec veq a ma Ia b mb Ib : Inv a ma Ia -> Inv b mb Ib ->
  exists r, equal K V hash keq veq a b = Ok r /\ (r = true <-> map_equal K V keq veq ma mb).
Proof.
  intros HA HB. unfold equal. rewrite (I_size _ _ _ _ _ _ _ _ HA), (I_size _ _ _ _ _ _ _ _ HB).
  destruct (N.eqb_spec (N.of_nat (length ma)) (N.of_nat (length mb))) as [E|E].
  2:{ exists false. split; [reflexivity|]. split; [discriminate|]. intros (L & _). lia. }
  rewrite (iterate_spec _ _ _ HA). cbn [bind]. rewrite (all_in_spec veq b mb Ib _ HB).
  eexists. split; [reflexivity|]. rewrite forallb_forall.
  assert (P := I_perm _ _ _ _ _ _ _ _ HA). assert (D := I_dist _ _ _ _ _ _ _ _ HA). split.
  - intros H. split; [lia|]. intros k e LK. apply (lookup_iff K V hash keq laws ma k e D) in LK as (HI & Q).
    specialize (H e (Permutation_in _ (Permutation_sym P) HI)).
    rewrite (lookup_cong mb _ _ Q) in H. destruct (lookup mb k) as [x|] eqn:LB; [|discriminate]. eauto.
  - intros (_ & H) e HI. apply (Permutation_in _ P) in HI.
    destruct (H (fst e) e) as (x & -> & Q); [|exact Q]. apply (lookup_iff K V hash keq laws ma _ e D).
    split; [exact HI|]. destruct laws as (R & _). apply R.
Qed.

Lemma distinct_nodup l : distinct K V keq l -> NoDup l.
Proof.
  induction l as [|a l IH]; intros D; constructor.
  - intros HI. destruct D as (D & _). specialize (D a HI). destruct laws as (R & _). rewrite R in D. discriminate.
  - apply IH, D.
Qed.
Lemma distinct_pairs l : distinct K V keq l -> ForallOrdPairs (fun a b => keq (fst a) (fst b) = false) l.
Proof. induction l as [|a l IH]; intros D; constructor; [apply Forall_forall, D|apply IH, D]. Qed.

(* any table reached by a history *)
Lemma reach ops t xs : run K V hash keq dv max_cap (empty_tbl K V) ops = Ok (t, xs) ->
  Inv t (fst (spec_run K V keq dv [] ops)) (inserts ops) /\
  Forall2 (same_out K V) xs (snd (spec_run K V keq dv [] ops)).
Proof.
  intros E. destruct (run_spec ops _ [] 0 (Inv_empty K V hash keq max_cap 0)) as [(E' & _)|(t' & xs' & E' & R & S)];
    rewrite E' in E; [discriminate|]. injection E as -> ->. auto.
Qed.

Lemma iterate_final ops t xs : run K V hash keq dv max_cap (empty_tbl K V) ops = Ok (t, xs) ->
  exists l, iterate K V t = Ok l /\ Permutation l (fst (spec_run K V keq dv [] ops)) /\
    ForallOrdPairs (fun a b => keq (fst a) (fst b) = false) l /\ t_size K V t = N.of_nat (length l).
Proof.
  intros E. apply reach in E as (R & _). exists (ents (t_ent K V t)). split; [eapply iterate_spec; eauto|].
  split; [apply R|]. split; [|rewrite (I_size _ _ _ _ _ _ _ _ R), (Permutation_length (I_perm _ _ _ _ _ _ _ _ R)); reflexivity]. apply distinct_pairs. eapply distinct_perm; [exact laws|symmetry; apply R|apply R].
Qed.

Lemma no_ub ops : run K V hash keq dv max_cap (empty_tbl K V) ops <> UB /\
  run K V hash keq dv max_cap (empty_tbl K V) ops <> Fuel.
Proof.
  destruct (run_spec ops _ [] 0 (Inv_empty K V hash keq max_cap 0)) as [(-> & _)|(t & xs & -> & _)]; split; discriminate.
Qed.
Lemma refines ops : 3 * inserts ops + 2 <= max_cap ->
  exists t xs, run K V hash keq dv max_cap (empty_tbl K V) ops = Ok (t, xs) /\
    Forall2 (same_out K V) xs (snd (spec_run K V keq dv [] ops)).
Proof.
  intros L. destruct (run_spec ops _ [] 0 (Inv_empty K V hash keq max_cap 0)) as [(_ & ?)|(t & xs & -> & _ & S)].
  - cbn [Nat.add] in *. lia.
  - eauto.
Qed.
Lemma find_terminates ops t xs k : run K V hash keq dv max_cap (empty_tbl K V) ops = Ok (t, xs) ->
  exists r, find_ K V hash keq t k = Ok r.
Proof.
  intros E. apply reach in E as (R & _).
  destruct (find_Inv K V hash keq max_cap laws t _ _ k R) as (r & -> & _). eauto.
Qed.
Lemma cap_load ops t xs : run K V hash keq dv max_cap (empty_tbl K V) ops = Ok (t, xs) ->
  (exists k, t_cap K V t + 1 = 2 ^ k) /\
  (8 * t_size K V t <= 7 * (N.of_nat (t_cap K V t) + 1))%N /\
  (7 <= t_cap K V t -> exists s, s < t_cap K V t /\ nth_error (t_ctrl K V t) s = Some EMPTY).
Proof.
  intros E. apply reach in E as (R & _). pose proof (I_J _ _ _ _ _ _ _ _ R) as HJ.
  split; [|split].
  - destruct (J_cap _ _ _ _ _ _ HJ) as (k & _ & E). eauto.
  - rewrite (I_size _ _ _ _ _ _ _ _ R), <- (Inv_len _ _ _ _ _ _ _ _ R).
    pose proof (I_cnt _ _ _ _ _ _ _ _ R) as C. unfold ctg, capacity_to_growth in C.
    destruct (Nat.eqb_spec (t_cap K V t) 7); [lia|].
    pose proof (Nat.div_mod (t_cap K V t) 8 ltac:(lia)) as D. pose proof (Nat.mod_upper_bound (t_cap K V t) 8 ltac:(lia)). lia.
  - intros H7. destruct (Inv_find_pre _ _ _ _ _ _ _ _ R) as [|(s & Hs & E)]; [lia|]. exists s. split; [exact Hs|].
    rewrite (nth_error_nth' _ 0%N); [unfold cb in E; now rewrite E|]. pose proof (J_len _ _ _ _ _ _ HJ). lia.
Qed.
Lemma equal_final ops1 t1 xs1 ops2 t2 xs2 veq :
  run K V hash keq dv max_cap (empty_tbl K V) ops1 = Ok (t1, xs1) ->
  run K V hash keq dv max_cap (empty_tbl K V) ops2 = Ok (t2, xs2) ->
  exists r, equal K V hash keq veq t1 t2 = Ok r /\
    (r = true <-> map_equal K V keq veq (fst (spec_run K V keq dv [] ops1)) (fst (spec_run K V keq dv [] ops2))).
Proof. intros E1 E2. apply reach in E1 as (R1 & _). apply reach in E2 as (R2 & _). eapply equal_spec; eauto. Qed.
End Refine.
