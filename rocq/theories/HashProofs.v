(* Preservation of the invariant by every operation, and refinement of a finite map. *)
From Coq Require Import Permutation.
From Verif Require Import Base Bytes ArithModel HashModel HashSpec HashBits HashProbe HashInv.

(* ---- counting ---- *)
Definition b2n (b : bool) : nat := if b then 1 else 0.
Fixpoint cnt (f : N -> bool) (l : list N) : nat :=
  match l with [] => 0 | c :: l => b2n (f c) + cnt f l end.

Lemma cnt_upd f l : forall s c, s < length l -> cnt f (upd s c l) + b2n (f (nth s l 0%N)) = cnt f l + b2n (f c).
Proof.
  induction l as [|a l IH]; intros s c H; cbn in H; [lia|]. destruct s; cbn.
  - lia.
  - specialize (IH s c ltac:(lia)). lia.
Qed.
Lemma cnt_ex f l : 0 < cnt f l -> exists s, s < length l /\ f (nth s l 0%N) = true.
Proof.
  induction l as [|a l IH]; cbn; intros H; [lia|]. destruct (f a) eqn:E.
  - exists 0. split; [lia|exact E].
  - cbn in H. destruct (IH H) as (s & Hs & F). exists (S s). split; [lia|exact F].
Qed.
Lemma cnt_sum l : (forall s, s < length l -> is_full (nth s l 0%N) = true \/ nth s l 0%N = EMPTY \/ nth s l 0%N = DELETED) ->
  cnt is_full l + cnt is_deleted l + cnt is_empty l = length l.
Proof.
  induction l as [|a l IH]; cbn [cnt length]; intros H; [reflexivity|].
  specialize (IH (fun s Hs => H (S s) ltac:(lia))).
  destruct (H 0 ltac:(lia)) as [F|[E|E]]; cbn [nth] in *.
  - rewrite F, full_not_empty, full_not_deleted by exact F. cbn [b2n]. lia.
  - rewrite E. cbn. lia.
  - rewrite E. cbn. lia.
Qed.
Lemma cnt_repeat f c n : f c = false -> cnt f (repeat c n) = 0.
Proof. intros H. induction n; cbn; auto. now rewrite H, IHn. Qed.

Definition ctg := capacity_to_growth.
Lemma ctg_lt cap : 7 <= cap -> ctg cap < cap.
Proof.
  intros H. unfold ctg, capacity_to_growth. destruct (Nat.eqb_spec cap 7); [lia|].
  assert (1 <= cap / 8); [|lia]. apply Nat.div_le_lower_bound; lia.
Qed.
Lemma ctg_le cap : ctg cap <= cap.
Proof. unfold ctg, capacity_to_growth. destruct (Nat.eqb_spec cap 7); lia. Qed.
Lemma ctg_bounds cap : 6 * cap <= 7 * ctg cap.
Proof.
  unfold ctg, capacity_to_growth. destruct (Nat.eqb_spec cap 7); [subst; lia|].
  pose proof (Nat.div_mod cap 8 ltac:(lia)). pose proof (Nat.mod_upper_bound cap 8 ltac:(lia)). lia.
Qed.
Lemma ctg_grow cap : ctg cap < ctg (cap * 2 + 1).
Proof.
  pose proof (ctg_bounds (cap * 2 + 1)). pose proof (ctg_le cap). lia.
Qed.

Lemma firstn_upd {A} n (l : list A) : forall i x, firstn n (upd i x l) = upd i x (firstn n l).
Proof. revert n; induction l; intros [|n] [|i] x; cbn; auto. now rewrite IHl. Qed.
Lemma upd_overflow {A} (l : list A) : forall i x, length l <= i -> upd i x l = l.
Proof. induction l; intros [|i] x H; cbn in *; auto; [lia|]. rewrite IHl by lia. reflexivity. Qed.
Lemma upd_idem {A} (l : list A) : forall i x y, upd i x (upd i y l) = upd i x l.
Proof. induction l; intros [|i] x y; cbn; auto. now rewrite IHl. Qed.

Section Proofs.
Variable K V : Type.
Variable hash : K -> N.
Variable keq : K -> K -> bool.
Variable dv : V.
Variable max_cap : nat.
Hypothesis laws : key_laws K keq hash.
Hypothesis max_cap_ok : cap_bounded max_cap.

Notation ent_t := (list (option (K * V))).
Notation J := (J K V hash).
Notation tbl := (tbl K V).

Definition oentry (x : option (K * V)) : list (K * V) := match x with Some e => [e] | None => [] end.
Definition ents (ent : ent_t) : list (K * V) := flat_map oentry ent.

Lemma ents_put ent s e : nth_error ent s = Some None -> Permutation (ents (upd s (Some e) ent)) (e :: ents ent).
Proof.
  revert s; induction ent as [|x ent IH]; intros [|s] H; cbn in H; try discriminate.
  - injection H as ->. reflexivity.
  - change (Permutation (oentry x ++ ents (upd s (Some e) ent)) (e :: oentry x ++ ents ent)). etransitivity.
    + apply Permutation_app_head. apply IH. exact H.
    + symmetry. apply Permutation_middle.
Qed.
Lemma ents_del ent s e : nth_error ent s = Some (Some e) -> Permutation (ents ent) (e :: ents (upd s None ent)).
Proof.
  revert s; induction ent as [|x ent IH]; intros [|s] H; cbn in H; try discriminate.
  - injection H as ->. reflexivity.
  - change (Permutation (oentry x ++ ents ent) (e :: oentry x ++ ents (upd s None ent))). etransitivity.
    + apply Permutation_app_head. apply IH. exact H.
    + symmetry. apply Permutation_middle.
Qed.
Lemma ents_In ent e : In e (ents ent) <-> exists s, nth_error ent s = Some (Some e).
Proof.
  unfold ents. rewrite in_flat_map. split.
  - intros ([x|] & HI & Q); [|destruct Q]. destruct Q as [->|[]]. now apply In_nth_error.
  - intros (s & H). exists (Some e). split; [eapply nth_error_In; eauto|now left].
Qed.
Lemma ents_None n : ents (repeat None n) = [].
Proof. induction n; auto. Qed.

(* ---- writing a control byte ---- *)
Lemma set_ctrl_spec cap ctrl ent s c : J cap ctrl ent -> s < cap -> ctrl_ok c ->
  exists ctrl', set_ctrl ctrl cap s c = Ok ctrl' /\ length ctrl' = length ctrl /\ Forall ctrl_ok ctrl' /\
    (forall q, q <= cap + 7 -> cb ctrl' q = if ((q =? s) || (q =? cap + 1 + s))%bool then c else cb ctrl q) /\
    firstn cap ctrl' = upd s c (firstn cap ctrl).
Proof.
  intros HJ Hs Hcok. pose proof (J_len _ _ _ _ _ _ HJ) as HL. pose proof (J_cap _ _ _ _ _ _ HJ) as Hc.
  unfold set_ctrl. rewrite mirror_idx by assumption.
  set (j := if s <? 8 then cap + 1 + s else s).
  assert (Hj : j < length ctrl) by (unfold j; destruct (Nat.ltb_spec s 8); lia).
  replace ((s <? length ctrl) && (j <? length ctrl))%bool with true by lia.
  eexists. split; [reflexivity|]. split; [now rewrite !upd_length|]. split.
  { apply upd_Forall; auto. apply upd_Forall; auto. apply HJ. }
  assert (A : forall q, q < length ctrl -> cb (upd j c (upd s c ctrl)) q = if ((q =? s) || (q =? j))%bool then c else cb ctrl q).
  { intros q Hq. rewrite !cb_upd, upd_length. rewrite (Nat.eqb_sym q s), (Nat.eqb_sym q j).
    replace (q <? length ctrl) with true by lia. rewrite !andb_true_r.
    destruct (s =? q), (j =? q); reflexivity. }
  split.
  - intros q Hq. rewrite A by lia. unfold j. destruct (Nat.ltb_spec s 8) as [L|L]; [reflexivity|].
    replace (q =? cap + 1 + s) with false by lia. destruct (q =? s); reflexivity.
  - rewrite !firstn_upd. unfold j. destruct (Nat.ltb_spec s 8) as [L|L].
    + apply upd_overflow. rewrite upd_length, firstn_length. lia.
    + apply upd_idem.
Qed.

Lemma J_cb_len cap ctrl ent : J cap ctrl ent -> length (firstn cap ctrl) = cap.
Proof. intros HJ. rewrite firstn_length. pose proof (J_len _ _ _ _ _ _ HJ). lia. Qed.
Lemma nth_firstn cap ctrl s : s < cap -> nth s (firstn cap ctrl) 0%N = cb ctrl s.
Proof.
  intros H. unfold cb. revert cap s H. induction ctrl; intros [|cap] [|s] H; cbn; try lia; auto.
  apply IHctrl. lia.
Qed.

Definition nfull cap ctrl := cnt is_full (firstn cap ctrl).
Definition ndel cap ctrl := cnt is_deleted (firstn cap ctrl).

Lemma count_spec cap ctrl ent : J cap ctrl ent ->
  nfull cap ctrl + ndel cap ctrl + cnt is_empty (firstn cap ctrl) = cap.
Proof.
  intros HJ. rewrite <- (J_cb_len _ _ _ HJ) at 4. apply cnt_sum. rewrite (J_cb_len _ _ _ HJ).
  intros s Hs. rewrite nth_firstn by exact Hs. eapply slot_cases; eauto.
Qed.
Lemma empty_slot cap ctrl ent : J cap ctrl ent -> nfull cap ctrl + ndel cap ctrl < cap ->
  exists s, s < cap /\ cb ctrl s = EMPTY.
Proof.
  intros HJ H. pose proof (count_spec _ _ _ HJ). destruct (cnt_ex is_empty (firstn cap ctrl) ltac:(lia)) as (s & Hs & F).
  rewrite (J_cb_len _ _ _ HJ) in Hs. exists s. split; [exact Hs|]. rewrite nth_firstn in F by exact Hs. now apply N.eqb_eq.
Qed.

Lemma nfull_ents_gen cs : forall (ent : ent_t), length cs = length ent ->
  (forall s, s < length ent -> is_full (nth s cs 0%N) = match nth_error ent s with Some (Some _) => true | _ => false end) ->
  cnt is_full cs = length (ents ent).
Proof.
  induction cs as [|c cs IH]; intros [|x ent] HL H; cbn in HL; try discriminate; [reflexivity|].
  cbn [cnt]. change (ents (x :: ent)) with (oentry x ++ ents ent). rewrite app_length. f_equal.
  - specialize (H 0 ltac:(cbn; lia)). cbn in H. rewrite H. now destruct x.
  - apply IH; [lia|]. intros s Hs. apply (H (S s)). cbn. lia.
Qed.
Lemma nfull_ents cap ctrl ent : J cap ctrl ent -> nfull cap ctrl = length (ents ent).
Proof.
  intros HJ. apply nfull_ents_gen; [rewrite (J_cb_len _ _ _ HJ); symmetry; apply HJ|].
  rewrite (J_ent _ _ _ _ _ _ HJ). intros s Hs. rewrite nth_firstn by exact Hs.
  pose proof (J_full _ _ _ _ _ _ HJ s Hs) as P. destruct (nth_error ent s) as [[e|]|]; auto.
  rewrite P. apply h2_full.
Qed.

(* ---- find_first_non_full ---- *)
Definition eod := is_empty_or_deleted.

Lemma find_first_loop_spec cap ctrl ent : J cap ctrl ent -> forall fuel o0 p0, o0 <= cap ->
  (forall p' j, p' < p0 -> j < 8 -> eod (cb ctrl (off cap o0 p' + j)) = false) ->
  (exists pe j, p0 <= pe /\ pe < p0 + fuel /\ j < 8 /\ eod (cb ctrl (off cap o0 pe + j)) = true) ->
  exists p j, j < 8 /\ find_first_loop fuel ctrl cap (seq_at cap o0 p0) = Ok ((off cap o0 p + j) mod (cap + 1)) /\
    eod (cb ctrl (off cap o0 p + j)) = true /\
    (forall j', j' < j -> eod (cb ctrl (off cap o0 p + j')) = false) /\
    (forall p' j', p' < p -> j' < 8 -> eod (cb ctrl (off cap o0 p' + j')) = false).
Proof.
  intros HJ. pose proof (J_len _ _ _ _ _ _ HJ) as HL. pose proof (J_cap _ _ _ _ _ _ HJ) as Hc.
  pose proof (J_ok _ _ _ _ _ _ HJ) as Hok.
  induction fuel as [|fuel IH]; intros o0 p0 Ho NE (pe & je & Hpe & Hf & Hje & EE); [lia|].
  cbn [find_first_loop]. unfold seq_at at 1. cbn [fst]. pose proof (off_le cap o0 p0) as Hoff.
  rewrite (group_eq ctrl) by lia. cbn [bind]. rewrite (med_eq ctrl _ Hok) by lia.
  match goal with |- context [(?m =? 0)%N] => destruct (m =? 0)%N eqn:Z end.
  - rewrite zero_spec in Z by lia. rewrite seq_at_next by exact Hc. apply IH; auto.
    + intros p' j Hp' Hj. destruct (Nat.eq_dec p' p0) as [->|]; [now apply Z|apply NE; lia].
    + exists pe, je. repeat split; auto; try lia. destruct (Nat.eq_dec pe p0) as [->|]; [|lia].
      unfold eod in EE. rewrite Z in EE by exact Hje. discriminate.
  - rewrite nonzero_spec in Z by lia.
    destruct (trailing_spec ctrl (off cap o0 p0) ltac:(lia) _ Z) as (A & B & C).
    set (j := bm_trailing _) in *. exists p0, j. split; [exact A|].
    unfold probe_offset. rewrite landn_mod by exact Hc. auto.
Qed.

Lemma find_first_spec cap ctrl ent h : J cap ctrl ent ->
  (cap < 7 \/ exists s, s < cap /\ eod (cb ctrl s) = true) ->
  let o0 := probe_start h cap in
  exists p j, j < 8 /\ find_first_non_full ctrl cap h = Ok ((off cap o0 p + j) mod (cap + 1)) /\
    eod (cb ctrl (off cap o0 p + j)) = true /\
    (forall j', j' < j -> eod (cb ctrl (off cap o0 p + j')) = false) /\
    (forall p' j', p' < p -> j' < 8 -> eod (cb ctrl (off cap o0 p' + j')) = false).
Proof.
  intros HJ HE o0. pose proof (J_cap _ _ _ _ _ _ HJ) as Hc.
  pose proof (probe_start_lt h cap Hc) as Hp. fold o0 in Hp.
  unfold find_first_non_full. fold o0. rewrite <- (seq_at_0 cap o0 Hp).
  eapply find_first_loop_spec; eauto; [lia|intros; lia|].
  destruct (window_of _ _ _ _ _ _ HJ eod o0) as (p & j & A & B & C); auto; [lia|].
  exists p, j. repeat split; auto; lia.
Qed.

(* a free slot exists: the slot returned is free, and reachable *)
Lemma find_first_free cap ctrl ent h : J cap ctrl ent ->
  (exists s, s < cap /\ eod (cb ctrl s) = true) ->
  let o0 := probe_start h cap in
  exists s p j, find_first_non_full ctrl cap h = Ok s /\ s < cap /\ eod (cb ctrl s) = true /\ j < 8 /\
    (off cap o0 p + j = s \/ off cap o0 p + j = cap + 1 + s) /\ no_empty_before ctrl cap o0 p.
Proof.
  intros HJ HE o0. pose proof (find_first_spec cap ctrl ent h HJ (or_intror HE)) as X.
  cbv zeta in X. fold o0 in X. destruct X as (p & j & Hj & E & F & M & NE). pose proof (off_le cap o0 p) as Hoff. set (q := off cap o0 p + j) in *.
  destruct (win_real _ _ _ _ _ _ HJ q ltac:(lia)) as [(s & Hs & Hq & Em & Ec)|[(_ & E1)|(C7 & G & _)]].
  - exists s, p, j. rewrite E, Em. rewrite <- Ec. repeat split; auto.
    intros p' j' Hp' Hj'. destruct (is_empty _) eqn:Q; auto. apply empty_eod in Q.
    specialize (NE p' j' Hp' Hj'). unfold eod in NE. congruence.
  - rewrite E1 in F. discriminate.
  - exfalso. destruct HE as (s0 & Hs0 & F0).
    set (q0 := if s0 <? off cap o0 p then cap + 1 + s0 else s0).
    assert (Q : off cap o0 p <= q0 /\ q0 < q) by (unfold q0; destruct (Nat.ltb_spec s0 (off cap o0 p)); lia).
    specialize (M (q0 - off cap o0 p) ltac:(lia)). replace (off cap o0 p + (q0 - off cap o0 p)) with q0 in M by lia.
    destruct (slot_pos _ _ _ _ _ _ HJ s0 q0) as (Ec & _); auto; [|lia|unfold eod in *; congruence].
    unfold q0. destruct (s0 <? off cap o0 p); auto.
Qed.

(* no free slot (only the small tables): the byte at the returned index is not DELETED *)
Lemma find_first_none cap ctrl ent h : J cap ctrl ent -> cap < 7 ->
  (forall s, s < cap -> eod (cb ctrl s) = false) ->
  exists s, find_first_non_full ctrl cap h = Ok s /\ s < length ctrl /\ is_deleted (cb ctrl s) = false.
Proof.
  intros HJ C7 HN. destruct (find_first_spec cap ctrl ent h HJ (or_introl C7)) as (p & j & Hj & E & _).
  eexists. split; [exact E|]. set (s := _ mod _).
  assert (s < cap + 1) by (apply Nat.mod_upper_bound; lia). pose proof (J_len _ _ _ _ _ _ HJ).
  split; [lia|]. destruct (is_deleted (cb ctrl s)) eqn:D; auto. apply deleted_eod in D.
  destruct (Nat.eq_dec s cap) as [Es|].
  - rewrite Es, (J_end _ _ _ _ _ _ HJ) in D. discriminate.
  - rewrite HN in D by lia. discriminate.
Qed.

(* ---- writing a free slot ---- *)
Lemma J_fill cap ctrl ent s e p j : J cap ctrl ent -> s < cap -> eod (cb ctrl s) = true ->
  let o0 := probe_start (hash (fst e)) cap in
  j < 8 -> (off cap o0 p + j = s \/ off cap o0 p + j = cap + 1 + s) -> no_empty_before ctrl cap o0 p ->
  exists ctrl', set_ctrl ctrl cap s (h2 (hash (fst e))) = Ok ctrl' /\ length ctrl' = length ctrl /\
    J cap ctrl' (upd s (Some e) ent) /\
    nfull cap ctrl' = nfull cap ctrl + 1 /\
    ndel cap ctrl' + b2n (is_deleted (cb ctrl s)) = ndel cap ctrl.
Proof.
  intros HJ Hs F o0 Hj Hq NE. set (c := h2 (hash (fst e))).
  assert (Hc : (c < 128)%N) by apply h2_lt.
  destruct (set_ctrl_spec cap ctrl ent s c HJ Hs (or_introl Hc)) as (ctrl' & E & EL & EO & EC & EF).
  exists ctrl'. split; [exact E|]. split; [exact EL|].
  assert (NF : is_full (cb ctrl s) = false).
  { destruct (is_full (cb ctrl s)) eqn:Q; auto. apply full_not_eod in Q. unfold eod in F. congruence. }
  assert (NM : forall q, q <= cap + 7 -> is_empty (cb ctrl q) = false -> is_empty (cb ctrl' q) = false).
  { intros q Hq1 Q. rewrite EC by exact Hq1. destruct (_ || _)%bool; auto. apply full_not_empty, is_full_lt, Hc. }
  pose proof (J_len _ _ _ _ _ _ HJ) as HL. pose proof (J_ent _ _ _ _ _ _ HJ) as HE.
  split; [|split].
  - constructor.
    + apply HJ.
    + lia.
    + rewrite upd_length. apply HJ.
    + exact EO.
    + rewrite EC by lia. replace ((cap =? s) || (cap =? cap + 1 + s))%bool with false by lia. apply HJ.
    + intros s' Hs'. rewrite EC by lia. destruct (_ || _)%bool; [unfold END; lia|now apply HJ].
    + intros i Hi. rewrite !EC by lia. rewrite (J_mir _ _ _ _ _ _ HJ i Hi).
      destruct (Nat.ltb_spec i cap).
      * replace (cap + 1 + i =? s) with false by lia. replace (i =? cap + 1 + s) with false by lia.
        replace (cap + 1 + i =? cap + 1 + s) with (i =? s) by lia. cbn [orb]. rewrite orb_false_r. reflexivity.
      * replace ((cap + 1 + i =? s) || (cap + 1 + i =? cap + 1 + s))%bool with false by lia. reflexivity.
    + intros s' Hs'. rewrite nth_error_upd, EC by lia. rewrite HE.
      replace (s' =? cap + 1 + s) with false by lia. rewrite (Nat.eqb_sym s s').
      destruct (Nat.eqb_spec s' s) as [->|Ne]; cbn [orb andb].
      * replace (s <? cap) with true by lia. reflexivity.
      * now apply HJ.
    + intros s' e' Ee. rewrite nth_error_upd in Ee.
      destruct (Nat.eqb_spec s s') as [->|Ne]; cbn [andb] in Ee.
      * rewrite HE in Ee. replace (s' <? cap) with true in Ee by lia. injection Ee as <-.
        exists p, j. repeat split; auto. intros p' j' Hp' Hj'. apply NM; [|now apply NE].
        pose proof (off_le cap (probe_start (hash (fst e)) cap) p'). lia.
      * destruct (J_probe _ _ _ _ _ _ HJ s' e' Ee) as (p1 & j1 & A & B & C). exists p1, j1. repeat split; auto.
        intros p' j' Hp' Hj'. apply NM; [|now apply C].
        pose proof (off_le cap (probe_start (hash (fst e')) cap) p'). lia.
  - unfold nfull. rewrite EF. pose proof (cnt_upd is_full (firstn cap ctrl) s c) as P.
    rewrite nth_firstn, NF in P by exact Hs. apply is_full_lt in Hc. rewrite Hc in P. cbn [b2n] in P.
    rewrite (J_cb_len _ _ _ HJ) in P. specialize (P Hs). lia.
  - unfold ndel. rewrite EF. pose proof (cnt_upd is_deleted (firstn cap ctrl) s c) as P.
    rewrite nth_firstn in P by exact Hs. apply is_full_lt in Hc. rewrite (full_not_deleted c) in P by exact Hc.
    cbn [b2n] in P. rewrite (J_cb_len _ _ _ HJ) in P. specialize (P Hs). lia.
Qed.

(* ---- erasing a slot ---- *)
Lemma periodic cap ctrl ent p q : J cap ctrl ent -> 7 <= cap -> p <= cap + 7 -> q <= cap + 7 ->
  p mod (cap + 1) = q mod (cap + 1) -> cb ctrl p = cb ctrl q.
Proof.
  intros HJ H7 Hp Hq E.
  destruct (win_real _ _ _ _ _ _ HJ p Hp) as [(s & Hs & _ & Em & Ec)|[(Ep & Ec)|(C7 & _)]]; [| |lia];
  destruct (win_real _ _ _ _ _ _ HJ q Hq) as [(s' & Hs' & _ & Em' & Ec')|[(Ep' & Ec')|(C7 & _)]]; try lia.
  - rewrite Ec, Ec'. congruence.
  - subst q. rewrite (Nat.mod_small cap) in E by lia. lia.
  - subst p. rewrite (Nat.mod_small cap) in E by lia. lia.
Qed.

Lemma mod_eq_of a b c n : n <> 0 -> a = b + c * n -> a mod n = b mod n.
Proof. intros H ->. now apply Nat.mod_add. Qed.

Lemma was_never_full_spec cap ctrl ent size growth s :
  J cap ctrl ent -> s < cap -> is_full (cb ctrl s) = true ->
  exists b, was_never_full K V (Tbl K V ent ctrl size cap growth) s = Ok b /\
    (b = true -> forall o j, o <= cap -> j < 8 -> (o + j = s \/ o + j = cap + 1 + s) ->
       exists j', j' < 8 /\ is_empty (cb ctrl (o + j')) = true).
Proof.
  intros HJ Hs F. pose proof (J_len _ _ _ _ _ _ HJ) as HL. pose proof (J_cap _ _ _ _ _ _ HJ) as Hc.
  pose proof (J_ok _ _ _ _ _ _ HJ) as Hok.
  assert (Hb : before s cap = (s + 8 * (cap + 1) - 8) mod (cap + 1)).
  { apply before_mod; [exact Hc|]. pose proof (pow2cap_lt cap Hc) as P. change 60%N with (N.of_nat 60) in P.
    rewrite <- of_nat_pow2 in P. lia. }
  assert (Hb' : before s cap <= cap).
  { rewrite Hb. pose proof (Nat.mod_upper_bound (s + 8 * (cap + 1) - 8) (cap + 1)). lia. }
  unfold was_never_full. cbn [t_ctrl t_cap].
  rewrite (group_eq ctrl s), (group_eq ctrl (before s cap)) by lia. cbn [bind].
  rewrite !(me_eq ctrl _ Hok) by lia.
  eexists. split; [reflexivity|]. rewrite !andb_true_iff, !negb_true_iff. intros ((Zb & Za) & LT).
  rewrite nonzero_spec in Za, Zb by lia.
  apply Nat.ltb_lt in LT. unfold WIDTH in LT.
  destruct (trailing_spec ctrl s ltac:(lia) _ Za) as (A1 & A2 & _).
  destruct (leading_spec ctrl (before s cap) ltac:(lia) _ Zb) as (B1 & B2).
  set (ta := bm_trailing _) in *. set (tb := bm_leading _) in *.
  intros o j Ho Hj Hq.
  destruct (Nat.lt_ge_cases cap 7) as [C7|C7].
  { destruct (small_window _ _ _ _ _ _ HJ C7 o Ho) as (j' & Hj' & E). exists j'. rewrite E. auto. }
  destruct (Nat.lt_ge_cases (j + ta) 8) as [L|L].
  - exists (j + ta). split; [exact L|]. rewrite <- A2. f_equal. apply (periodic _ _ _ _ _ HJ C7); try lia.
    destruct Hq as [Hq|Hq].
    + f_equal. lia.
    + apply mod_eq_of with (c := 1); lia.
  - exists (j - 1 - tb). split; [lia|]. rewrite <- B2. f_equal. apply (periodic _ _ _ _ _ HJ C7); try lia.
    rewrite Hb. rewrite Nat.add_mod_idemp_l by lia. symmetry. destruct Hq as [Hq|Hq].
    + apply mod_eq_of with (c := 8); lia.
    + apply mod_eq_of with (c := 7); lia.
Qed.

Lemma J_clear cap ctrl ent s e c : J cap ctrl ent -> nth_error ent s = Some (Some e) ->
  (c = DELETED \/ (c = EMPTY /\ forall o j, o <= cap -> j < 8 -> (o + j = s \/ o + j = cap + 1 + s) ->
       exists j', j' < 8 /\ is_empty (cb ctrl (o + j')) = true)) ->
  exists ctrl', set_ctrl ctrl cap s c = Ok ctrl' /\
    J cap ctrl' (upd s None ent) /\
    nfull cap ctrl' + 1 = nfull cap ctrl /\
    ndel cap ctrl' = ndel cap ctrl + b2n (is_deleted c).
Proof.
  intros HJ Ee Hcc. destruct (ent_full _ _ _ _ _ _ HJ s e Ee) as (Hs & Ec).
  assert (Hc : ctrl_ok c) by (unfold ctrl_ok; destruct Hcc as [->|(-> & _)]; auto).
  assert (NF : is_full c = false) by (destruct Hcc as [->|(-> & _)]; reflexivity).
  assert (NE : c <> END) by (destruct Hcc as [->|(-> & _)]; discriminate).
  destruct (set_ctrl_spec cap ctrl ent s c HJ Hs Hc) as (ctrl' & E & EL & EO & EC & EF).
  exists ctrl'. split; [exact E|].
  pose proof (J_len _ _ _ _ _ _ HJ) as HL. pose proof (J_ent _ _ _ _ _ _ HJ) as HE.
  assert (NM : forall o0 p, no_empty_before ctrl cap o0 p -> no_empty_before ctrl' cap o0 p).
  { intros o0 p H p' j' Hp' Hj'. specialize (H p'). pose proof (off_le cap o0 p') as Ho.
    rewrite EC by lia. destruct (Nat.eqb_spec (off cap o0 p' + j') s) as [Q|Q];
      [|destruct (Nat.eqb_spec (off cap o0 p' + j') (cap + 1 + s)) as [Q'|Q']]; cbn [orb]; try (now apply H).
    all: destruct Hcc as [->|(-> & W)]; [reflexivity|].
    all: destruct (W _ _ Ho Hj' ltac:(auto)) as (j2 & Hj2 & X); rewrite H in X by assumption; discriminate. }
  split; [|split].
  - constructor.
    + apply HJ.
    + lia.
    + rewrite upd_length. apply HJ.
    + exact EO.
    + rewrite EC by lia. replace ((cap =? s) || (cap =? cap + 1 + s))%bool with false by lia. apply HJ.
    + intros s' Hs'. rewrite EC by lia. destruct (_ || _)%bool; [exact NE|now apply HJ].
    + intros i Hi. rewrite !EC by lia. rewrite (J_mir _ _ _ _ _ _ HJ i Hi).
      destruct (Nat.ltb_spec i cap).
      * replace (cap + 1 + i =? s) with false by lia. replace (i =? cap + 1 + s) with false by lia.
        replace (cap + 1 + i =? cap + 1 + s) with (i =? s) by lia. cbn [orb]. rewrite orb_false_r. reflexivity.
      * replace ((cap + 1 + i =? s) || (cap + 1 + i =? cap + 1 + s))%bool with false by lia. reflexivity.
    + intros s' Hs'. rewrite nth_error_upd, EC by lia. rewrite HE.
      replace (s' =? cap + 1 + s) with false by lia. rewrite (Nat.eqb_sym s s').
      destruct (Nat.eqb_spec s' s) as [->|Ne]; cbn [orb andb].
      * replace (s <? cap) with true by lia. exact NF.
      * now apply HJ.
    + intros s' e' Ee'. rewrite nth_error_upd in Ee'.
      destruct (Nat.eqb_spec s s') as [->|Ne]; cbn [andb] in Ee'.
      * rewrite HE in Ee'. replace (s' <? cap) with true in Ee' by lia. discriminate.
      * destruct (J_probe _ _ _ _ _ _ HJ s' e' Ee') as (p1 & j1 & A & B & C). exists p1, j1. repeat split; auto.
  - unfold nfull. rewrite EF. pose proof (cnt_upd is_full (firstn cap ctrl) s c) as P.
    rewrite nth_firstn, Ec, h2_full, NF in P by exact Hs. cbn [b2n] in P.
    rewrite (J_cb_len _ _ _ HJ) in P. specialize (P Hs). lia.
  - unfold ndel. rewrite EF. pose proof (cnt_upd is_deleted (firstn cap ctrl) s c) as P.
    rewrite nth_firstn, Ec in P by exact Hs. rewrite (full_not_deleted (h2 _)) in P by apply h2_full.
    cbn [b2n] in P. rewrite (J_cb_len _ _ _ HJ) in P. specialize (P Hs). lia.
Qed.

(* overwriting the value of an entry *)
Lemma J_setval cap ctrl ent s e e' : J cap ctrl ent -> nth_error ent s = Some (Some e) -> fst e' = fst e ->
  J cap ctrl (upd s (Some e') ent).
Proof.
  intros HJ Ee Ek. destruct (ent_full _ _ _ _ _ _ HJ s e Ee) as (Hs & Ec).
  pose proof (J_ent _ _ _ _ _ _ HJ) as HE. constructor; try apply HJ.
  - rewrite upd_length. exact HE.
  - intros s' Hs'. rewrite nth_error_upd. destruct (Nat.eqb_spec s s') as [->|Ne]; cbn [andb]; [|now apply HJ].
    rewrite HE. replace (s' <? cap) with true by lia. now rewrite Ek.
  - intros s' e2 E2. rewrite nth_error_upd in E2. destruct (Nat.eqb_spec s s') as [->|Ne]; cbn [andb] in E2.
    + rewrite HE in E2. replace (s' <? cap) with true in E2 by lia. injection E2 as <-. rewrite Ek.
      now apply (J_probe _ _ _ _ _ _ HJ).
    + now apply (J_probe _ _ _ _ _ _ HJ).
Qed.

(* ---- a fresh table and resize ---- *)
Lemma cb_repeat c n p : p < n -> cb (repeat c n) p = c.
Proof. unfold cb. revert p; induction n; intros [|p] H; cbn; auto; try lia. apply IHn. lia. Qed.
Lemma nth_error_repeat_None n s : nth_error (repeat (@None (K * V)) n) s = Some None \/ nth_error (repeat (@None (K * V)) n) s = None.
Proof. revert s; induction n; intros [|s]; cbn; auto. Qed.

Lemma J_reset cap : pow2cap cap -> J cap (reset_ctrl cap) (repeat None cap).
Proof.
  intros Hc. unfold reset_ctrl, WIDTH.
  assert (A : forall p, p <= cap + 8 -> cb (upd cap END (repeat EMPTY (cap + 8 + 1))) p = if cap =? p then END else EMPTY).
  { intros p Hp. rewrite cb_upd, repeat_length. replace (p <? cap + 8 + 1) with true by lia. rewrite andb_true_r.
    destruct (cap =? p); auto. apply cb_repeat. lia. }
  constructor.
  - exact Hc.
  - rewrite upd_length, repeat_length. lia.
  - apply repeat_length.
  - apply upd_Forall; [|unfold ctrl_ok; auto]. apply Forall_forall. intros x Hx. apply repeat_spec in Hx as ->. unfold ctrl_ok; auto.
  - rewrite A by lia. now rewrite Nat.eqb_refl.
  - intros s Hs. rewrite A by lia. replace (cap =? s) with false by lia. discriminate.
  - intros i Hi. rewrite A by lia. replace (cap =? cap + 1 + i) with false by lia.
    destruct (Nat.ltb_spec i cap); auto. rewrite A by lia. now replace (cap =? i) with false by lia.
  - intros s Hs. rewrite A by lia. replace (cap =? s) with false by lia.
    destruct (nth_error_repeat_None cap s) as [->| ->]; reflexivity.
  - intros s e E. destruct (nth_error_repeat_None cap s); congruence.
Qed.
Lemma reset_counts cap : nfull cap (reset_ctrl cap) = 0 /\ ndel cap (reset_ctrl cap) = 0.
Proof.
  assert (A : firstn cap (reset_ctrl cap) = repeat EMPTY cap).
  { unfold reset_ctrl, WIDTH. rewrite firstn_upd, upd_overflow by (rewrite firstn_length; lia).
    replace (cap + 8 + 1) with (cap + 9) by lia. rewrite repeat_app.
    rewrite firstn_app, repeat_length, Nat.sub_diag, firstn_O, app_nil_r.
    rewrite <- (repeat_length EMPTY cap) at 1. apply firstn_all. }
  unfold nfull, ndel. rewrite A. split; apply cnt_repeat; reflexivity.
Qed.

Lemma resize_loop_spec cap old : forall ctrl ent, J cap ctrl ent -> ndel cap ctrl = 0 ->
  (forall c x, In (c, x) old -> is_full c = match x with Some _ => true | None => false end) ->
  nfull cap ctrl + length (ents (map snd old)) <= cap ->
  exists ctrl' ent', resize_loop K V hash cap old ctrl ent = Ok (ctrl', ent') /\
    J cap ctrl' ent' /\ ndel cap ctrl' = 0 /\ Permutation (ents ent') (ents (map snd old) ++ ents ent).
Proof.
  induction old as [|(c, x) old IH]; intros ctrl ent HJ HD HF HN; cbn [resize_loop].
  - exists ctrl, ent. split; [reflexivity|]. split; [exact HJ|]. split; [exact HD|reflexivity].
  - rewrite (HF c x (or_introl eq_refl)).
    assert (HF' : forall c x, In (c, x) old -> is_full c = match x with Some _ => true | None => false end)
      by (intros; apply HF; now right).
    cbn [map snd] in *. change (ents (x :: map snd old)) with (oentry x ++ ents (map snd old)) in *.
    rewrite app_length in HN. destruct x as [e|]; cbn [oentry length app] in *.
    + destruct (empty_slot _ _ _ HJ) as (s0 & Hs0 & E0); [lia|].
      destruct (find_first_free cap ctrl ent (hash (fst e)) HJ) as (s & p & j & -> & Hs & F & Hj & Hq & NE).
      { exists s0. rewrite E0. auto. }
      cbn [bind]. destruct (J_fill cap ctrl ent s e p j HJ Hs F Hj Hq NE) as (ctrl' & -> & _ & HJ' & C1 & C2).
      cbn [bind]. unfold put_ent. rewrite (J_ent _ _ _ _ _ _ HJ). replace (s <? cap) with true by lia. cbn [bind].
      destruct (IH ctrl' (upd s (Some e) ent)) as (c2 & e2 & -> & J2 & D2 & P2); auto; [lia|lia|].
      exists c2, e2. split; [reflexivity|]. split; [exact J2|]. split; [exact D2|]. rewrite P2.
      rewrite (ents_put ent s e).
      * symmetry. apply Permutation_middle.
      * apply (ent_none _ _ _ _ _ _ HJ s Hs). destruct (is_full (cb ctrl s)) eqn:Q; auto.
        apply full_not_eod in Q. unfold eod in F. congruence.
    + apply IH; auto.
Qed.

(* ---- the invariant of a table ---- *)
Fixpoint distinct (m : list (K * V)) : Prop :=
  match m with
  | [] => True
  | a :: m => (forall b, In b m -> keq (fst a) (fst b) = false) /\ distinct m
  end.
Lemma keq_sym_false a b : keq a b = false -> keq b a = false.
Proof. destruct laws as (_ & S & _). intros H. destruct (keq b a) eqn:E; auto. apply S in E. congruence. Qed.
Lemma distinct_perm m m' : Permutation m m' -> distinct m -> distinct m'.
Proof.
  induction 1 as [|x l l' P IH|x y l|l l' l'' _ IH1 _ IH2]; cbn; auto.
  - intros (A & B). split; auto. intros b Hb. apply A. eapply Permutation_in; [symmetry; exact P|exact Hb].
  - intros (A & B & C). repeat split; auto.
    + intros b [->|Hb]; [apply keq_sym_false; apply A; now left|now apply B].
Qed.
Lemma lookup_iff m k e : distinct m -> lookup K V keq m k = Some e <-> In e m /\ keq (fst e) k = true.
Proof.
  intros D. split.
  - intros H. apply find_some in H. exact H.
  - intros (HI & Q). unfold lookup. induction m as [|a m IH]; [destruct HI|]. destruct D as (D1 & D2). cbn [find].
    destruct HI as [->|HI]; [now rewrite Q|]. destruct (keq (fst a) k) eqn:E; [|now apply IH].
    exfalso. destruct laws as (_ & S & T & _). specialize (D1 e HI).
    rewrite (T (fst a) k (fst e)) in D1; auto; discriminate.
Qed.
Lemma lookup_none m k : lookup K V keq m k = None <-> forall e, In e m -> keq (fst e) k = false.
Proof.
  split.
  - intros H e HI. now apply (find_none _ _ H).
  - intros H. unfold lookup. destruct (find _ m) as [e|] eqn:E; auto. apply find_some in E as (A & B).
    rewrite (H e A) in B. discriminate.
Qed.

Record Inv (t : tbl) (m : list (K * V)) (I : nat) : Prop := {
  I_J : J (t_cap K V t) (t_ctrl K V t) (t_ent K V t);
  I_cnt : nfull (t_cap K V t) (t_ctrl K V t) + ndel (t_cap K V t) (t_ctrl K V t) <= ctg (t_cap K V t);
  I_growth : t_growth K V t = N.of_nat (ctg (t_cap K V t)
     - (nfull (t_cap K V t) (t_ctrl K V t) + ndel (t_cap K V t) (t_ctrl K V t)));
  I_size : t_size K V t = N.of_nat (length m);
  I_perm : Permutation (ents (t_ent K V t)) m;
  I_dist : distinct m;
  I_ins : nfull (t_cap K V t) (t_ctrl K V t) + ndel (t_cap K V t) (t_ctrl K V t) <= I;
  I_max : t_cap K V t <= max_cap
}.

Lemma Inv_len t m I : Inv t m I -> nfull (t_cap K V t) (t_ctrl K V t) = length m.
Proof. intros H. rewrite (nfull_ents _ _ _ (I_J _ _ _ H)). apply Permutation_length, H. Qed.

Lemma Inv_weaken t m I I' : Inv t m I -> I <= I' -> Inv t m I'.
Proof. intros H L. destruct H. constructor; auto; lia. Qed.
Lemma Inv_perm t m m' I : Inv t m I -> Permutation m m' -> Inv t m' I.
Proof.
  intros H P. destruct H as [H1 H2 H3 H4 H5 H6 H7 H8]. constructor; auto.
  - now rewrite <- (Permutation_length P).
  - now rewrite H5.
  - eapply distinct_perm; eauto.
Qed.

Lemma pow2cap_0 : pow2cap 0.
Proof. exists 0. split; [lia|reflexivity]. Qed.
Lemma J_empty : J 0 empty_group [].
Proof.
  constructor.
  - apply pow2cap_0.
  - cbn. lia.
  - reflexivity.
  - repeat (apply Forall_cons; [unfold ctrl_ok; auto|]). apply Forall_nil.
  - reflexivity.
  - intros s H. lia.
  - intros i Hi. do 7 (destruct i as [|i]; [reflexivity|]). lia.
  - intros s H. lia.
  - intros [|s] e H; discriminate.
Qed.
Lemma Inv_empty I : Inv (empty_tbl K V) [] I.
Proof. constructor; cbn; auto; try lia. apply J_empty. Qed.

Lemma Inv_find_pre t m I : Inv t m I ->
  t_cap K V t < 7 \/ exists s, s < t_cap K V t /\ cb (t_ctrl K V t) s = EMPTY.
Proof.
  intros H. destruct (Nat.lt_ge_cases (t_cap K V t) 7) as [|C7]; [now left|right].
  apply (empty_slot _ _ _ (I_J _ _ _ H)). pose proof (I_cnt _ _ _ H). pose proof (ctg_lt _ C7). lia.
Qed.

Lemma find_Inv t m I k : Inv t m I ->
  exists r, find_ K V hash keq t k = Ok r /\
    match r with
    | Some s => exists e, nth_error (t_ent K V t) s = Some (Some e) /\ lookup K V keq m k = Some e
    | None => lookup K V keq m k = None
    end.
Proof.
  intros H. destruct (find_spec K V hash keq _ _ _ (I_J _ _ _ H) laws (t_size K V t) (t_growth K V t) k
    (Inv_find_pre _ _ _ H)) as (r & E & F).
  assert (Et : t = Tbl K V (t_ent K V t) (t_ctrl K V t) (t_size K V t) (t_cap K V t) (t_growth K V t)) by (destruct t; reflexivity).
  rewrite <- Et in E. exists r. split; [exact E|]. destruct r as [s|]; cbn in F.
  - destruct F as (e & Ee & Q). exists e. split; [exact Ee|]. apply lookup_iff; [apply H|]. split; [|exact Q].
    eapply Permutation_in; [apply H|]. apply ents_In. eauto.
  - apply lookup_none. intros e HI. eapply Permutation_in in HI; [|symmetry; apply H].
    apply ents_In in HI as (s & Hs). eauto.
Qed.

Lemma sub64_small a b : b <= a -> (N.of_nat a < 2 ^ 60)%N -> sub64 (N.of_nat a) (N.of_nat b) = N.of_nat (a - b).
Proof.
  intros H L. unfold sub64, wrap64. change (2 ^ 60)%N with 1152921504606846976%N in L.
  rewrite (N.mod_small (N.of_nat b)) by (unfold W64; lia).
  replace (N.of_nat a + (W64 - N.of_nat b))%N with (N.of_nat (a - b) + 1 * W64)%N by (unfold W64; lia).
  rewrite N.mod_add by discriminate. apply N.mod_small. unfold W64. lia.
Qed.
Lemma add64_small a b : (N.of_nat (a + b) < W64)%N -> add64 (N.of_nat a) (N.of_nat b) = N.of_nat (a + b).
Proof. intros H. unfold add64, wrap64. rewrite N.mod_small; lia. Qed.
Lemma cap_small t m I : Inv t m I -> (N.of_nat (t_cap K V t) < 2 ^ 60)%N.
Proof. intros H. apply pow2cap_lt. apply (I_J _ _ _ H). Qed.

Lemma combine_snd {A B} (a : list A) : forall b : list B, length a = length b -> map snd (combine a b) = b.
Proof. induction a; intros [|y b] H; cbn in *; try discriminate; auto. rewrite IHa; auto. Qed.
Lemma in_combine_nth {A B} (a : list A) : forall (b : list B) x y, In (x, y) (combine a b) ->
  exists s, nth_error a s = Some x /\ nth_error b s = Some y.
Proof.
  induction a; intros [|y0 b] x y H; cbn in H; try contradiction. destruct H as [E|H].
  - injection E as -> ->. exists 0. auto.
  - destruct (IHa _ _ _ H) as (s & P). exists (S s). exact P.
Qed.
Lemma old_ok cap ctrl ent : J cap ctrl ent -> forall c x, In (c, x) (combine (firstn cap ctrl) ent) ->
  is_full c = match x with Some _ => true | None => false end.
Proof.
  intros HJ c x HI. apply in_combine_nth in HI as (s & A & B).
  assert (Hs := ent_lt _ _ _ _ _ _ HJ _ _ B).
  apply nth_error_nth with (d := 0%N) in A. rewrite nth_firstn in A by exact Hs. subst c.
  pose proof (J_full _ _ _ _ _ _ HJ s Hs) as P. rewrite B in P. destruct x; [rewrite P; apply h2_full|exact P].
Qed.

Lemma resize_spec t m I n : Inv t m I -> pow2cap n -> length m <= ctg n ->
  resize K V hash max_cap t n = Throw /\ max_cap < n \/
  exists t', resize K V hash max_cap t n = Ok t' /\ Inv t' m I /\ t_cap K V t' = n /\
    ndel (t_cap K V t') (t_ctrl K V t') = 0.
Proof.
  intros H Hn HL. unfold resize. destruct (Nat.ltb_spec max_cap n) as [L|L]; [now left|right].
  pose proof (I_J _ _ _ H) as HJ. pose proof (pow2cap_lt n Hn) as Hn60.
  destruct (reset_counts n) as (R1 & R2). pose proof (ctg_le n) as CL.
  set (old := combine _ _).
  assert (EO : map snd old = t_ent K V t).
  { apply combine_snd. rewrite (J_cb_len _ _ _ HJ). symmetry. apply HJ. }
  assert (LE : length (ents (t_ent K V t)) = length m) by (apply Permutation_length, H).
  destruct (resize_loop_spec n old _ _ (J_reset n Hn) R2) as (c' & e' & E & J' & D' & P').
  - apply (old_ok _ _ _ HJ).
  - rewrite EO, R1, LE. lia.
  - rewrite E. cbn [bind]. eexists. split; [reflexivity|]. cbn [t_cap t_ctrl].
    rewrite EO, ents_None, app_nil_r in P'.
    assert (NF : nfull n c' = length m) by (rewrite (nfull_ents _ _ _ J'), (Permutation_length P'); exact LE).
    split; [|auto]. constructor; cbn [t_cap t_ctrl t_ent t_size t_growth]; auto; rewrite ?NF, ?D'; try lia.
    + rewrite (I_size _ _ _ H). rewrite sub64_small by (fold ctg; lia). f_equal. fold ctg. lia.
    + apply H.
    + rewrite P'. apply H.
    + apply H.
    + pose proof (Inv_len _ _ _ H). pose proof (I_ins _ _ _ H). lia.
Qed.

Lemma pow2cap_grow cap : pow2cap cap -> cap * 2 + 1 <= max_cap -> pow2cap (cap * 2 + 1).
Proof.
  intros (k & Hk & E) L. exists (S k). split; [|rewrite Nat.pow_succ_r'; lia].
  assert (Q : (2 ^ N.of_nat (S k) <= 2 ^ 60)%N).
  { rewrite <- of_nat_pow2, Nat.pow_succ_r'. unfold cap_bounded in max_cap_ok. lia. }
  apply N.pow_le_mono_r_iff in Q; lia.
Qed.

(* ---- insertion ---- *)
Lemma rd_ctrl_ok t i : i < length (t_ctrl K V t) -> rd_ctrl K V t i = Ok (cb (t_ctrl K V t) i).
Proof. intros H. unfold rd_ctrl, cb. now rewrite (nth_error_nth' _ 0%N H). Qed.

Definition set_slot (t : tbl) s e := Tbl K V (upd s (Some e) (t_ent K V t)) (t_ctrl K V t) (t_size K V t) (t_cap K V t) (t_growth K V t).

Lemma insert_at t m I k s p j : Inv t m I -> lookup K V keq m k = None ->
  s < t_cap K V t -> eod (cb (t_ctrl K V t) s) = true -> j < 8 ->
  let o0 := probe_start (hash k) (t_cap K V t) in
  (off (t_cap K V t) o0 p + j = s \/ off (t_cap K V t) o0 p + j = t_cap K V t + 1 + s) ->
  no_empty_before (t_ctrl K V t) (t_cap K V t) o0 p ->
  (is_deleted (cb (t_ctrl K V t) s) = false -> t_growth K V t <> 0%N) ->
  exists t', (let* c := rd_ctrl K V t s in
      let* ctrl := set_ctrl (t_ctrl K V t) (t_cap K V t) s (h2 (hash k)) in
      Ok (Tbl K V (t_ent K V t) ctrl (add64 (t_size K V t) 1) (t_cap K V t)
          (sub64 (t_growth K V t) (if is_empty c then 1 else 0)), s)) = Ok (t', s) /\
    forall v, set_ent K V t' s (Some (k, v)) = Ok (set_slot t' s (k, v)) /\
      Inv (set_slot t' s (k, v)) ((k, v) :: m) (I + 1) /\
      nth_error (t_ent K V (set_slot t' s (k, v))) s = Some (Some (k, v)).
Proof.
  intros H HN Hs F Hj o0 Hq NE HG. pose proof (I_J _ _ _ H) as HJ.
  pose proof (J_len _ _ _ _ _ _ HJ) as HL. pose proof (J_ent _ _ _ _ _ _ HJ) as HE.
  pose proof (cap_small _ _ _ H) as HC.
  rewrite rd_ctrl_ok by lia. cbn [bind].
  destruct t as [ent ctrl size cap growth]. cbn [t_ent t_ctrl t_size t_cap t_growth] in *.
  assert (FN : is_full (cb ctrl s) = false).
  { destruct (is_full (cb ctrl s)) eqn:Q; auto. apply full_not_eod in Q. unfold eod in F. congruence. }
  assert (Hnone : nth_error ent s = Some None) by (apply (ent_none _ _ _ _ _ _ HJ s Hs FN)).
  assert (X : exists ctrl', set_ctrl ctrl cap s (h2 (hash k)) = Ok ctrl' /\ length ctrl' = length ctrl /\
    (forall v, J cap ctrl' (upd s (Some (k, v)) ent)) /\
    nfull cap ctrl' = nfull cap ctrl + 1 /\
    ndel cap ctrl' + b2n (is_deleted (cb ctrl s)) = ndel cap ctrl).
  { destruct (set_ctrl_spec cap ctrl ent s (h2 (hash k)) HJ Hs (or_introl (h2_lt _))) as (ctrl' & E & _).
    assert (Y : forall v, J cap ctrl' (upd s (Some (k, v)) ent) /\ length ctrl' = length ctrl /\ nfull cap ctrl' = nfull cap ctrl + 1 /\
       ndel cap ctrl' + b2n (is_deleted (cb ctrl s)) = ndel cap ctrl).
    { intros v. destruct (J_fill cap ctrl ent s (k, v) p j HJ Hs F Hj Hq NE) as (c2 & E2 & A & B & C & D).
      cbn [fst] in E2. rewrite E in E2. injection E2 as <-. auto. }
    exists ctrl'. split; [exact E|]. destruct (Y dv) as (_ & A & B & C). split; [exact A|]. split; [intros v; apply Y|]. auto. }
  destruct X as (ctrl' & -> & EL & HJ' & C1 & C2). cbn [bind].
  eexists. split; [reflexivity|]. intros v. unfold set_ent, put_ent, set_slot. cbn [t_ent t_ctrl t_size t_cap t_growth].
  rewrite HE. replace (s <? cap) with true by lia. cbn [bind]. split; [reflexivity|]. split.
  2:{ rewrite nth_error_upd, Nat.eqb_refl, HE. now replace (s <? cap) with true by lia. }
  pose proof (I_cnt _ _ _ H) as Cn. pose proof (I_growth _ _ _ H) as Cg. pose proof (I_ins _ _ _ H) as Ci.
  pose proof (Inv_len _ _ _ H) as Cl. pose proof (I_size _ _ _ H) as Cs.
  cbn [t_ent t_ctrl t_size t_cap t_growth] in *. pose proof (ctg_le cap) as CL.
  assert (ED : is_empty (cb ctrl s) = negb (is_deleted (cb ctrl s))).
  { destruct (slot_cases _ _ _ _ _ _ HJ s Hs) as [Q|[-> | ->]]; [congruence|reflexivity|reflexivity]. }
  change (2 ^ 60)%N with 1152921504606846976%N in HC.
  constructor; cbn [t_ent t_ctrl t_size t_cap t_growth]; auto.
  - rewrite C1. destruct (is_deleted (cb ctrl s)); cbn [b2n] in *; [lia|]. specialize (HG eq_refl). lia.
  - rewrite ED. destruct (is_deleted (cb ctrl s)); cbn [b2n negb] in *.
    + rewrite Cg. change 0%N with (N.of_nat 0). rewrite sub64_small by (try apply Nat.le_0_l; change (2 ^ 60)%N with 1152921504606846976%N; lia).
      f_equal. lia.
    + specialize (HG eq_refl). rewrite Cg. change 1%N with (N.of_nat 1). rewrite sub64_small by (change (2 ^ 60)%N with 1152921504606846976%N; lia).
      f_equal. lia.
  - rewrite Cs. change 1%N with (N.of_nat 1). rewrite add64_small by (unfold W64; lia). f_equal. cbn. lia.
  - rewrite (ents_put ent s (k, v) Hnone). apply perm_skip, H.
  - cbn. split; [|apply H]. intros b Hb. apply keq_sym_false. now apply (proj1 (lookup_none m k) HN).
  - rewrite C1. destruct (is_deleted (cb ctrl s)); cbn [b2n] in *; lia.
  - apply H.
Qed.

Lemma prepare_insert_spec t m I k : Inv t m I -> lookup K V keq m k = None ->
  prepare_insert K V hash max_cap t (hash k) = Throw /\ max_cap < 3 * I + 2 \/
  exists t' s, prepare_insert K V hash max_cap t (hash k) = Ok (t', s) /\
    forall v, set_ent K V t' s (Some (k, v)) = Ok (set_slot t' s (k, v)) /\
      Inv (set_slot t' s (k, v)) ((k, v) :: m) (I + 1) /\
      nth_error (t_ent K V (set_slot t' s (k, v))) s = Some (Some (k, v)).
Proof.
  intros H HN. pose proof (I_J _ _ _ H) as HJ. unfold prepare_insert.
  (* the table after growing *)
  assert (G : (t_growth K V t = 0)%N ->
    rehash_and_grow_if_necessary K V hash max_cap t = Throw /\ max_cap < 3 * I + 2 \/
    exists t', rehash_and_grow_if_necessary K V hash max_cap t = Ok t' /\ Inv t' m I /\
      (t_growth K V t' <> 0)%N /\ exists s, s < t_cap K V t' /\ cb (t_ctrl K V t') s = EMPTY).
  { intros G0. unfold rehash_and_grow_if_necessary.
    replace (if t_cap K V t =? 0 then 1 else t_cap K V t * 2 + 1) with (t_cap K V t * 2 + 1)
      by (destruct (Nat.eqb_spec (t_cap K V t) 0); lia).
    pose proof (I_growth _ _ _ H) as Cg. pose proof (I_cnt _ _ _ H) as Cn. pose proof (I_ins _ _ _ H) as Ci.
    pose proof (Inv_len _ _ _ H) as Cl. pose proof (ctg_bounds (t_cap K V t)). pose proof (ctg_grow (t_cap K V t)).
    destruct (Nat.lt_ge_cases max_cap (t_cap K V t * 2 + 1)) as [L|L].
    - left. unfold resize. replace (max_cap <? t_cap K V t * 2 + 1) with true by lia. split; [reflexivity|]. lia.
    - assert (P := pow2cap_grow _ (J_cap _ _ _ _ _ _ HJ) L).
      destruct (resize_spec t m I _ H P) as [(_ & ?)|(t' & E & H' & Ec & Ed)]; [lia|lia|].
      right. exists t'. split; [exact E|]. split; [exact H'|].
      pose proof (I_growth _ _ _ H') as Cg'. pose proof (Inv_len _ _ _ H') as Cl'.
      rewrite Ed, Cl', Ec in Cg'. split; [lia|].
      apply (empty_slot _ _ _ (I_J _ _ _ H')). rewrite Cl', Ed, Ec. pose proof (ctg_le (t_cap K V t * 2 + 1)). lia. }
  (* inserting into a table with growth left *)
  assert (G2 : forall t', Inv t' m I -> (t_growth K V t' <> 0)%N ->
     (exists s, s < t_cap K V t' /\ eod (cb (t_ctrl K V t') s) = true) ->
     exists t2 s, (let* target := find_first_non_full (t_ctrl K V t') (t_cap K V t') (hash k) in
        let* c := rd_ctrl K V t' target in
        let* ctrl := set_ctrl (t_ctrl K V t') (t_cap K V t') target (h2 (hash k)) in
        Ok (Tbl K V (t_ent K V t') ctrl (add64 (t_size K V t') 1) (t_cap K V t')
          (sub64 (t_growth K V t') (if is_empty c then 1 else 0)), target)) = Ok (t2, s) /\
     forall v, set_ent K V t2 s (Some (k, v)) = Ok (set_slot t2 s (k, v)) /\
      Inv (set_slot t2 s (k, v)) ((k, v) :: m) (I + 1) /\
      nth_error (t_ent K V (set_slot t2 s (k, v))) s = Some (Some (k, v))).
  { intros t' H' HG HE. destruct (find_first_free _ _ _ (hash k) (I_J _ _ _ H') HE) as (s & p & j & -> & Hs & F & Hj & Hq & NE).
    cbn [bind]. destruct (insert_at t' m I k s p j H' HN Hs F Hj Hq NE (fun _ => HG)) as (t2 & E & R).
    exists t2, s. split; [exact E|exact R]. }
  assert (G3 : (t_growth K V t = 0)%N ->
    (let* ' (t1, target) :=
       (let* t1 := rehash_and_grow_if_necessary K V hash max_cap t in
        let* target := find_first_non_full (t_ctrl K V t1) (t_cap K V t1) (hash k) in Ok (t1, target)) in
     let* c := rd_ctrl K V t1 target in
     let* ctrl := set_ctrl (t_ctrl K V t1) (t_cap K V t1) target (h2 (hash k)) in
     Ok (Tbl K V (t_ent K V t1) ctrl (add64 (t_size K V t1) 1) (t_cap K V t1)
          (sub64 (t_growth K V t1) (if is_empty c then 1 else 0)), target)) = Throw /\ max_cap < 3 * I + 2 \/
    exists t2 s, (let* ' (t1, target) :=
       (let* t1 := rehash_and_grow_if_necessary K V hash max_cap t in
        let* target := find_first_non_full (t_ctrl K V t1) (t_cap K V t1) (hash k) in Ok (t1, target)) in
     let* c := rd_ctrl K V t1 target in
     let* ctrl := set_ctrl (t_ctrl K V t1) (t_cap K V t1) target (h2 (hash k)) in
     Ok (Tbl K V (t_ent K V t1) ctrl (add64 (t_size K V t1) 1) (t_cap K V t1)
          (sub64 (t_growth K V t1) (if is_empty c then 1 else 0)), target)) = Ok (t2, s) /\
     forall v, set_ent K V t2 s (Some (k, v)) = Ok (set_slot t2 s (k, v)) /\
      Inv (set_slot t2 s (k, v)) ((k, v) :: m) (I + 1) /\
      nth_error (t_ent K V (set_slot t2 s (k, v))) s = Some (Some (k, v))).
  { intros G0. destruct (G G0) as [(-> & L)|(t1 & -> & H1 & HG & s0 & Hs0 & E0)]; [left; split; [reflexivity|exact L]|right].
    cbn [bind]. destruct (G2 t1 H1 HG) as (t2 & s & E & R); [exists s0; now rewrite E0|].
    exists t2, s. split; [|exact R]. rewrite <- E. destruct (find_first_non_full _ _ _); reflexivity. }
  destruct (existsb eod (firstn (t_cap K V t) (t_ctrl K V t))) eqn:EX.
  - apply existsb_exists in EX as (c & HI & F). apply (In_nth _ _ 0%N) in HI as (s0 & Hs0 & <-).
    rewrite (J_cb_len _ _ _ HJ) in Hs0. rewrite nth_firstn in F by exact Hs0.
    destruct (find_first_free _ _ _ (hash k) HJ (ex_intro _ s0 (conj Hs0 F))) as (s & p & j & -> & Hs & Fs & Hj & Hq & NE).
    cbn [bind]. pose proof (J_len _ _ _ _ _ _ HJ). rewrite rd_ctrl_ok by lia. cbn [bind].
    destruct ((t_growth K V t =? 0)%N && negb (is_deleted (cb (t_ctrl K V t) s)))%bool eqn:C.
    + apply G3. apply andb_true_iff in C as (C & _). now apply N.eqb_eq.
    + right. cbn [bind]. destruct (insert_at t m I k s p j H HN Hs Fs Hj Hq NE) as (t2 & E & R).
      { intros D. rewrite D in C. cbn [negb] in C. rewrite andb_true_r in C. now apply N.eqb_neq. }
      exists t2, s. split; [exact E|exact R].
  - assert (NoE : forall s, s < t_cap K V t -> eod (cb (t_ctrl K V t) s) = false).
    { intros s Hs. destruct (eod (cb (t_ctrl K V t) s)) eqn:Q; auto. apply not_true_iff_false in EX. exfalso. apply EX.
      apply existsb_exists. exists (cb (t_ctrl K V t) s). split; [|exact Q]. rewrite <- (nth_firstn (t_cap K V t)) by exact Hs.
      apply nth_In. now rewrite (J_cb_len _ _ _ HJ). }
    destruct (Inv_find_pre _ _ _ H) as [C7|(s & Hs & E)].
    2:{ specialize (NoE s Hs). rewrite E in NoE. discriminate. }
    destruct (find_first_none _ _ _ (hash k) HJ C7 NoE) as (s & -> & Hs & D).
    cbn [bind]. rewrite rd_ctrl_ok by exact Hs. cbn [bind]. rewrite D.
    assert (G0 : t_growth K V t = 0%N).
    { rewrite (I_growth _ _ _ H). pose proof (count_spec _ _ _ HJ) as CS. pose proof (ctg_le (t_cap K V t)).
      assert (Z : cnt is_empty (firstn (t_cap K V t) (t_ctrl K V t)) = 0).
      { destruct (cnt is_empty _) eqn:Z; auto. destruct (cnt_ex is_empty (firstn (t_cap K V t) (t_ctrl K V t)) ltac:(lia)) as (s1 & Hs1 & Q).
        rewrite (J_cb_len _ _ _ HJ) in Hs1. rewrite nth_firstn in Q by exact Hs1. apply empty_eod in Q.
        specialize (NoE s1 Hs1). unfold eod in NoE. congruence. }
      lia. }
    rewrite G0. cbn [N.eqb andb negb]. apply G3. exact G0.
Qed.
End Proofs.
