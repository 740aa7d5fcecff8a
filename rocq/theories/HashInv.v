(* Invariant of hash_storage and the lemmas about windows of control bytes. *)
From Coq Require Import Permutation.
From Verif Require Import Base Bytes ArithModel HashModel HashSpec HashBits HashProbe.

Definition cb (ctrl : list N) (p : nat) : N := nth p ctrl 0%N.

Lemma cb_upd ctrl i j c : cb (upd i c ctrl) j = if ((i =? j) && (j <? length ctrl))%bool then c else cb ctrl j.
Proof. unfold cb. apply nth_upd. Qed.

Lemma nth_slice {A} i n (l : list A) j d : j < n -> nth j (slice i n l) d = nth (i + j) l d.
Proof.
  intros H. rewrite !nth_default_eq || idtac.
  destruct (nth_error (slice i n l) j) eqn:E.
  - rewrite (nth_error_nth _ _ _ E). rewrite nth_error_slice in E.
    replace (j <? n) with true in E by lia. now rewrite (nth_error_nth _ _ _ E).
  - rewrite nth_overflow by (now apply nth_error_None). rewrite nth_error_slice in E.
    replace (j <? n) with true in E by lia. now rewrite nth_overflow by (now apply nth_error_None).
Qed.

Lemma Forall_slice {A} (P : A -> Prop) i n l : Forall P l -> Forall P (slice i n l).
Proof.
  intros H. unfold slice. rewrite Forall_forall in *. intros x Hx. apply H.
  rewrite <- (firstn_skipn i l). apply in_or_app. right.
  rewrite <- (firstn_skipn n (skipn i l)). apply in_or_app. now left.
Qed.

Lemma forallb_negb_nth bs : forallb negb bs = true <-> forall j, nth j bs false = false.
Proof.
  split.
  - intros H j. destruct (nth_in_or_default j bs false) as [HI|]; auto.
    rewrite forallb_forall in H. apply H in HI. now destruct (nth j bs false).
  - intros H. apply forallb_forall. intros x Hx. apply (In_nth _ _ false) in Hx as (j & _ & <-).
    now rewrite H.
Qed.

(* ---- a group loaded at [o] ---- *)
Section Window.
Variables (ctrl : list N) (o : nat).
Hypothesis Hok : Forall ctrl_ok ctrl.
Hypothesis Hlen : o + 8 <= length ctrl.
Let l := slice o 8 ctrl.

Lemma win_len : length l = 8.
Proof. unfold l. rewrite slice_length. lia. Qed.
Lemma win_ctrl_ok : Forall ctrl_ok l.
Proof. now apply Forall_slice. Qed.
Lemma win_bytes : bytes_ok l.
Proof. eapply Forall_impl; [apply ctrl_ok_byte|apply win_ctrl_ok]. Qed.
Lemma win_nth j : j < 8 -> nth j l 0%N = cb ctrl (o + j).
Proof. intros. now apply nth_slice. Qed.
Lemma group_eq : group ctrl o = Ok (le_dec l).
Proof. unfold group. rewrite get_some by (unfold WIDTH; lia). reflexivity. Qed.

Lemma nth_map_flag (f : N -> bool) j : j < 8 -> nth j (map f l) false = f (cb ctrl (o + j)).
Proof.
  intros H. rewrite (nth_indep _ false (f 0%N)) by (rewrite map_length, win_len; exact H).
  now rewrite map_nth, win_nth.
Qed.

Lemma nth_flag_big (f : N -> bool) j : 8 <= j -> nth j (map f l) false = false.
Proof. intros H. apply nth_overflow. now rewrite map_length, win_len. Qed.

Lemma me_eq : match_empty (le_dec l) = le_dec (map flag (map is_empty l)).
Proof.
  rewrite match_empty_flags by (apply win_bytes || apply win_len).
  f_equal. f_equal. apply map_flags_eq; [apply empty_flag_spec|apply win_ctrl_ok].
Qed.
Lemma med_eq : match_empty_or_deleted (le_dec l) = le_dec (map flag (map is_empty_or_deleted l)).
Proof.
  rewrite match_eod_flags by (apply win_bytes || apply win_len).
  f_equal. f_equal. apply map_flags_eq; [apply eod_flag_spec|apply win_ctrl_ok].
Qed.

Lemma zero_spec (f : N -> bool) :
  (le_dec (map flag (map f l)) =? 0)%N = true <-> forall j, j < 8 -> f (cb ctrl (o + j)) = false.
Proof.
  destruct (mask_facts_of (map f l)) as (_ & _ & _ & ->); [now rewrite map_length, win_len|].
  rewrite forallb_negb_nth. split; intros H j.
  - intros Hj. rewrite <- nth_map_flag by assumption. apply H.
  - destruct (Nat.lt_ge_cases j 8); [now rewrite nth_map_flag; auto|now apply nth_flag_big].
Qed.
Lemma nonzero_spec (f : N -> bool) :
  (le_dec (map flag (map f l)) =? 0)%N = false <-> exists j, j < 8 /\ f (cb ctrl (o + j)) = true.
Proof.
  split.
  - intros H. destruct (first_true_le (map f l)) as []; cycle 1.
    all: destruct (Nat.lt_ge_cases (first_true (map f l)) 8) as [L|L].
    all: try (exists (first_true (map f l)); split; [exact L|];
      rewrite <- nth_map_flag by exact L; apply first_true_spec; rewrite map_length, win_len; exact L).
    all: exfalso; apply not_true_iff_false in H; apply H; apply zero_spec; intros j Hj;
      rewrite <- nth_map_flag by exact Hj; apply first_true_none;
      pose proof (first_true_le (map f l)); rewrite map_length, win_len in *; lia.
  - intros (j & Hj & E). apply not_true_iff_false. intros H. rewrite zero_spec in H. now rewrite (H j Hj) in E.
Qed.
Lemma trailing_spec (f : N -> bool) : (exists j, j < 8 /\ f (cb ctrl (o + j)) = true) ->
  let t := bm_trailing (le_dec (map flag (map f l))) in
  t < 8 /\ f (cb ctrl (o + t)) = true /\ forall j, j < t -> f (cb ctrl (o + j)) = false.
Proof.
  intros (j & Hj & E) t.
  assert (Et : t = first_true (map f l)).
  { unfold t. destruct (mask_facts_of (map f l)) as (_ & -> & _); [now rewrite map_length, win_len|reflexivity]. }
  assert (L : first_true (map f l) <= j) by (apply first_true_min; now rewrite nth_map_flag).
  destruct (first_true_spec (map f l)) as (A & B); [rewrite map_length, win_len; lia|].
  rewrite Et. split; [lia|split].
  - rewrite <- nth_map_flag by lia. exact A.
  - intros i Hi. rewrite <- nth_map_flag by lia. now apply B.
Qed.
Lemma leading_spec (f : N -> bool) : (exists j, j < 8 /\ f (cb ctrl (o + j)) = true) ->
  let t := bm_leading (le_dec (map flag (map f l))) in
  t < 8 /\ f (cb ctrl (o + (7 - t))) = true.
Proof.
  intros (j & Hj & E) t.
  assert (HL : length (map f l) = 8) by (now rewrite map_length, win_len).
  assert (Et : t = first_true (rev (map f l))).
  { unfold t. destruct (mask_facts_of (map f l)) as (_ & _ & -> & _); [exact HL|reflexivity]. }
  assert (L : first_true (rev (map f l)) <= 7 - j).
  { apply first_true_min. rewrite rev_nth by lia. rewrite HL. replace (8 - S (7 - j)) with j by lia.
    now rewrite nth_map_flag. }
  destruct (first_true_spec (rev (map f l))) as (A & _); [rewrite rev_length, HL; lia|].
  rewrite Et. split; [lia|]. rewrite rev_nth in A by lia. rewrite HL in A.
  rewrite <- nth_map_flag by lia. rewrite <- A. reflexivity.
Qed.

Lemma positions_spec h j : (h < 128)%N -> In j (bm_positions (match_ (le_dec l) h)) ->
  j < 8 /\ is_full (cb ctrl (o + j)) = true.
Proof.
  intros Hh HI. rewrite match_flags_val in HI by (apply win_bytes || apply win_len || exact Hh).
  destruct (mask_facts_of (match_flags l h)) as (E & _); [apply match_flags_length, win_len|].
  rewrite E in HI. unfold positions in HI. apply filter_In in HI as (HI & F). apply in_seq in HI.
  split; [lia|]. rewrite <- win_nth by lia.
  apply (match_only_full l win_bytes win_len h); auto; lia.
Qed.
Lemma positions_complete h j : (h < 128)%N -> j < 8 -> cb ctrl (o + j) = h ->
  In j (bm_positions (match_ (le_dec l) h)).
Proof.
  intros Hh Hj E. rewrite match_flags_val by (apply win_bytes || apply win_len || exact Hh).
  destruct (mask_facts_of (match_flags l h)) as (-> & _); [apply match_flags_length, win_len|].
  unfold positions. apply filter_In. split; [apply in_seq; lia|].
  apply match_true; auto using win_len. now rewrite win_nth.
Qed.
Lemma count_spec : let t := count_leading_empty_or_deleted (le_dec l) in
  t <= 8 /\ (forall j, j < t -> is_empty_or_deleted (cb ctrl (o + j)) = true) /\
  (t < 8 -> is_empty_or_deleted (cb ctrl (o + t)) = false).
Proof.
  intros t. unfold t. rewrite count_leading_spec by (apply win_bytes || apply win_len).
  rewrite (map_flags_eq eod_flag is_empty_or_deleted) by (apply eod_flag_spec || apply win_ctrl_ok).
  rewrite map_map. set (f := fun x => negb (is_empty_or_deleted x)).
  assert (HL : length (map f l) = 8) by (now rewrite map_length, win_len).
  pose proof (first_true_le (map f l)) as B. rewrite HL in B.
  split; [exact B|]. destruct (Nat.lt_ge_cases (first_true (map f l)) 8) as [L|L].
  - destruct (first_true_spec (map f l)) as (P & Q); [lia|]. split.
    + intros j Hj. specialize (Q j Hj). rewrite nth_map_flag in Q by lia. unfold f in Q.
      now apply negb_false_iff.
    + intros _. rewrite nth_map_flag in P by lia. unfold f in P at 1. now apply negb_true_iff.
  - split; [|lia]. intros j Hj. pose proof (first_true_none (map f l) ltac:(lia) j) as Q.
    rewrite nth_map_flag in Q by lia. unfold f in Q. now apply negb_false_iff.
Qed.
End Window.

Lemma pow2cap_small cap : pow2cap cap -> cap = 0 \/ cap = 1 \/ cap = 3 \/ 7 <= cap.
Proof.
  intros (k & _ & E). destruct k as [|[|[|k]]]; cbn in E; try lia.
Qed.

Lemma pow2cap_lt cap : pow2cap cap -> (N.of_nat cap < 2 ^ 60)%N.
Proof.
  intros (k & Hk & E). assert (2 ^ N.of_nat k <= 2 ^ 60)%N by (apply N.pow_le_mono_r; lia).
  rewrite <- of_nat_pow2 in H. lia.
Qed.

(* index of the cloned control byte *)
Lemma mirror_idx cap i : pow2cap cap -> i < cap ->
  before i cap + 1 + landn 7 cap = if i <? 8 then cap + 1 + i else i.
Proof.
  intros Hc Hi. rewrite landn_mod by assumption.
  rewrite before_mod; [|assumption|].
  2:{ pose proof (pow2cap_lt cap Hc) as P. change 60%N with (N.of_nat 60) in P.
      change 2%N with (N.of_nat 2) in P.
      change (N.of_nat 2) with 2%N in P. rewrite <- of_nat_pow2 in P. lia. }
  destruct (pow2cap_small cap Hc) as [->|[->|[->|H7]]]; [lia| | |].
  - replace i with 0 by lia. reflexivity.
  - destruct i as [|[|[|i]]]; [reflexivity..|lia].
  - rewrite (Nat.mod_small 7) by lia. destruct (Nat.ltb_spec i 8) as [L|L].
    + replace (i + 8 * (cap + 1) - 8) with ((i + (cap + 1) - 8) + 7 * (cap + 1)) by lia.
      rewrite Nat.mod_add, Nat.mod_small by lia. lia.
    + replace (i + 8 * (cap + 1) - 8) with ((i - 8) + 8 * (cap + 1)) by lia.
      rewrite Nat.mod_add, Nat.mod_small by lia. lia.
Qed.

(* ---- invariant ---- *)
Section Inv.
Variable K V : Type.
Variable hash : K -> N.
Variable keq : K -> K -> bool.

Notation ent_t := (list (option (K * V))).

Definition no_empty_before (ctrl : list N) (cap o0 p : nat) : Prop :=
  forall p' j, p' < p -> j < 8 -> is_empty (cb ctrl (off cap o0 p' + j)) = false.

Record J (cap : nat) (ctrl : list N) (ent : ent_t) : Prop := {
  J_cap : pow2cap cap;
  J_len : cap + 9 <= length ctrl;
  J_ent : length ent = cap;
  J_ok : Forall ctrl_ok ctrl;
  J_end : cb ctrl cap = END;
  J_slot : forall s, s < cap -> cb ctrl s <> END;
  J_mir : forall i, i < 7 -> cb ctrl (cap + 1 + i) = if i <? cap then cb ctrl i else EMPTY;
  J_full : forall s, s < cap ->
    match nth_error ent s with
    | Some (Some e) => cb ctrl s = h2 (hash (fst e))
    | _ => is_full (cb ctrl s) = false
    end;
  J_probe : forall s e, nth_error ent s = Some (Some e) ->
    let o0 := probe_start (hash (fst e)) cap in
    exists p j, j < 8 /\ (off cap o0 p + j = s \/ off cap o0 p + j = cap + 1 + s) /\
      no_empty_before ctrl cap o0 p
}.

Lemma is_full_lt c : is_full c = true <-> (c < 128)%N.
Proof. unfold is_full. apply N.ltb_lt. Qed.
Lemma h2_full h : is_full (h2 h) = true.
Proof. apply is_full_lt, h2_lt. Qed.
Lemma full_not_eod c : is_full c = true -> is_empty_or_deleted c = false.
Proof. unfold is_full, is_empty_or_deleted. lia. Qed.
Lemma full_not_empty c : is_full c = true -> is_empty c = false.
Proof. unfold is_full, is_empty, EMPTY. lia. Qed.
Lemma full_not_deleted c : is_full c = true -> is_deleted c = false.
Proof. unfold is_full, is_deleted, DELETED. lia. Qed.
Lemma empty_eod c : is_empty c = true -> is_empty_or_deleted c = true.
Proof. unfold is_empty, is_empty_or_deleted, EMPTY, END. lia. Qed.
Lemma deleted_eod c : is_deleted c = true -> is_empty_or_deleted c = true.
Proof. unfold is_deleted, is_empty_or_deleted, DELETED, END. lia. Qed.

Section WithJ.
Variables (cap : nat) (ctrl : list N) (ent : ent_t).
Hypothesis HJ : J cap ctrl ent.
Let Hc := J_cap _ _ _ HJ.
Let Hlen := J_len _ _ _ HJ.
Let Hok := J_ok _ _ _ HJ.

(* the control byte at position q of a window, in terms of slots *)
Lemma win_real q : q <= cap + 7 ->
  (exists s, s < cap /\ (q = s \/ q = cap + 1 + s) /\ q mod (cap + 1) = s /\ cb ctrl q = cb ctrl s) \/
  (q = cap /\ cb ctrl q = END) \/
  (cap < 7 /\ 2 * cap + 1 <= q /\ cb ctrl q = EMPTY).
Proof.
  intros Hq. destruct (Nat.lt_trichotomy q cap) as [L|[->|G]].
  - left. exists q. repeat split; auto. apply Nat.mod_small. lia.
  - right; left. split; [reflexivity|apply HJ].
  - set (i := q - (cap + 1)). assert (Eq : q = cap + 1 + i) by (unfold i; lia).
    pose proof (J_mir _ _ _ HJ i ltac:(lia)) as M. rewrite <- Eq in M.
    destruct (Nat.ltb_spec i cap) as [L|L].
    + left. exists i. repeat split; auto. rewrite Eq.
      replace (cap + 1 + i) with (i + 1 * (cap + 1)) by lia. rewrite Nat.mod_add by lia.
      apply Nat.mod_small. lia.
    + right; right. repeat split; auto; lia.
Qed.
Lemma slot_pos s q : s < cap -> (q = s \/ q = cap + 1 + s) -> q <= cap + 7 ->
  cb ctrl q = cb ctrl s /\ q mod (cap + 1) = s.
Proof.
  intros Hs [->| -> ] Hq.
  - split; [reflexivity|]. apply Nat.mod_small. lia.
  - rewrite (J_mir _ _ _ HJ s) by lia. replace (s <? cap) with true by lia. split; [reflexivity|].
    replace (cap + 1 + s) with (s + 1 * (cap + 1)) by lia. rewrite Nat.mod_add by lia. apply Nat.mod_small. lia.
Qed.

Lemma slot_full s : s < cap -> is_full (cb ctrl s) = true ->
  exists e, nth_error ent s = Some (Some e) /\ cb ctrl s = h2 (hash (fst e)).
Proof.
  intros Hs F. pose proof (J_full _ _ _ HJ s Hs) as P.
  destruct (nth_error ent s) as [[e|]|]; eauto; congruence.
Qed.
Lemma ent_lt s x : nth_error ent s = Some x -> s < cap.
Proof. intros E. rewrite <- (J_ent _ _ _ HJ). apply nth_error_Some. congruence. Qed.
Lemma ent_full s e : nth_error ent s = Some (Some e) -> s < cap /\ cb ctrl s = h2 (hash (fst e)).
Proof. intros E. pose proof (ent_lt _ _ E) as L. split; auto. pose proof (J_full _ _ _ HJ s L) as P. now rewrite E in P. Qed.
Lemma ent_none s : s < cap -> is_full (cb ctrl s) = false -> nth_error ent s = Some None.
Proof.
  intros L F. pose proof (J_full _ _ _ HJ s L) as P. destruct (nth_error ent s) as [[e|]|] eqn:E; auto.
  - rewrite P, h2_full in F. discriminate.
  - apply nth_error_None in E. rewrite (J_ent _ _ _ HJ) in E. lia.
Qed.
Lemma cb_ctrl_ok p : p < length ctrl -> ctrl_ok (cb ctrl p).
Proof. intros H. rewrite Forall_forall in Hok. apply Hok. now apply nth_In. Qed.
Lemma slot_cases s : s < cap ->
  is_full (cb ctrl s) = true \/ cb ctrl s = EMPTY \/ cb ctrl s = DELETED.
Proof.
  intros H. pose proof (J_slot _ _ _ HJ s H). destruct (cb_ctrl_ok s) as [E|[E|[E|E]]]; [lia| | | |]; auto.
  - left. now apply is_full_lt.
Qed.

(* some window has an empty byte *)
Lemma small_window : cap < 7 -> forall o, o <= cap -> exists j, j < 8 /\ cb ctrl (o + j) = EMPTY.
Proof.
  intros H o Ho. assert (cap <= 3) by (pose proof (pow2cap_small cap Hc); lia).
  exists (7 - o). split; [lia|]. replace (o + (7 - o)) with (cap + 1 + (6 - cap)) by lia.
  rewrite (J_mir _ _ _ HJ) by lia. replace (6 - cap <? cap) with false by lia. reflexivity.
Qed.
Lemma window_of (f : N -> bool) o0 : f EMPTY = true -> o0 <= cap ->
  (cap < 7 \/ exists s, s < cap /\ f (cb ctrl s) = true) ->
  exists p j, p <= cap /\ j < 8 /\ f (cb ctrl (off cap o0 p + j)) = true.
Proof.
  intros FE Ho [H|(s & Hs & F)].
  - destruct (small_window H (off cap o0 0)) as (j & Hj & E); [apply off_le|].
    exists 0, j. rewrite E. repeat split; auto; lia.
  - destruct (Nat.lt_ge_cases cap 7) as [H|H7].
    { destruct (small_window H (off cap o0 0)) as (j & Hj & E); [apply off_le|].
      exists 0, j. rewrite E. repeat split; auto; lia. }
    destruct (coverage cap o0 s Hc H7 ltac:(lia)) as (p & j & Hp & Hj & E).
    exists p, j. split; [|split; [exact Hj|]].
    + assert ((cap + 1) / 8 <= cap) by (apply Nat.div_le_upper_bound; lia). lia.
    + pose proof (off_le cap o0 p). set (q := off cap o0 p + j) in *.
      destruct (win_real q ltac:(lia)) as [(s' & Hs' & Hq & Em & Ec)|[(Eq & _)|(L & _)]]; [| |lia].
      * rewrite Ec. now replace s' with s by congruence.
      * rewrite Eq, Nat.mod_small in E by lia. lia.
Qed.

(* ---- find ---- *)
Hypothesis laws : key_laws K keq hash.
Variables (size growth : N).
Let t := Tbl K V ent ctrl size cap growth.

Lemma try_matches_spec k o l : o <= cap ->
  (forall i, In i l -> i < 8 /\ is_full (cb ctrl (o + i)) = true) ->
  exists r, try_matches K V keq t k o l = Ok r /\
    match r with
    | Some s => exists e, nth_error ent s = Some (Some e) /\ keq (fst e) k = true
    | None => forall i, In i l -> exists s e, s = (o + i) mod (cap + 1) /\
                nth_error ent s = Some (Some e) /\ keq (fst e) k = false
    end.
Proof.
  intros Ho. induction l as [|i l IH]; intros H; cbn [try_matches].
  - exists None. split; [reflexivity|]. intros i [].
  - destruct (H i (or_introl eq_refl)) as (Hi & F).
    destruct (win_real (o + i) ltac:(lia)) as [(s & Hs & _ & Em & Ec)|[(_ & E)|(_ & _ & E)]].
    2,3: rewrite E in F; discriminate.
    rewrite Ec in F. destruct (slot_full s Hs F) as (e & Ee & _).
    change (t_cap K V t) with cap. change (t_ent K V t) with ent.
    unfold probe_offset. rewrite landn_mod, Em by assumption. rewrite Ee.
    destruct (keq (fst e) k) eqn:Q.
    + exists (Some s). split; [reflexivity|eauto].
    + destruct IH as (r & -> & R); [intros; apply H; now right|].
      exists r. split; [reflexivity|]. destruct r; auto.
      intros i' [<-|HI]; [|now apply R]. exists s, e. auto.
Qed.

Definition found (k : K) (r : option nat) : Prop :=
  match r with
  | Some s => exists e, nth_error ent s = Some (Some e) /\ keq (fst e) k = true
  | None => forall s e, nth_error ent s = Some (Some e) -> keq (fst e) k = false
  end.

Lemma find_loop_spec k fuel : forall p,
  let o0 := probe_start (hash k) cap in
  no_empty_before ctrl cap o0 p ->
  (* nothing found so far *)
  (forall p' j s e, p' < p -> j < 8 -> (off cap o0 p' + j = s \/ off cap o0 p' + j = cap + 1 + s) ->
     nth_error ent s = Some (Some e) -> hash (fst e) = hash k -> keq (fst e) k = false) ->
  (exists pe j, p <= pe /\ pe < p + fuel /\ j < 8 /\ is_empty (cb ctrl (off cap o0 pe + j)) = true) ->
  exists r, find_loop K V keq fuel t k (hash k) (seq_at cap o0 p) = Ok r /\ found k r.
Proof.
  induction fuel as [|fuel IH]; intros p o0 NE NF (pe & je & Hpe & Hf & Hje & EE); [lia|].
  cbn [find_loop]. unfold seq_at at 1 2. cbn [fst]. pose proof (off_le cap o0 p) as Ho.
  set (o := off cap o0 p) in *.
  change (t_ctrl K V t) with ctrl. rewrite (group_eq ctrl o) by lia. cbn [bind].
  destruct (try_matches_spec k o (bm_positions (match_ (le_dec (slice o 8 ctrl)) (h2 (hash k)))) Ho)
    as (r & -> & R).
  { intros i HI. apply (positions_spec ctrl o Hok ltac:(lia) (h2 (hash k))); [apply h2_lt|exact HI]. }
  cbn [bind]. destruct r as [s|].
  { exists (Some s). split; [reflexivity|exact R]. }
  rewrite (me_eq ctrl o Hok) by lia.
  destruct (N.eqb_spec (le_dec (map flag (map is_empty (slice o 8 ctrl)))) 0) as [Z|Z].
  - assert (Z' := proj1 (zero_spec ctrl o ltac:(lia) is_empty) (proj2 (N.eqb_eq _ _) Z)).
    change (t_cap K V t) with cap. rewrite seq_at_next by assumption. apply IH.
    + intros p' j Hp' Hj. destruct (Nat.eq_dec p' p) as [->|]; [now apply Z'|apply NE; lia].
    + intros p' j s e Hp' Hj Hq Ee Eh. destruct (Nat.eq_dec p' p) as [->|]; [|eapply NF; eauto; lia].
      fold o in Hq. destruct (ent_full s e Ee) as (Hs & Ec).
      destruct (slot_pos s (o + j) Hs Hq ltac:(lia)) as (E1 & E2).
      destruct (R j) as (s' & e' & -> & Ee' & Q).
      { apply (positions_complete ctrl o Hok ltac:(lia)); [apply h2_lt|exact Hj|congruence]. }
      rewrite E2, Ee in Ee'. now injection Ee' as <-.
    + exists pe, je. repeat split; auto; try lia.
      destruct (Nat.eq_dec pe p) as [->|]; [|lia]. fold o in EE. rewrite Z' in EE by assumption. discriminate.
  - exists None. split; [reflexivity|]. intros s e Ee.
    destruct (keq (fst e) k) eqn:Q; [|reflexivity]. exfalso.
    destruct laws as (_ & _ & _ & Lh). assert (Eh := Lh _ _ Q).
    destruct (J_probe _ _ _ HJ s e Ee) as (p1 & j1 & Hj1 & Hq1 & N1). rewrite Eh in Hq1, N1. fold o0 in Hq1, N1.
    destruct (Nat.lt_trichotomy p1 p) as [L|[->|G]].
    + rewrite (NF p1 j1 s e) in Q; auto; discriminate.
    + fold o in Hq1. destruct (ent_full s e Ee) as (Hs & Ec).
      destruct (slot_pos s (o + j1) Hs Hq1 ltac:(lia)) as (E1 & E2).
      destruct (R j1) as (s' & e' & -> & Ee' & Q').
      { apply (positions_complete ctrl o Hok ltac:(lia)); [apply h2_lt|exact Hj1|congruence]. }
      rewrite E2, Ee in Ee'. injection Ee' as <-. congruence.
    + apply Z. apply N.eqb_eq. apply (zero_spec ctrl o ltac:(lia)). intros j Hj. now apply N1.
Qed.

Lemma find_spec k : (cap < 7 \/ exists s, s < cap /\ cb ctrl s = EMPTY) ->
  exists r, find_ K V hash keq t k = Ok r /\ found k r.
Proof.
  intros HE. unfold find_. change (t_cap K V t) with cap.
  pose proof (probe_start_lt (hash k) cap Hc) as Hp.
  rewrite <- (seq_at_0 cap _ Hp). apply find_loop_spec.
  - intros p' j L. lia.
  - intros p' j s e L. lia.
  - destruct (window_of is_empty (probe_start (hash k) cap)) as (p & j & Hp' & Hj & E); [reflexivity|lia| |].
    { destruct HE as [|(s & Hs & E)]; [now left|right]. exists s. now rewrite E. }
    exists p, j. repeat split; auto; lia.
Qed.
End WithJ.
End Inv.
