From Verif Require Import Base FlatModel FlatSpec FlatProofs MmModel MmSpec MmProofs PagedModel PagedSpec PagedProofs OomModel OomSpec.
Require Import Permutation.

Lemma orun_sim {S M O X} (step : M -> O -> failure -> res (M * option X)) (spec : S -> O -> option (S * X)) (after : S -> O -> nat -> option S)
  (R : M -> S -> Prop) :
  (forall m s o f s' x, R m s -> spec s o = Some (s', x) -> exists m' r, step m o f = Ok (m', r) /\
     match r with Some y => y = x /\ R m' s' | None => exists n, f = Some n /\ forall s'', after s o n = Some s'' -> R m' s'' end) ->
  forall c m s, R m s -> legal spec after s c = true ->
  exists m' t, orun step m c = Ok (m', t) /\ explains spec after s t.
Proof.
  intros H c. induction c as [|o f next IH]; intros m s HR L; cbn [legal orun] in *.
  { exists m, []. cbn. auto. }
  destruct (spec s o) as [(s1, x)|] eqn:E; [|discriminate]. apply andb_prop in L as (L1 & L2).
  destruct (H m s o f s1 x HR E) as (m1 & r & -> & K). cbn [bind]. destruct r as [y|].
  - destruct K as (-> & R1). destruct (IH _ m1 s1 R1 L1) as (m2 & t & -> & X2). cbn [bind].
    exists m2, ((o, f, Some x) :: t). split; auto. cbn [explains]. eauto.
  - destruct K as (n & -> & K). destruct (after s o n) as [s2|] eqn:E2; [|discriminate].
    destruct (IH _ m1 s2 (K _ eq_refl) L2) as (m2 & t & -> & X2). cbn [bind].
    exists m2, ((o, Some n, None) :: t). split; auto. cbn [explains]. exists n, s2. auto.
Qed.
Lemma strike {A S O} (spec : S -> O -> option (S * vout A)) t : forall s, explains spec unchanged s t ->
  exists s', shist A spec s (kept t) = Some (s', answers t).
Proof.
  induction t as [|((o, f), [x|]) t IH]; intros s H; cbn [explains] in H.
  - cbn. eauto.
  - destruct H as (s1 & E & H). destruct (IH s1 H) as (s2 & Q). cbn [kept answers shist]. rewrite E, Q. eauto.
  - destruct H as (n & s1 & _ & E & H). injection E as <-. destruct (IH s H) as (s2 & Q). cbn [kept answers]. eauto.
Qed.
Lemma fails_some f n : fails f n = true -> f = Some n.
Proof. destruct f as [k|]; cbn; [|discriminate]. intros H. apply Nat.eqb_eq in H. congruence. Qed.

Section V.
Variable A : Type.
Variable dflt : A.

(* r' answers what r answers, unless r is undefined *)
Definition le {B} (r r' : res B) : Prop := r = UB \/ r = Fuel \/ r = r'.
Lemma le_refl {B} (r : res B) : le r r.
Proof. right. right. auto. Qed.
Lemma le_bind {B C} (r r' : res B) (k k' : B -> res C) : le r r' -> (forall x, le (k x) (k' x)) -> le (bind r k) (bind r' k').
Proof.
  intros [->|[->| ->]] H; [left; auto|right; left; auto|]. destruct r' as [x| | |]; cbn [bind]; [apply H|right; right|right; right|right; right]; auto.
Qed.
Lemma le_idx {B} (d t : list B) i : le (idx d i) (idx (d ++ t) i).
Proof.
  unfold idx. destruct (nth_error d i) eqn:E; [|left; auto]. rewrite nth_error_app1 by (apply nth_error_Some; congruence).
  rewrite E. apply le_refl.
Qed.
Lemma le_range {B} (d t : list B) b e : le (range d b e) (range (d ++ t) b e).
Proof.
  unfold range. rewrite app_length. destruct (Nat.leb_spec b e); cbn [andb]; [|apply le_refl].
  destruct (Nat.leb_spec e (length d)); [|left; auto]. destruct (Nat.leb_spec e (length d + length t)); [|lia].
  right. right. f_equal. rewrite skipn_app, firstn_app. replace (e - b - length (skipn b d)) with 0 by (rewrite skipn_length; lia).
  rewrite firstn_O, app_nil_r. auto.
Qed.
Definition ext (t : list A) (m : vv A) : vv A := VV (vv_data m ++ t) (vv_starts m).
Definition rext (t : list A) (r : res (vv A)) : res (vv A) := let* m := r in Ok (ext t m).

Lemma le_ins m t k ys : le (rext t (vv_insert_end A m k ys)) (vv_insert_end A (ext t m) k ys).
Proof.
  unfold rext, vv_insert_end, ext. cbn [vv_data vv_starts]. change (vv_end A (VV (vv_data m ++ t) (vv_starts m)) k) with (vv_end A m k).
  destruct (vv_end A m k) as [e| | |]; cbn [bind]; try apply le_refl. unfold ins. rewrite app_length.
  destruct (Nat.leb_spec e (length (vv_data m))); [|left; auto]. destruct (Nat.leb_spec e (length (vv_data m) + length t)); [|lia].
  cbn [bind]. destruct (length (vv_starts m) <? k + 1); cbn [bind]; [apply le_refl|]. right. right.
  cbn [vv_data vv_starts]. f_equal. f_equal. rewrite firstn_app, skipn_app. replace (e - length (vv_data m)) with 0 by lia.
  rewrite firstn_O, skipn_O, app_nil_r, <- !app_assoc. auto.
Qed.
Lemma le_set m t k i x : le (rext t (vv_set A m k i x)) (vv_set A (ext t m) k i x).
Proof.
  unfold rext, vv_set, ext. cbn [vv_data vv_starts]. destruct (idx (vv_starts m) k) as [b| | |]; cbn [bind]; try apply le_refl.
  unfold put. rewrite app_length. destruct (Nat.ltb_spec (b + i) (length (vv_data m))); [|left; auto].
  destruct (Nat.ltb_spec (b + i) (length (vv_data m) + length t)); [|lia]. cbn [bind]. right. right.
  rewrite upd_app1 by auto. auto.
Qed.
Lemma le_bucket m t k : le (vv_bucket A m k) (vv_bucket A (ext t m) k).
Proof. apply le_bind; [apply le_refl|]. intros b. apply le_bind; [apply le_refl|]. intros e. apply le_range. Qed.
Lemma le_all m t : le (vv_all A m) (vv_all A (ext t m)).
Proof.
  unfold vv_all, vv_size. change (vv_starts (ext t m)) with (vv_starts m). generalize 0 as k, (length (vv_starts m) - 1) as n.
  intros k n. revert k. induction n as [|n IH]; intros k; cbn [vv_all_from]; [apply le_refl|].
  apply le_bind; [apply le_bucket|]. intros x. apply le_bind; [apply IH|]. intros. apply le_refl.
Qed.
Definition plain (o : vv_op A) : bool :=
  match o with VEmplace _ | VAddSized _ | VResize _ | VClear => false | _ => true end.
Lemma ins_starts m k ys m' : vv_insert_end A m k ys = Ok m' -> length (vv_starts m') = length (vv_starts m).
Proof.
  unfold vv_insert_end. destruct (vv_end A m k); cbn [bind]; try discriminate. destruct (ins _ _ _); cbn [bind]; try discriminate.
  destruct (Nat.ltb_spec (length (vv_starts m)) (k + 1)); [discriminate|]. intros E. injection E as <-. cbn [vv_starts].
  unfold vv_shift. rewrite app_length, map_length, firstn_length, skipn_length. lia.
Qed.
Lemma set_starts m k i x m' : vv_set A m k i x = Ok m' -> length (vv_starts m') = length (vv_starts m).
Proof.
  unfold vv_set. destruct (idx _ _); cbn [bind]; try discriminate. destruct (put _ _ _); cbn [bind]; try discriminate.
  intros E. injection E as <-. auto.
Qed.
Lemma le_answer {B} m t (r r' : res B) g m' y : le r r' -> answer A m r g = Ok (m', y) ->
  answer A (ext t m) r' g = Ok (ext t m', y) /\ length (vv_starts m') = length (vv_starts m).
Proof. intros [->|[->| ->]]; cbn; try discriminate. destruct r'; cbn; intros E; try discriminate; injection E as <- <-; auto. Qed.
Lemma le_become m t r r' m' y : le (rext t r) r' -> (forall x, r = Ok x -> length (vv_starts x) = length (vv_starts m)) ->
  become A m r = Ok (m', y) -> become A (ext t m) r' = Ok (ext t m', y) /\ length (vv_starts m') = length (vv_starts m).
Proof.
  intros H K E. destruct r as [x| | |]; cbn in *; try discriminate; injection E as <- <-; destruct H as [H|[H|H]]; try discriminate; subst r'; cbn; auto.
Qed.
Lemma frame m t o m' y : plain o = true -> vv_step A dflt m o = Ok (m', y) ->
  vv_step A dflt (ext t m) o = Ok (ext t m', y) /\ length (vv_starts m') = length (vv_starts m).
Proof.
  intros P E. destruct o; try discriminate; cbn [vv_step] in *.
  - eapply le_become; [apply le_ins| |exact E]. apply ins_starts.
  - unfold vv_grow in *. change (vv_bucket_size A (ext t m) k) with (vv_bucket_size A m k).
    destruct (vv_bucket_size A m k) as [s| | |]; cbn [bind] in *; try discriminate.
    + destruct (s <=? n) eqn:C; cbn [verify bind] in *.
      * eapply le_become; [apply le_ins| |exact E]. apply ins_starts.
      * cbn in *. injection E as <- <-. auto.
    + cbn in *. injection E as <- <-. auto.
  - eapply le_become; [apply le_set| |exact E]. apply set_starts.
  - eapply le_answer; [|exact E]. apply le_bind; [apply le_refl|]. intros. apply le_idx.
  - eapply le_answer; [|exact E]. apply le_bind; [apply le_refl|]. intros s. apply le_bind; [apply le_refl|]. intros _.
    apply le_bind; [apply le_refl|]. intros. apply le_idx.
  - eapply le_answer; [|exact E]. apply le_bucket.
  - eapply le_answer; [|exact E]. apply le_bind; [apply le_refl|]. intros b. apply le_bind; [apply le_refl|]. intros. apply le_range.
  - eapply le_answer; [|exact E]. apply le_refl.
  - eapply le_answer; [|exact E]. apply le_bind; [apply le_refl|]. intros. apply le_bucket.
  - eapply le_answer; [|exact E]. apply le_bind; [apply le_refl|]. intros. apply le_bucket.
  - eapply le_answer; [|exact E]. unfold vv_back. change (vv_size A (ext t m)) with (vv_size A m).
    destruct (vv_size A m =? 0); [apply le_refl|]. apply le_bind; [apply le_refl|]. intros. apply le_bucket.
  - injection E as <- <-. auto.
  - eapply le_answer; [|exact E]. apply le_all.
Qed.

(* the buckets l, and t behind the last of them *)
Definition WR (m : vv A) (s : wstate A) : Prop :=
  let '(l, t) := s in exists m0, m = ext t m0 /\ VR A m0 l /\ (vv_starts m = [] -> t = []).
Lemma vv_eq (m m' : vv A) : vv_data m = vv_data m' -> vv_starts m = vv_starts m' -> m = m'.
Proof. destruct m, m'. cbn. congruence. Qed.
Lemma WR_nil m l : VR A m l -> WR m (l, []).
Proof. intros H. exists m. split; [|auto]. apply vv_eq; cbn; [rewrite app_nil_r|]; auto. Qed.
Lemma WR_started m l t : WR m (l, t) -> WR (VV (vv_data m) (vv_started A m)) (l, t) /\
  forall xs, WR (VV (vv_data m ++ xs) (vv_started A m)) (l, t ++ xs).
Proof.
  intros (m0 & -> & R & T). assert (V : VR A (VV (vv_data m0) (vv_started A m0)) l).
  { split; cbn; [apply R|]. left. apply started_ok. auto. }
  assert (NE : vv_started A m0 <> []) by (rewrite (started_ok A m0 l R); intros Q; apply (f_equal (@length _)) in Q; rewrite offs_length in Q; cbn in Q; lia).
  split; [|intros xs]; (exists (VV (vv_data m0) (vv_started A m0)); split; [|split; [exact V|cbn; intros Q; exfalso; apply NE; exact Q]]).
  - apply vv_eq; auto.
  - apply vv_eq; cbn; [rewrite <- app_assoc|]; auto.
Qed.
Lemma WR_add m l t xs : WR m (l, t) -> WR (vv_emplace_back A m xs) (l ++ [t ++ xs], []).
Proof.
  intros (m0 & -> & R & T). apply WR_nil. replace (vv_emplace_back A (ext t m0) xs) with (vv_emplace_back A m0 (t ++ xs)).
  { apply emplace_ok. auto. }
  unfold vv_emplace_back, ext, vv_started. cbn [vv_data vv_starts]. rewrite <- app_assoc. auto.
Qed.
Lemma WR_resize m l t n : WR m (l, t) -> length (concat (skipn n l)) = 0 ->
  WR (vv_resize A m n) (if n <=? length l then (firstn n l, t) else (l ++ t :: repeat [] (n - length l - 1), [])).
Proof.
  intros (m0 & -> & R & T) Z. destruct (Nat.leb_spec n (length l)) as [Hn|Hn].
  - destruct R as (D & [S1|(-> & S1)]).
    + exists (VV (concat (firstn n l)) (offs A 0 (firstn n l))). split; [|split].
      * apply vv_eq; cbn.
        -- rewrite D. f_equal. rewrite <- (firstn_skipn n l) at 1. rewrite concat_app. apply length_zero_iff_nil in Z. rewrite Z, app_nil_r. auto.
        -- rewrite S1, offs_firstn, offs_length. replace (n + 1 - (length l + 1)) with 0 by lia. rewrite app_nil_r. auto.
      * split; auto.
      * cbn. rewrite S1, offs_length. replace (n + 1 - (length l + 1)) with 0 by lia. rewrite app_nil_r, offs_firstn.
        intros Q. apply (f_equal (@length _)) in Q. rewrite offs_length in Q. cbn in Q. lia.
    + cbn in S1, Hn. cbn [ext vv_starts] in T. rewrite (T S1). destruct n; [|cbn in Hn; lia]. exists (VV [] [0]). split; [|split].
      * apply vv_eq; cbn; rewrite ?S1, ?D; auto.
      * split; auto.
      * auto.
  - apply WR_nil. pose proof (FlatProofs.resize_ok A (vv_emplace_back A m0 t) (l ++ [t]) n (emplace_ok A _ _ t R)) as Q.
    replace (vv_resize A (ext t m0) n) with (vv_resize A (vv_emplace_back A m0 t) n).
    2: { apply vv_eq; [reflexivity|]. cbn. destruct R as (D & [S1|(-> & S1)]).
      - unfold vv_started. rewrite S1, offs_length. destruct (Nat.eqb_spec (length l + 1) 0); [lia|].
        rewrite (app_length (offs A 0 l)), offs_length. cbn [length].
        rewrite !firstn_all2 by (rewrite ?app_length, offs_length; cbn; lia). rewrite <- app_assoc. f_equal.
        replace (n + 1 - (length l + 1)) with (S (n + 1 - (length l + 1 + 1))) by lia. auto.
      - cbn [ext vv_starts] in T. rewrite (T S1). unfold vv_started. rewrite S1, D. cbn in Hn. destruct n; [lia|]. cbn.
        replace (n + 1) with (S n) by lia. cbn. rewrite Nat.sub_0_r. destruct n; auto. }
    rewrite firstn_all2, app_length, <- app_assoc in Q by (rewrite app_length; cbn; lia). cbn [length app] in Q.
    replace (n - length l - 1) with (n - (length l + 1)) by lia. apply Q.
    unfold len. rewrite skipn_all2 by (rewrite app_length; cbn; lia). auto.
Qed.
Lemma WR_plain m l t o l' x : WR m (l, t) -> plain o = true -> vv_spec A dflt l o = Some (l', x) ->
  exists m', vv_step A dflt m o = Ok (m', x) /\ WR m' (l', t).
Proof.
  intros (m0 & -> & R & T) P E. destruct (vv_step_ok A dflt m0 l o l' x R E) as (m1 & E1 & R1).
  destruct (frame m0 t o m1 x P E1) as (-> & L). exists (ext t m1). split; auto. exists m1. split; auto. split; auto.
  cbn [ext vv_starts] in *. intros Q. apply T. rewrite Q in L. destruct (vv_starts m0); [auto|discriminate].
Qed.
Lemma WR_size m l t k : WR m (l, t) -> k < length l -> vv_bucket_size A m k = Ok (length (nth k l [])).
Proof. intros (m0 & -> & R & T) H. apply (vv_bucket_ok A m0 l k R H). Qed.

Lemma vvo_add_ok m l t xs f : WR m (l, t) -> exists m' r, vvo_add A m xs f = Ok (m', r) /\
  match r with Some y => y = XNone /\ WR m' (l ++ [t ++ xs], [])
  | None => exists n, f = Some n /\ WR m' (l, if n =? 2 then t ++ xs else t) end.
Proof.
  intros R. destruct (WR_started m l t R) as (R1 & R2). unfold vvo_add, bad.
  destruct ((length (vv_starts m) =? 0) && fails f 0) eqn:E0.
  { apply andb_prop in E0 as (_ & E0). apply fails_some in E0 as ->. exists m, None. split; [reflexivity|]. exists 0. split; [reflexivity|]. first [exact R|intros _; exact R]. }
  destruct (fails f 1) eqn:E1.
  { apply fails_some in E1 as ->. eexists. exists None. split; [reflexivity|]. exists 1. split; [reflexivity|]. first [exact R1|intros _; exact R1]. }
  destruct (fails f 2) eqn:E2.
  { apply fails_some in E2 as ->. eexists. exists None. split; [reflexivity|]. exists 2. split; [reflexivity|]. exact (R2 xs). }
  eexists. exists (Some XNone). split; [reflexivity|]. split; [reflexivity|]. apply (WR_add m l t xs R).
Qed.
Lemma vvo_init_ok m l t xs f : WR m (l, t) -> exists m' r, vvo_init A m xs f = Ok (m', r) /\
  match r with Some y => y = XNone /\ WR m' (l ++ [t ++ xs], [])
  | None => exists n, f = Some n /\ (n <> 2 -> WR m' (l, t)) end.
Proof.
  intros R. destruct (WR_started m l t R) as (R1 & R2). unfold vvo_init, bad.
  destruct ((length (vv_starts m) =? 0) && fails f 0) eqn:E0.
  { apply andb_prop in E0 as (_ & E0). apply fails_some in E0 as ->. exists m, None. split; [reflexivity|]. exists 0. split; [reflexivity|]. first [exact R|intros _; exact R]. }
  destruct (fails f 1) eqn:E1.
  { apply fails_some in E1 as ->. eexists. exists None. split; [reflexivity|]. exists 1. split; [reflexivity|]. first [exact R1|intros _; exact R1]. }
  destruct (fails f 2) eqn:E2.
  { apply fails_some in E2 as ->. eexists. exists None. split; [reflexivity|]. exists 2. split; auto. lia. }
  eexists. exists (Some XNone). split; [reflexivity|]. split; [reflexivity|]. pose proof (WR_add m l t xs R) as Q. unfold vv_emplace_back in Q. rewrite app_length in Q. exact Q.
Qed.
Lemma vvo_step_ok m s o f s' x : WR m s -> vvo_spec A dflt s o = Some (s', x) -> exists m' r, vvo_step A dflt m o f = Ok (m', r) /\
  match r with Some y => y = x /\ WR m' s' | None => exists n, f = Some n /\ forall s'', vvo_after A dflt s o n = Some s'' -> WR m' s'' end.
Proof.
  destruct s as (l, t). intros R E.
  assert (ADD : forall xs, exists m' r, vvo_add A m xs f = Ok (m', r) /\
    match r with Some y => y = XNone /\ WR m' (l ++ [t ++ xs], [])
    | None => exists n, f = Some n /\ forall s'', Some (l, if n =? 2 then t ++ xs else t) = Some s'' -> WR m' s'' end).
  { intros xs. destruct (vvo_add_ok m l t xs f R) as (m' & r & -> & K). exists m', r. split; auto. destruct r; auto.
    destruct K as (n & -> & K). exists n. split; auto. intros s'' Q. injection Q as <-. auto. }
  assert (PLAIN : forall o, plain o = true -> match vv_spec A dflt l o with Some (l', x) => Some ((l', t), x) | None => None end = Some (s', x) ->
    exists m', vv_step A dflt m o = Ok (m', x) /\ WR m' s').
  { intros o0 P Q. destruct (vv_spec A dflt l o0) as [(l', y)|] eqn:Q0; [|discriminate]. injection Q as <- <-.
    exact (WR_plain m l t o0 l' y R P Q0). }
  assert (DONE : forall o, plain o = true -> match vv_spec A dflt l o with Some (l', x) => Some ((l', t), x) | None => None end = Some (s', x) ->
    exists m' r, done (vv_step A dflt m o) = Ok (m', r) /\ match r with Some y => y = x /\ WR m' s' | None => exists n, f = Some n /\
      forall s'', Some (l, t) = Some s'' -> WR m' s'' end).
  { intros o0 P Q. destruct (PLAIN o0 P Q) as (m' & E1 & R1). unfold done. rewrite E1. cbn [bind]. exists m', (Some x). auto. }
  assert (BAD : fails f 0 = true -> exists m' r, bad m = @Ok (vv A * option (vout A)) (m', r) /\ match r with Some y => y = x /\ WR m' s'
    | None => exists n, f = Some n /\ forall s'', Some (l, t) = Some s'' -> WR m' s'' end).
  { intros Q. apply fails_some in Q. exists m, None. split; auto. exists 0. split; auto. intros s'' J. injection J as <-. auto. }
  destruct o as [o|xs].
  - destruct o; cbn [vvo_step vvo_spec vvo_after] in *; try (apply DONE; [reflexivity|exact E]).
    + injection E as <- <-. apply ADD.
    + injection E as <- <-. apply ADD.
    + apply guard_some in E as (Z & E). apply Nat.eqb_eq in Z.
      destruct (fails f 0 && (length (vv_starts m) <? n + 1)) eqn:F; [apply BAD; apply andb_prop in F; tauto|].
      cbn [vv_step done bind]. eexists. exists (Some XNone). split; [reflexivity|]. pose proof (WR_resize m l t n R Z) as Q.
      apply pair_equal_spec in E as (<- & <-). auto.
    + injection E as <- <-. cbn [vv_step done bind]. eexists. exists (Some XNone). split; [reflexivity|]. split; [reflexivity|]. apply WR_nil. apply VR_new.
    + destruct (fails f 0) eqn:F; [apply BAD; auto|]. apply DONE; [reflexivity|exact E].
    + assert (K : k < length l).
      { destruct (vv_spec A dflt l (VGrow k n x0)) eqn:Q; [|discriminate]. cbn in Q. apply guard_some in Q as (Q & _). apply Nat.ltb_lt. auto. }
      rewrite (WR_size m l t k R K). cbn [bind].
      destruct (fails f 0 && (length (nth k l []) <=? n)) eqn:F; [apply BAD; apply andb_prop in F; tauto|]. apply DONE; [reflexivity|exact E].
  - cbn [vvo_step vvo_spec vvo_after] in *. injection E as <- <-. destruct (vvo_init_ok m l t xs f R) as (m' & r & -> & K).
    exists m', r. split; auto. destruct r; auto. destruct K as (n & -> & K). exists n. split; auto.
    intros s'' Q. apply guard_some in Q as (Q & <-). apply K. destruct (Nat.eqb_spec n 2); [discriminate|auto].
Qed.
Lemma WR_new : WR vv_new ([], []).
Proof. apply WR_nil. apply VR_new. Qed.
Theorem vvo_history c : legal (vvo_spec A dflt) (vvo_after A dflt) ([], []) c = true ->
  exists m t, orun (vvo_step A dflt) vv_new c = Ok (m, t) /\ explains (vvo_spec A dflt) (vvo_after A dflt) ([], []) t.
Proof. apply (orun_sim _ _ _ WR vvo_step_ok). apply WR_new. Qed.

(* as long as no bucket is left half added, a vecvec is a list of lists *)
Lemma vvl_step_ok m l o f l' x : WR m (l, []) -> vvl_spec A dflt l o = Some (l', x) -> exists m' r, vvo_step A dflt m o f = Ok (m', r) /\
  match r with Some y => y = x /\ WR m' (l', []) | None => exists n, f = Some n /\ forall s'', vvo_mild A l o n = Some s'' -> WR m' (s'', []) end.
Proof.
  intros R E. assert (Q : vvo_spec A dflt (l, []) o = Some ((l', []), x)).
  { destruct o as [o|xs]; [|cbn in *; congruence]. destruct o; cbn [vvo_spec vvl_spec] in *; try (rewrite E; reflexivity);
      try (cbn in E; apply guard_some in E as (Z & E) || injection E as <- <-; cbn; auto; fail).
    cbn [vv_spec] in E. apply guard_some in E as (Z & E). rewrite Z. cbn [guard]. injection E as <- <-. f_equal.
    destruct (Nat.leb_spec n (length l)).
    - replace (n - length l) with 0 by lia. cbn. rewrite app_nil_r. auto.
    - rewrite firstn_all2 by lia. replace (n - length l) with (S (n - length l - 1)) at 2 by lia. auto. }
  destruct (vvo_step_ok m (l, []) o f (l', []) x R Q) as (m' & r & E1 & K). exists m', r. split; auto. destruct r; auto.
  destruct K as (n & -> & K). exists n. split; auto. intros s'' J. apply K. destruct o as [o|xs].
  - destruct o; cbn [vvo_mild vvo_after] in *; try (injection J as <-; reflexivity); apply guard_some in J as (J & <-);
      destruct (n =? 2); try discriminate; auto.
  - cbn in *. apply guard_some in J as (J & <-). rewrite J. auto.
Qed.
Theorem vvl_history c : legal (vvl_spec A dflt) (vvo_mild A) [] c = true ->
  exists m t, orun (vvo_step A dflt) vv_new c = Ok (m, t) /\ explains (vvl_spec A dflt) (vvo_mild A) [] t.
Proof. apply (orun_sim _ _ _ (fun m l => WR m (l, [])) vvl_step_ok). apply WR_new. Qed.

Lemma fwo_step_ok m s o f s' x : FR A m s -> fw_spec A s o = Some (s', x) -> exists m' r, fwo_step A m o f = Ok (m', r) /\
  match r with Some y => y = x /\ FR A m' s' | None => exists n, f = Some n /\ forall s'', unchanged s o n = Some s'' -> FR A m' s'' end.
Proof.
  intros R E. destruct (fw_step_ok A m s o s' x R E) as (m' & E1 & R1).
  assert (DONE : exists m' r, done (fw_step A m o) = Ok (m', r) /\
    match r with Some y => y = x /\ FR A m' s' | None => exists n, f = Some n /\ forall s'', unchanged s o n = Some s'' -> FR A m' s'' end).
  { unfold done. rewrite E1. cbn [bind]. exists m', (Some x). auto. }
  assert (BAD : fails f 0 = true -> exists m' r, bad m = @Ok (fw A * option (vout A)) (m', r) /\
    match r with Some y => y = x /\ FR A m' s' | None => exists n, f = Some n /\ forall s'', unchanged s o n = Some s'' -> FR A m' s'' end).
  { intros Q. apply fails_some in Q. exists m, None. split; auto. exists 0. split; auto. intros s'' J. injection J as <-. auto. }
  destruct o; cbn [fwo_step]; try exact DONE; (destruct (fails f 0 && negb (fw_complete m)) eqn:F; [apply BAD; apply andb_prop in F; tauto|exact DONE]).
Qed.
Theorem fwo_history c : legal (fw_spec A) unchanged ([], [], false) c = true ->
  exists m t, orun (fwo_step A) fw_new c = Ok (m, t) /\ explains (fw_spec A) unchanged ([], [], false) t.
Proof. apply (orun_sim _ _ _ (FR A) fwo_step_ok). cbn. repeat split; auto. Qed.
End V.

Section M.
Variable A : Type.
Variable dflt : A.
Variable lmax : nat.
Hypothesis lmax_ok : lmax < 32.
Notation Inv := (MmProofs.Inv A lmax).
Notation BR := (MmProofs.BR A lmax).

(* cells of no bucket may change, and free buckets may get lost *)
Lemma inv_lose m l d' f' c' : Inv m l -> length d' = length (mm_data m) ->
  (forall p, 0 < MmProofs.cnt p (mm_index m) -> nth_error d' p = nth_error (mm_data m) p) ->
  MmProofs.okfree lmax (length (mm_data m)) f' ->
  (forall p, MmProofs.cnt p (concat f') <= MmProofs.cnt p (concat (mm_free m))) ->
  Inv (MM (mm_index m) d' f' c') l.
Proof.
  intros I L Hd Hf Hc. split; cbn [mm_index mm_data mm_free].
  - apply (inv_len _ _ _ _ I).
  - intros k x Hk. destruct (inv_ix _ _ _ _ I k x Hk) as (Q1 & Q2 & Q3 & Q4 & Q5). unfold okix. repeat split; auto; try lia.
    intros i Hi. rewrite <- Q5 by auto. apply Hd.
    pose proof (MmProofs.cnt_upd lmax lmax_ok (ib x + i) _ k x (Ix 0 0 0) Hk) as U.
    destruct (MmProofs.cov_spec lmax lmax_ok (ib x + i) (Ix 0 0 0)) as [(_ & Z)|(Z & _)]; cbn [ib ic] in Z; [lia|].
    destruct (MmProofs.cov_spec lmax lmax_ok (ib x + i) x) as [(E & _)|(_ & E)]; lia.
  - rewrite L. auto.
  - intros p. pose proof (inv_cnt _ _ _ _ I p). specialize (Hc p). lia.
Qed.
Lemma mmo_grow_ok m l k x req f : Inv m l -> nth_error (mm_index m) k = Some x -> ic x < req -> (N.of_nat req < W32)%N ->
  exists r, mmo_grow A dflt lmax m k req f = Ok r /\
    match r with None => True | Some m' => (exists n, f = Some n) /\ Inv m' l /\ mm_count m' = mm_count m end.
Proof.
  intros I Hk Hreq HW. unfold mmo_grow. rewrite (idx_some _ _ _ Hk). cbn [bind].
  destruct (cap_for_spec lmax req lmax_ok ltac:(lia) HW) as (S1 & S2).
  destruct (Nat.leb_spec (order_of (cap_for req)) lmax) as [Ho|Ho]; [|exists None; auto].
  destruct (le_lt_dec req (2 ^ lmax)) as [Q|Q]; [|specialize (S2 Q); lia]. clear S2.
  destruct (S1 Q) as (o & Ho' & -> & -> & Hr). clear S1 Ho.
  assert (Kl : k < length (mm_index m)) by (apply nth_error_Some; congruence).
  destruct (inv_ix _ _ _ _ I k x Hk) as (Q1 & Q2 & Q3 & Q4 & Q5).
  pose proof (inv_free _ _ _ _ I) as HF.
  assert (CX : forall p, MmProofs.cov p x <= MmProofs.cnt p (mm_index m)).
  { intros p. pose proof (MmProofs.cnt_upd lmax lmax_ok p _ k x (Ix 0 0 0) Hk).
    destruct (MmProofs.cov_spec lmax lmax_ok p (Ix 0 0 0)) as [(_ & Z)|(Z & _)]; cbn [ib ic] in Z; lia. }
  destruct (mm_pop (mm_free m) o) as [(b, f0)|] eqn:P.
  - destruct (pop_some lmax lmax_ok _ _ _ _ _ HF P) as (F1 & F2 & F3 & F4).
    destruct (negb (ic x =? 0) && fails f 1) eqn:E; [|exists None; auto].
    apply andb_prop in E as (_ & E). apply fails_some in E.
    assert (DJ : 0 < isz x -> ib b + isz x <= ib x \/ ib x + isz x <= ib b).
    { intros Hp. pose proof (inv_cnt _ _ _ _ I (max (ib x) (ib b))) as C. specialize (F4 (max (ib x) (ib b))).
      specialize (CX (max (ib x) (ib b))).
      destruct (MmProofs.cov_spec lmax lmax_ok (max (ib x) (ib b)) x) as [(? & _)|(_ & E1)];
      destruct (MmProofs.cov_spec lmax lmax_ok (max (ib x) (ib b)) b) as [(? & _)|(_ & E2)]; lia. }
    rewrite bcopy_bmove by auto. destruct (bmove_ok (mm_data m) (ib b) (ib x) (isz x)) as (d & -> & Ld & Hd); [lia|lia|].
    cbn [bind]. eexists. split; [reflexivity|]. cbn [mm_count]. split; [eauto|]. split; auto. apply inv_lose; auto.
    + intros p Hp. rewrite Hd. destruct (Nat.leb_spec (ib b) p), (Nat.ltb_spec p (ib b + isz x)); auto. exfalso.
      pose proof (inv_cnt _ _ _ _ I p). specialize (F4 p). destruct (MmProofs.cov_spec lmax lmax_ok p b) as [(? & _)|(_ & E2)]; lia.
    + intros p. specialize (F4 p). lia.
  - destruct (fails f 0) eqn:E0; [apply fails_some in E0; exists (Some m); split; [auto|]; split; eauto|].
    destruct ((ib x + ic x =? length (mm_data m)) || (ic x =? 0)) eqn:EL; [exists None; auto|].
    destruct (fails f 1) eqn:E1; [|exists None; auto]. apply fails_some in E1.
    assert (OC : MmProofs.okcap lmax (2 ^ o)) by (right; eauto).
    rewrite bcopy_bmove by lia.
    destruct (bmove_ok (mm_data m ++ repeat dflt (2 ^ o)) (length (mm_data m)) (ib x) (isz x)) as (d & -> & Ld & Hd);
      rewrite ?app_length, ?repeat_length in *; [lia|lia|].
    cbn [bind]. eexists. split; [reflexivity|]. cbn [mm_count]. split; [eauto|]. split; auto.
    apply (inv_relocate A lmax lmax_ok m l k x); auto; try lia.
    + eapply okfree_mono; [exact lmax_ok| |exact HF]. lia.
    + intros p Hp. destruct (MmProofs.cov_spec lmax lmax_ok p (Ix (length (mm_data m)) (isz x) (2 ^ o))) as [(? & Z)|(? & Z)]; cbn [ib ic] in Z; lia.
    + intros p Hp. rewrite (MmProofs.cnt_out lmax lmax_ok p (concat (mm_free m)) (length (mm_data m))); auto.
      2: { intros y Hy. exact (okfree_in _ _ _ y HF Hy). }
      destruct (MmProofs.cov_spec lmax lmax_ok p (Ix (length (mm_data m)) (isz x) (2 ^ o))) as [(? & Z)|(? & Z)]; lia.
    + intros p Hp _. rewrite Hd. destruct (Nat.leb_spec (length (mm_data m)) p); [lia|]. cbn [andb]. apply nth_error_app1. auto.
    + intros i Hi. rewrite Hd. destruct (Nat.leb_spec (length (mm_data m)) (length (mm_data m) + i)); [|lia].
      destruct (Nat.ltb_spec (length (mm_data m) + i) (length (mm_data m) + isz x)); [|lia]. cbn [andb].
      rewrite nth_error_app1 by lia. f_equal. lia.
Qed.
Lemma mmo_request_ok m l e o s' x : BR m (l, e) -> mm_spec A lmax (l, e) o = Some (s', x) ->
  exists q, mmo_request A m o = Ok q /\ match q with None => True | Some (k, req) =>
    exists y, nth_error (mm_index m) k = Some y /\ ic y < req /\ (N.of_nat req < W32)%N end.
Proof.
  intros (I & C) E. cbn [fst snd] in *.
  assert (SM : forall k y, nth_error (mm_index m) k = Some y -> isz y <= ic y /\ (N.of_nat (ic y + 1) < W32)%N).
  { intros k y Hy. destruct (inv_ix _ _ _ _ I k y Hy) as (Q1 & Q2 & Q3 & Q4 & Q5). split; [lia|].
    pose proof (okcap_le _ lmax_ok _ Q3). pose proof (pow_small lmax lmax_ok). lia. }
  assert (LK : forall k, (k <? length l) = true -> exists y, nth_error (mm_index m) k = Some y).
  { intros k H. apply Nat.ltb_lt in H. destruct (inv_lookup A lmax lmax_ok m l k I H) as (y & Hy & _). eauto. }
  destruct o; cbn [mm_spec mmo_request] in *; try (exists None; auto; fail); apply guard_some in E as (H & _).
  - destruct (LK k H) as (y & Hy). rewrite (idx_some _ _ _ Hy). cbn [bind]. eexists. split; [reflexivity|].
    destruct (isz y =? ic y); auto. exists y. destruct (SM k y Hy). repeat split; auto; lia.
  - apply andb_prop in H as (H & _). destruct (LK k H) as (y & Hy). rewrite (idx_some _ _ _ Hy). cbn [bind]. eexists. split; [reflexivity|].
    destruct (Nat.ltb_spec (ic y) (isz y + 1)); auto. exists y. destruct (SM k y Hy). repeat split; auto; lia.
  - apply andb_prop in H as (H & W). apply N.ltb_lt in W. destruct (LK k H) as (y & Hy). rewrite (idx_some _ _ _ Hy). cbn [bind]. eexists. split; [reflexivity|].
    destruct (Nat.ltb_spec (ic y) n); auto. exists y. auto.
  - apply andb_prop in H as (H & W). apply N.ltb_lt in W. destruct (LK k H) as (y & Hy). rewrite (idx_some _ _ _ Hy). cbn [bind]. eexists. split; [reflexivity|].
    destruct (Nat.ltb_spec (ic y) n); auto. exists y. auto.
Qed.
Lemma mmo_step_ok m s o f s' x : BR m s -> mm_spec A lmax s o = Some (s', x) -> exists m' r, mmo_step A dflt lmax m o f = Ok (m', r) /\
  match r with Some y => y = x /\ BR m' s' | None => exists n, f = Some n /\ forall s'', mmo_after A s o n = Some s'' -> BR m' s'' end.
Proof.
  intros R E. destruct (mm_step_ok A dflt lmax lmax_ok m s o s' x R E) as (m1 & E1 & R1).
  assert (DONE : exists m' r, done (mm_step A dflt lmax m o) = Ok (m', r) /\
    match r with Some y => y = x /\ BR m' s' | None => exists n, f = Some n /\ forall s'', mmo_after A s o n = Some s'' -> BR m' s'' end).
  { unfold done. rewrite E1. cbn [bind]. exists m1, (Some x). auto. }
  assert (GROW : (forall n, mmo_after A s o n = Some s) -> exists m' r, (let* q := mmo_request A m o in
      match q with
      | None => done (mm_step A dflt lmax m o)
      | Some (k, req) => let* r := mmo_grow A dflt lmax m k req f in
          match r with Some m' => bad m' | None => done (mm_step A dflt lmax m o) end
      end) = Ok (m', r) /\
    match r with Some y => y = x /\ BR m' s' | None => exists n, f = Some n /\ forall s'', mmo_after A s o n = Some s'' -> BR m' s'' end).
  { intros AF. destruct s as (l, e). destruct (mmo_request_ok m l e o s' x R E) as (q & -> & Q). cbn [bind]. destruct q as [(k, req)|]; [|exact DONE].
    destruct Q as (y & Hy & H1 & H2). destruct R as (I & C). cbn [fst snd] in *.
    destruct (mmo_grow_ok m l k y req f I Hy H1 H2) as (r & -> & K). cbn [bind]. destruct r as [m'|]; [|exact DONE].
    destruct K as ((n & ->) & I' & C'). exists m', None. split; [reflexivity|]. exists n. split; auto. intros s'' J. rewrite AF in J. injection J as <-.
    split; cbn [fst snd]; auto. lia. }
  destruct o; try (apply GROW; reflexivity); cbn [mmo_step].
  - destruct (fails f 0) eqn:F; [|exact DONE]. apply fails_some in F. exists m, None. split; [reflexivity|]. exists 0. split; auto.
    intros s'' J. injection J as <-. auto.
  - destruct (fails f 0) eqn:F; [|exact DONE]. apply fails_some in F. exists m, None. split; [reflexivity|]. exists 0. split; auto.
    intros s'' J. injection J as <-. auto.
  - destruct (nth_error (mm_index m) k) as [y|] eqn:Hy; [|exact DONE].
    destruct (negb (ic y =? 0) && fails f 1) eqn:F; [|exact DONE]. apply andb_prop in F as (_ & F). apply fails_some in F.
    eexists. exists None. split; [reflexivity|]. exists 1. split; auto. intros s'' J. cbn in J. injection J as <-. destruct s as (l, e). destruct R as (I & C).
    cbn [fst snd] in *. split; cbn [fst snd mm_count].
    + apply (inv_change A lmax lmax_ok m l k y 0 []); auto; try lia.
    + assert (Hk : k < length l) by (rewrite <- (inv_len _ _ _ _ I); apply nth_error_Some; congruence).
      pose proof (concat_upd A lmax lmax_ok l k [] Hk) as Q. cbn in Q. lia.
Qed.
Lemma BR_new : BR (mm_new lmax) ([], 0).
Proof. split; [|reflexivity]. apply new_inv; auto. { cbn. apply repeat_length. } intros v Hv. apply repeat_spec in Hv. auto. Qed.
Theorem mmo_history c : legal (mm_spec A lmax) (mmo_after A) ([], 0) c = true ->
  exists m t, orun (mmo_step A dflt lmax) (mm_new lmax) c = Ok (m, t) /\ explains (mm_spec A lmax) (mmo_after A) ([], 0) t.
Proof. apply (orun_sim _ _ _ BR mmo_step_ok). apply BR_new. Qed.
End M.

Section P.
Variable A : Type.
Variable dflt : A.
Variable lmin lw : nat.
Hypothesis lmin_ok : 1 <= lmin <= 15.
Hypothesis lw_ok : 1 <= lw <= 2 ^ lmin.
Notation PR := (PagedProofs.PR A lmin).
Lemma pvo_step_ok m l o f l' x : PR m l -> pv_spec A l o = Some (l', x) -> exists m' r, pvo_step A dflt lmin lw m o f = Ok (m', r) /\
  match r with Some y => y = x /\ PR m' l' | None => exists n, f = Some n /\ forall s'', unchanged l o n = Some s'' -> PR m' s'' end.
Proof.
  intros R E. pose proof (proj1 R) as HL. destruct (pv_step_ok A dflt lmin lw lmin_ok lw_ok m l o l' x R E) as (m1 & E1 & R1).
  assert (DONE : exists m' r, done (pv_step A dflt lmin lw m o) = Ok (m', r) /\
    match r with Some y => y = x /\ PR m' l' | None => exists n, f = Some n /\ forall s'', unchanged l o n = Some s'' -> PR m' s'' end).
  { unfold done. rewrite E1. cbn [bind]. exists m1, (Some x). auto. }
  assert (BAD : forall m' n, PR m' l -> fails f n = true -> exists m'' r, bad m' = @Ok (pv A * option (vout A)) (m'', r) /\
    match r with Some y => y = x /\ PR m'' l' | None => exists n, f = Some n /\ forall s'', unchanged l o n = Some s'' -> PR m'' s'' end).
  { intros m' n R' Q. apply fails_some in Q. exists m', None. split; auto. exists n. split; auto. intros s'' J. injection J as <-. auto. }
  assert (ADD : forall size made, (forall g y, made = Ok (g, y) -> PR (PV g (pv_idx m)) l) ->
    exists m' r, pvo_add A lmin m size made (done (pv_step A dflt lmin lw m o)) f = Ok (m', r) /\
    match r with Some y => y = x /\ PR m' l' | None => exists n, f = Some n /\ forall s'', unchanged l o n = Some s'' -> PR m' s'' end).
  { intros size made H. unfold pvo_add. destruct (fails f 0 && pg_fresh A lmin (pv_pg m) size) eqn:F.
    { apply andb_prop in F as (F & _). exact (BAD m 0 R F). }
    destruct (fails f 1) eqn:F1; [|exact DONE]. destruct made as [(g, y)| | |]; try exact DONE. apply (BAD _ 1); auto. apply (H g y). auto. }
  assert (MAKE : forall xs, (N.of_nat (length xs) < 65536)%N -> forall g y, pv_make A dflt lmin m xs = Ok (g, y) -> PR (PV g (pv_idx m)) l).
  { intros xs H g y Q. destruct (make_ok A dflt lmin lw lmin_ok lw_ok m l xs R H) as (M1 & M2). destruct (pfits (length xs)).
    - destruct (M1 eq_refl) as (g' & y' & Q' & O). rewrite Q in Q'. injection Q' as <- <-. split; auto. cbn. exact (own_drop A lmin lw lmin_ok lw_ok _ _ _ O).
    - rewrite (M2 eq_refl) in Q. discriminate. }
  assert (PUSH : forall k, (k <? length l) = true -> exists m' r, (let* y := idx (pv_idx m) k in
      if fails f 0 && (ic y <? cut16 (isz y + 1)) && pg_fresh A lmin (pv_pg m) (cut16 (isz y + 1)) then bad m else done (pv_step A dflt lmin lw m o)) = Ok (m', r) /\
    match r with Some y => y = x /\ PR m' l' | None => exists n, f = Some n /\ forall s'', unchanged l o n = Some s'' -> PR m' s'' end).
  { intros k H. apply Nat.ltb_lt in H. rewrite <- HL in H. destruct (nth_error (pv_idx m) k) as [y|] eqn:Hy; [|apply nth_error_None in Hy; lia].
    rewrite (idx_some _ _ _ Hy). cbn [bind]. destruct (_ && _ && _) eqn:F; [|exact DONE]. apply andb_prop in F as (F & _). apply andb_prop in F as (F & _).
    exact (BAD m 0 R F). }
  destruct o; cbn [pvo_step]; try exact DONE; cbn [pv_spec] in E; unfold put_in in E.
  - apply guard_some in E as (H & _). apply N.ltb_lt in H. apply ADD. apply MAKE. auto.
  - apply ADD. intros g y Q. destruct (own_create A dflt lmin lw lmin_ok lw_ok _ _ 0 (proj2 R) ltac:(cbn; lia)) as (C1 & _).
    destruct (C1 eq_refl) as (g' & y' & Q' & _ & _ & _ & O). rewrite Q in Q'. injection Q' as <- <-. split; auto. cbn. exact (own_drop A lmin lw lmin_ok lw_ok _ _ _ O).
  - destruct (k <=? length l); [|discriminate]. apply guard_some in E as (H & _). apply N.ltb_lt in H. apply ADD. apply MAKE. auto.
  - destruct (_ && _) eqn:F; [|exact DONE]. apply andb_prop in F as (F & _). exact (BAD m 1 R F).
  - apply guard_some in E as (H & _). apply (PUSH k H).
  - apply guard_some in E as (H & _). apply andb_prop in H as (H & _). apply (PUSH k H).
Qed.
Theorem pvo_history c : legal (pv_spec A) unchanged [] c = true ->
  exists m t, orun (pvo_step A dflt lmin lw) (pv_new A lmin) c = Ok (m, t) /\ explains (pv_spec A) unchanged [] t.
Proof. apply (orun_sim _ _ _ PR pvo_step_ok). exact (pv_new_ok A lmin lw lmin_ok lw_ok). Qed.
End P.

Section F.
Variable A : Type.
Variable dflt : A.
Definition QR (m : fm A) (s : mstate A * bool) : Prop :=
  let '(a, broken) := s in
  if broken then exists m0, MR A m0 a /\ fm_entries m0 = fm_entries m else MR A m a.
Lemma fmo_run m a b o s' x : QR m (a, b) -> fmo_spec A dflt (a, b) o = Some (s', x) ->
  exists m', fm_step A dflt m o = Ok (m', x) /\ QR m' s'.
Proof.
  intros R E. unfold fmo_spec in E. destruct b; cbn [QR] in R.
  - destruct R as (m0 & R & En). assert (Q : exists a', fm_spec A dflt a o = Some (a', x) /\ s' = (a', false)).
    { destruct o; try discriminate; destruct (fm_spec A dflt a _) as [(a', y)|]; try discriminate; injection E as <- <-; eauto. }
    destruct Q as (a' & E1 & ->). destruct (fm_step_ok A dflt m0 a o a' x R E1) as (m' & E2 & R2). exists m'. split; [|exact R2].
    rewrite <- E2. destruct o; try discriminate; cbn [fm_step]; [|reflexivity]. unfold fm_resize. rewrite En. reflexivity.
  - assert (Q : exists a', fm_spec A dflt a o = Some (a', x) /\ s' = (a', false)).
    { destruct o; destruct (fm_spec A dflt a _) as [(a', y)|]; try discriminate; injection E as <- <-; eauto. }
    destruct Q as (a' & E1 & ->). exact (fm_step_ok A dflt m a o a' x R E1).
Qed.
Lemma fmo_step_ok m s o f s' x : QR m s -> fmo_spec A dflt s o = Some (s', x) -> exists m' r, fmo_step A dflt m o f = Ok (m', r) /\
  match r with Some y => y = x /\ QR m' s' | None => exists n, f = Some n /\ forall s'', fmo_after A s o n = Some s'' -> QR m' s'' end.
Proof.
  destruct s as (a, b). intros R E. destruct (fmo_run m a b o s' x R E) as (m1 & E1 & R1).
  assert (DONE : exists m' r, done (fm_step A dflt m o) = Ok (m', r) /\
    match r with Some y => y = x /\ QR m' s' | None => exists n, f = Some n /\ forall s'', fmo_after A (a, b) o n = Some s'' -> QR m' s'' end).
  { unfold done. rewrite E1. cbn [bind]. exists m1, (Some x). auto. }
  destruct o; cbn [fmo_step]; try exact DONE.
  - destruct (_ && _) eqn:F; [|exact DONE]. apply andb_prop in F as (F & _). apply fails_some in F. eexists. exists None. split; [reflexivity|].
    exists 0. split; auto. intros s'' J. cbn in J. injection J as <-. cbn. destruct b; cbn in R; [destruct R as (m0 & R & En); exists m0; auto|exists m; auto].
  - destruct (fails f 0) eqn:F; [|exact DONE]. apply fails_some in F. exists m, None. split; [reflexivity|].
    exists 0. split; auto. intros s'' J. cbn in J. injection J as <-. auto.
Qed.
Theorem fmo_history c : legal (fmo_spec A dflt) (fmo_after A) (0, 0, [], false) c = true ->
  exists m t, orun (fmo_step A dflt) fm_new c = Ok (m, t) /\ explains (fmo_spec A dflt) (fmo_after A) (0, 0, [], false) t.
Proof. apply (orun_sim _ _ _ QR fmo_step_ok). apply MR_new. Qed.
End F.

Section N.
Variable A : Type.
Lemma nvo_add_none c : forall L m, nvo_add A L m c None = let* m := nv_add A L m c in Ok (m, Some None).
Proof.
  revert c. fix IH 1. intros [xs|ns] [|L] m; cbn [nvo_add nv_add]; try reflexivity.
  - cbn [tick]. destruct (push_at _ _ _); reflexivity.
  - destruct (idx (nv_index m) L) as [low| | |]; try reflexivity. cbn [bind tick].
    destruct (push_at (nv_index m) (S L) (length low + length ns - 1)) as [i| | |]; try reflexivity. cbn [bind].
    generalize (NV (nv_data m) i). clear m low i. induction ns as [|n ns IHn]; intros m; [reflexivity|].
    rewrite IH. destruct (nv_add A L m n) as [m'| | |]; try reflexivity. cbn [bind]. apply IHn.
Qed.
Lemma nvo_zero_none is : nvo_zero is None = (map (fun i => i ++ [0]) is, Some None).
Proof. induction is as [|i is IH]; cbn; [auto|]. rewrite IH. auto. Qed.
Theorem nvo_none N m c : nvo_emplace A N m c None = let* m := nv_emplace_back A N m c in Ok (m, Some None).
Proof.
  unfold nvo_emplace, nv_emplace_back. destruct (idx (nv_index m) 0) as [low| | |]; try reflexivity. cbn [bind].
  destruct (length low =? 0); [rewrite nvo_zero_none|]; apply nvo_add_none.
Qed.
Lemma nvo_add_first L m c : depth A (S L) c -> (forall j, j <= L -> nth_error (nv_index m) j <> None) -> nvo_add A L m c (Some 0) = Ok (m, None).
Proof.
  intros D I. destruct L, c; cbn in D; try contradiction; cbn [nvo_add tick]; auto.
  unfold idx. specialize (I L ltac:(lia)). destruct (nth_error (nv_index m) L); [reflexivity|congruence].
Qed.
Theorem nvo_first N m c : 0 < N -> depth A N c -> length (nv_index m) = N -> nvo_emplace A N m c (Some 0) = Ok (m, None).
Proof.
  intros HN D L. unfold nvo_emplace. destruct m as [d [|i is]]; cbn [nv_index nv_data length] in *; [lia|]. cbn [idx nth_error bind].
  destruct (length i =? 0); [reflexivity|]. apply nvo_add_first.
  - replace (S (N - 1)) with N by lia. auto.
  - intros j Hj. cbn [nv_index]. apply nth_error_Some. cbn. lia.
Qed.
Lemma nvo_build_ok N cs : 0 < N -> Forall (depth A N) (map fst cs) -> Forall (fun cf => snd cf = None \/ snd cf = Some 0) cs ->
  forall m l, NR A N m l -> exists m', nvo_build A N m cs = Ok (m', map (fun cf => match snd cf with None => true | Some _ => false end) cs) /\
    nv_build A N m (survivors cs) = Ok m' /\ NR A N m' (l ++ survivors cs).
Proof.
  intros HN. induction cs as [|(c, f) cs IH]; intros D F m l R.
  - exists m. cbn. rewrite app_nil_r. auto.
  - cbn [map fst] in D. apply Forall_cons_iff in D as (D1 & D). apply Forall_cons_iff in F as (F1 & F). cbn [snd] in F1.
    cbn [nvo_build map snd survivors filter fst]. destruct F1 as [-> | ->].
    + destruct (nv_emplace_ok A N m l c HN D1 R) as (m1 & E1 & R1). rewrite nvo_none, E1. cbn [bind].
      destruct (IH D F m1 _ R1) as (m2 & E2 & E3 & R2). exists m2. rewrite E2. cbn [bind]. rewrite <- app_assoc in R2.
      unfold survivors in *. cbn [map fst nv_build]. rewrite E1. auto.
    + rewrite nvo_first; auto. 2:{ destruct R as [(_ & ->)|(R & _)]; [apply repeat_length|apply R]. }
      cbn [bind]. destruct (IH D F m l R) as (m2 & E2 & E3 & R2). exists m2. rewrite E2. auto.
Qed.
End N.
