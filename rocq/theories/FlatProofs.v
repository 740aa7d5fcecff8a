From Verif Require Import Base FlatModel FlatSpec.

Section FP.
Variable A : Type.
Variable dflt : A.

Lemma hist_sim {S T O} (step : S -> O -> res (S * vout A)) (spec : T -> O -> option (T * vout A)) (R : S -> T -> Prop) :
  (forall s t o t' x, R s t -> spec t o = Some (t', x) -> exists s', step s o = Ok (s', x) /\ R s' t') ->
  forall ops s t t' xs, R s t -> shist A spec t ops = Some (t', xs) ->
    exists s', hist A step s ops = Ok (s', xs) /\ R s' t'.
Proof.
  intros H ops. induction ops as [|o ops IH]; cbn; intros s t t' xs HR E.
  { injection E as <- <-. eauto. }
  destruct (spec t o) as [(t1, x)|] eqn:E1; [|discriminate].
  destruct (shist A spec t1 ops) as [(t2, ys)|] eqn:E2; [|discriminate]. injection E as <- <-.
  destruct (H s t o t1 x HR E1) as (s1 & -> & H1). cbn [bind].
  destruct (IH s1 t1 t2 ys H1 E2) as (s2 & -> & H2). cbn [bind]. eauto.
Qed.

Lemma guard_some {B} c (x y : B) : guard c x = Some y -> c = true /\ x = y.
Proof. destruct c; cbn; intros [=]; auto. Qed.

(* ---- offsets ---- *)
Fixpoint offs (s : nat) (l : list (list A)) : list nat :=
  s :: match l with [] => [] | x :: l => offs (s + length x) l end.
Definition len (l : list (list A)) : nat := length (concat l).

Lemma offs_length s l : length (offs s l) = length l + 1.
Proof. revert s; induction l as [|x l IH]; intros s; cbn [offs length]; auto. rewrite IH. lia. Qed.
Lemma offs_nth l : forall s k, k <= length l -> nth_error (offs s l) k = Some (s + len (firstn k l)).
Proof.
  induction l as [|x l IH]; intros s [|k] H; cbn in *; try lia; try (f_equal; unfold len; cbn; lia).
  rewrite IH by lia. f_equal. unfold len. cbn. rewrite app_length. lia.
Qed.
Lemma offs_app l1 l2 s : offs s (l1 ++ l2) = firstn (length l1) (offs s l1) ++ offs (s + len l1) l2.
Proof.
  revert s; induction l1 as [|x l IH]; intros s; cbn.
  - unfold len. cbn. rewrite Nat.add_0_r. auto.
  - rewrite IH. unfold len. cbn. rewrite app_length, Nat.add_assoc. auto.
Qed.
Lemma offs_snoc l x s : offs s (l ++ [x]) = offs s l ++ [s + len l + length x].
Proof.
  revert s; induction l as [|y l IH]; intros s; cbn.
  - unfold len. cbn. rewrite Nat.add_0_r. auto.
  - rewrite IH. unfold len. cbn. rewrite app_length, !Nat.add_assoc. auto.
Qed.
Lemma offs_shift l : forall s g, offs (s + g) l = map (fun x => x + g) (offs s l).
Proof.
  induction l as [|x l IH]; intros s g; cbn; auto. f_equal. rewrite <- IH. f_equal. lia.
Qed.

Lemma offs_firstn l : forall s n, firstn (n + 1) (offs s l) = offs s (firstn n l).
Proof.
  induction l as [|x l IH]; intros s [|n]; cbn [offs firstn Nat.add]; auto.
  - destruct n; auto.
  - f_equal. apply IH.
Qed.

Lemma len_app a b : len (a ++ b) = len a + len b.
Proof. unfold len. rewrite concat_app, app_length. auto. Qed.
Lemma split_nth (l : list (list A)) k : k < length l ->
  exists a b, l = a ++ nth k l [] :: b /\ length a = k.
Proof. intros H. destruct (nth_split l [] H) as (a & b & E & L). eauto. Qed.
Lemma firstn_mid {B} (a : list B) x b : firstn (length a) (a ++ x :: b) = a.
Proof. rewrite firstn_app, firstn_all, Nat.sub_diag, firstn_O, app_nil_r. auto. Qed.
Lemma firstn_mid1 {B} (a : list B) x b : firstn (length a + 1) (a ++ x :: b) = a ++ [x].
Proof. rewrite firstn_app, firstn_all2 by lia. f_equal. replace (_ - _) with 1 by lia. reflexivity. Qed.
Lemma upd_mid {B} (p : list B) x y r : upd (length p) y (p ++ x :: r) = p ++ y :: r.
Proof. induction p as [|z p IH]; cbn; congruence. Qed.
Lemma nth_mid {B} (p : list B) x r d : nth (length p) (p ++ x :: r) d = x.
Proof. induction p; cbn; auto. Qed.

Lemma offs_mid_begin s a x b : nth_error (offs s (a ++ x :: b)) (length a) = Some (s + len a).
Proof. rewrite offs_nth by (rewrite app_length; lia). rewrite firstn_mid. auto. Qed.
Lemma offs_mid_end s a x b : nth_error (offs s (a ++ x :: b)) (length a + 1) = Some (s + len a + length x).
Proof.
  rewrite offs_nth by (rewrite app_length; cbn; lia). rewrite firstn_mid1, len_app. unfold len. cbn.
  rewrite app_nil_r. f_equal. lia.
Qed.

Lemma range_mid {B} (p x r : list B) b e : b = length p -> e = b + length x -> range (p ++ x ++ r) b e = Ok x.
Proof.
  intros -> ->. unfold range. rewrite !app_length.
  destruct (Nat.leb_spec (length p) (length p + length x)); [|lia].
  destruct (Nat.leb_spec (length p + length x) (length p + (length x + length r))); [|lia]. cbn [andb].
  rewrite skipn_app, skipn_all, Nat.sub_diag, skipn_O. cbn [app].
  replace (_ + _ - _) with (length x + 0) by lia. rewrite firstn_app_2, firstn_O, app_nil_r. auto.
Qed.
Lemma ins_mid {B} (p x ys : list B) i : i = length p -> ins (p ++ x) i ys = Ok (p ++ ys ++ x).
Proof.
  intros ->. unfold ins. rewrite app_length. destruct (Nat.leb_spec (length p) (length p + length x)); [|lia].
  rewrite firstn_app, firstn_all, Nat.sub_diag, firstn_O, app_nil_r, skipn_app, skipn_all, Nat.sub_diag, skipn_O. auto.
Qed.
Lemma concat_mid (a : list (list A)) x b : concat (a ++ x :: b) = concat a ++ x ++ concat b.
Proof. rewrite concat_app. auto. Qed.
Lemma nth_error_split_app {B} (p x r : list B) i y : nth_error x i = Some y -> nth_error (p ++ x ++ r) (length p + i) = Some y.
Proof.
  intros H. rewrite nth_error_app2 by lia. replace (_ - _) with i by lia. rewrite nth_error_app1; auto.
  apply nth_error_Some. congruence.
Qed.
Lemma upd_app2 {B} (p r : list B) i y : upd (length p + i) y (p ++ r) = p ++ upd i y r.
Proof. induction p as [|z p IH]; cbn; congruence. Qed.
Lemma upd_app1 {B} (p r : list B) i y : i < length p -> upd i y (p ++ r) = upd i y p ++ r.
Proof. revert i; induction p as [|z p IH]; intros [|i] H; cbn in *; auto; try lia. rewrite IH; auto. lia. Qed.

Lemma skipn_nth {B} (l : list B) k d : k < length l -> nth k l d :: skipn (S k) l = skipn k l.
Proof. revert k; induction l as [|x l IH]; intros [|k] H; cbn in *; auto; try lia. apply IH. lia. Qed.

(* ---- vecvec ---- *)
Definition VR (m : vv A) (l : list (list A)) : Prop :=
  vv_data m = concat l /\ (vv_starts m = offs 0 l \/ l = [] /\ vv_starts m = []).

Lemma VR_starts m l k : VR m l -> k < length l -> vv_starts m = offs 0 l /\ (length (vv_starts m) =? 0) = false.
Proof.
  intros (_ & [E|(-> & _)]) H; [|cbn in H; lia]. split; auto. rewrite E, offs_length.
  apply Nat.eqb_neq. lia.
Qed.
Lemma idx_some {B} (l : list B) i x : nth_error l i = Some x -> idx l i = Ok x.
Proof. unfold idx. intros ->. auto. Qed.

Lemma vv_ends m a x b : VR m (a ++ x :: b) ->
  idx (vv_starts m) (length a) = Ok (len a) /\ idx (vv_starts m) (length a + 1) = Ok (len a + length x) /\
  vv_begin A m (length a) = Ok (len a) /\ vv_end A m (length a) = Ok (len a + length x).
Proof.
  intros H. destruct (VR_starts m _ (length a) H) as (E & Z); [rewrite app_length; cbn; lia|].
  unfold vv_begin, vv_end. rewrite Z, E.
  rewrite !(idx_some _ _ _ (offs_mid_begin 0 a x b)), !(idx_some _ _ _ (offs_mid_end 0 a x b)). auto.
Qed.
Lemma vv_bucket_ok m l k : VR m l -> k < length l -> vv_bucket A m k = Ok (nth k l []) /\ vv_cbucket A m k = Ok (nth k l []) /\
  vv_bucket_size A m k = Ok (length (nth k l [])).
Proof.
  intros H Hk. destruct (split_nth l k Hk) as (a & b & E & La). set (x := nth k l []) in *. clearbody x. subst l k.
  destruct (vv_ends m a x b H) as (E1 & E2 & E3 & E4). unfold vv_bucket, vv_bucket_size, vv_cbucket.
  rewrite E1, E2, E3, E4. cbn [bind]. destruct H as (-> & _). rewrite concat_mid, range_mid by auto.
  repeat split; auto. f_equal. lia.
Qed.
Lemma vv_all_ok m l : VR m l -> vv_all A m = Ok l.
Proof.
  intros H. unfold vv_all, vv_size.
  assert (L : length (vv_starts m) - 1 = length l).
  { destruct H as (_ & [->|(-> & ->)]); [rewrite offs_length; lia|auto]. }
  rewrite L. assert (G : forall n k, k + n = length l -> vv_all_from A m k n = Ok (skipn k l)).
  { induction n as [|n IH]; intros k Hk; cbn [vv_all_from].
    - rewrite skipn_all2; auto. lia.
    - destruct (vv_bucket_ok m l k H) as (-> & _); [lia|]. cbn [bind]. rewrite IH by lia. cbn [bind].
      f_equal. apply skipn_nth. lia. }
  rewrite G by lia. auto.
Qed.
Lemma vv_insert_end_ok m l k ys : VR m l -> k < length l ->
  exists m', vv_insert_end A m k ys = Ok m' /\ VR m' (upd k (nth k l [] ++ ys) l).
Proof.
  intros H Hk. destruct (VR_starts m l k H Hk) as (SE & Z).
  destruct (split_nth l k Hk) as (a & b & E & La). set (x := nth k l []) in *. clearbody x. subst l k.
  destruct (vv_ends m a x b H) as (_ & _ & _ & E4). unfold vv_insert_end. rewrite E4. cbn [bind].
  destruct H as (D & _). rewrite D, concat_mid, app_assoc, ins_mid by (unfold len; rewrite app_length; auto). cbn [bind].
  rewrite SE, offs_length, app_length. destruct (Nat.ltb_spec (length a + length (x :: b) + 1) (length a + 1)); [lia|].
  eexists. split; [reflexivity|]. rewrite upd_mid. split; cbn [vv_data vv_starts].
  - rewrite concat_mid, <- !app_assoc. auto.
  - left. unfold vv_shift. rewrite !offs_app.
    set (f := firstn (length a) (offs 0 a)).
    assert (Lf : length f = length a) by (unfold f; rewrite firstn_length, offs_length; lia).
    rewrite <- Lf. cbn [offs].
    replace (f ++ (0 + len a) :: offs (0 + len a + length x) b) with ((f ++ [0 + len a]) ++ offs (0 + len a + length x) b)
      by (rewrite <- app_assoc; auto).
    assert (L2 : length f + 1 = length (f ++ [0 + len a]) + 0) by (rewrite app_length; cbn; lia).
    rewrite L2, firstn_app_2, firstn_O, app_nil_r.
    rewrite skipn_app, skipn_all2 by lia. replace (_ - _) with 0 by lia. rewrite skipn_O, <- app_assoc. cbn [app].
    f_equal. f_equal. rewrite <- offs_shift. f_equal. rewrite app_length. lia.
Qed.

Lemma started_ok m l : VR m l -> vv_started A m = offs 0 l.
Proof.
  intros (_ & [E|(-> & E)]); unfold vv_started; rewrite E; auto. rewrite offs_length.
  destruct (Nat.eqb_spec (length l + 1) 0); auto. lia.
Qed.
Lemma emplace_ok m l xs : VR m l -> VR (vv_emplace_back A m xs) (l ++ [xs]).
Proof.
  intros H. split; cbn [vv_emplace_back vv_data vv_starts].
  - destruct H as (-> & _). rewrite concat_app. cbn. rewrite app_nil_r. auto.
  - left. rewrite (started_ok m l H), offs_snoc. f_equal. f_equal. destruct H as (-> & _).
    rewrite app_length. auto.
Qed.
Lemma len0_offs l s : len l = 0 -> offs s l = repeat s (length l + 1).
Proof.
  revert s; induction l as [|x l IH]; intros s H; cbn; auto. unfold len in H. cbn in H. rewrite app_length in H.
  rewrite IH by (unfold len; lia). replace (s + length x) with s by lia. auto.
Qed.
Lemma resize_ok m l n : VR m l -> len (skipn n l) = 0 ->
  VR (vv_resize A m n) (firstn n l ++ repeat [] (n - length l)).
Proof.
  intros (D & S) Z.
  assert (CE : concat l = concat (firstn n l ++ repeat [] (n - length l))).
  { rewrite concat_app. replace (concat (repeat [] _)) with (@nil A) by (clear; induction (n - length l); auto).
    rewrite app_nil_r. rewrite <- (firstn_skipn n l) at 1. rewrite concat_app.
    destruct (concat (skipn n l)) eqn:Q; [rewrite app_nil_r; auto|]. unfold len in Z. rewrite Q in Z. discriminate. }
  split; cbn [vv_resize vv_data vv_starts]; [congruence|]. left.
  destruct S as [S|(-> & S)]; rewrite S.
  2: { rewrite D, !firstn_nil. cbn. rewrite len0_offs; [|unfold len; cbn; clear; induction (n - 0); auto].
       rewrite repeat_length. f_equal. lia. }
  rewrite offs_length. destruct (le_lt_dec n (length l)) as [L|L].
  - replace (n + 1 - (length l + 1)) with 0 by lia. replace (n - length l) with 0 by lia. cbn [repeat].
    rewrite !app_nil_r. apply offs_firstn.
  - rewrite firstn_all2 by (rewrite offs_length; lia). rewrite firstn_all2 by lia.
    assert (G : forall j (q : list (list A)), offs 0 (q ++ repeat [] j) = offs 0 q ++ repeat (len q) j).
    { induction j as [|j IH]; intros q; cbn [repeat].
      - rewrite !app_nil_r. auto.
      - replace (q ++ [] :: repeat [] j) with ((q ++ [[]]) ++ repeat [] j) by (rewrite <- app_assoc; auto).
        rewrite IH, offs_snoc, <- app_assoc. cbn [app length]. unfold len. rewrite concat_app. cbn.
        rewrite app_nil_r, Nat.add_0_r. auto. }
    rewrite G, D. unfold len. f_equal. f_equal. lia.
Qed.

Lemma set_ok m l k i x : VR m l -> i < length (nth k l []) ->
  exists m', vv_set A m k i x = Ok m' /\ VR m' (upd k (upd i x (nth k l [])) l).
Proof.
  intros H Hi. assert (Hk : k < length l).
  { destruct (le_lt_dec (length l) k); auto. rewrite nth_overflow in Hi by auto. cbn in Hi. lia. }
  destruct (split_nth l k Hk) as (a & b & E & La). set (y := nth k l []) in *. clearbody y. subst l k.
  destruct (vv_ends m a y b H) as (E1 & _). unfold vv_set. rewrite E1. cbn [bind].
  destruct H as (D & S). rewrite D, concat_mid. unfold put, len.
  destruct (Nat.ltb_spec (length (concat a) + i) (length (concat a ++ y ++ concat b))) as [L|L].
  2: { rewrite !app_length in L. lia. }
  cbn [bind]. eexists. split; [reflexivity|]. rewrite upd_mid, upd_app2, upd_app1 by auto.
  split; cbn [vv_data vv_starts]; [rewrite concat_mid; auto|]. left.
  destruct S as [->|(Q & _)]; [|destruct a; discriminate]. rewrite !offs_app. cbn [offs]. rewrite upd_length. auto.
Qed.
Lemma get_ok m l k i x : VR m l -> nth_error (nth k l []) i = Some x -> vv_get A m k i = Ok x /\ vv_bucket_at A m k i = Ok x.
Proof.
  intros H Hx. assert (Hi : i < length (nth k l [])) by (apply nth_error_Some; congruence).
  assert (Hk : k < length l).
  { destruct (le_lt_dec (length l) k); auto. rewrite nth_overflow in Hi by auto. cbn in Hi. lia. }
  destruct (vv_bucket_ok m l k H Hk) as (_ & _ & BS).
  destruct (split_nth l k Hk) as (a & b & E & La). set (y := nth k l []) in *. clearbody y. subst l k.
  destruct (vv_ends m a y b H) as (E1 & _ & E3 & _). unfold vv_get, vv_bucket_at. rewrite BS, E1, E3. cbn [bind].
  destruct (Nat.ltb_spec i (length y)); [|lia]. cbn [verify bind].
  destruct H as (-> & _). rewrite concat_mid. unfold len.
  rewrite (idx_some _ _ _ (nth_error_split_app (concat a) y (concat b) i x Hx)). auto.
Qed.

Lemma vv_step_ok m l o l' x : VR m l -> vv_spec A dflt l o = Some (l', x) ->
  exists m', vv_step A dflt m o = Ok (m', x) /\ VR m' l'.
Proof.
  intros H E. destruct o; cbn [vv_spec vv_step] in *.
  - injection E as <- <-. eexists. split; [reflexivity|]. apply emplace_ok; auto.
  - injection E as <- <-. eexists. split; [reflexivity|]. apply (emplace_ok m l (repeat dflt n)); auto.
  - apply guard_some in E as (Z & [= <- <-]). apply Nat.eqb_eq in Z.
    eexists. split; [reflexivity|]. apply resize_ok; auto.
  - injection E as <- <-. eexists. split; [reflexivity|]. split; cbn; auto.
  - apply guard_some in E as (Z & [= <- <-]). apply Nat.ltb_lt in Z.
    destruct (vv_insert_end_ok m l k [x0] H Z) as (m' & E1 & H1). unfold vv_push. rewrite E1. cbn. eauto.
  - apply guard_some in E as (Z & E). apply Nat.ltb_lt in Z.
    destruct (vv_bucket_ok m l k H Z) as (_ & _ & BS). unfold vv_grow. rewrite BS. cbn [bind].
    destruct (Nat.ltb_spec n (length (nth k l []))) as [L|L]; injection E as <- <-.
    + destruct (Nat.leb_spec (length (nth k l [])) n); [lia|]. cbn. eauto.
    + destruct (Nat.leb_spec (length (nth k l [])) n); [|lia]. cbn [verify bind].
      destruct (vv_insert_end_ok m l k (repeat x0 (n - length (nth k l []))) H Z) as (m' & -> & H1). cbn. eauto.
  - apply guard_some in E as (Z & [= <- <-]). apply Nat.ltb_lt in Z.
    destruct (set_ok m l k i x0 H Z) as (m' & -> & H1). cbn. eauto.
  - destruct (nth_error (nth k l []) i) eqn:Q; [|discriminate]. injection E as <- <-.
    destruct (get_ok m l k i a H Q) as (-> & _). cbn. eauto.
  - apply guard_some in E as (Z & E). apply Nat.ltb_lt in Z.
    destruct (nth_error (nth k l []) i) eqn:Q; injection E as <- <-.
    + destruct (get_ok m l k i a H Q) as (_ & ->). cbn. eauto.
    + destruct (vv_bucket_ok m l k H Z) as (_ & _ & BS). unfold vv_bucket_at. rewrite BS. cbn [bind].
      apply nth_error_None in Q. destruct (Nat.ltb_spec i (length (nth k l []))); [lia|]. cbn. eauto.
  - apply guard_some in E as (Z & [= <- <-]). apply Nat.ltb_lt in Z.
    destruct (vv_bucket_ok m l k H Z) as (-> & _). cbn. eauto.
  - apply guard_some in E as (Z & [= <- <-]). apply Nat.ltb_lt in Z.
    destruct (vv_bucket_ok m l k H Z) as (_ & -> & _). cbn. eauto.
  - apply guard_some in E as (Z & [= <- <-]). apply Nat.ltb_lt in Z.
    destruct (vv_bucket_ok m l k H Z) as (_ & _ & ->). cbn. eauto.
  - apply guard_some in E as (Z & E). destruct (Nat.eqb_spec k (length l)) as [|Hne]; [discriminate|]. unfold vv_at.
    destruct (nth_error l k) eqn:Q; injection E as <- <-.
    + assert (Hk : k < length l) by (apply nth_error_Some; congruence).
      destruct (VR_starts m l k H Hk) as (SE & _). rewrite SE, offs_length.
      destruct (Nat.ltb_spec k (length l + 1)); [|lia]. cbn [verify bind].
      destruct (vv_bucket_ok m l k H Hk) as (-> & _). cbn. rewrite (nth_error_nth l k [] Q). eauto.
    + apply nth_error_None in Q. assert (Hs : length (vv_starts m) <= k).
      { destruct H as (_ & [->|(-> & ->)]); [rewrite offs_length; lia|cbn; lia]. }
      destruct (Nat.ltb_spec k (length (vv_starts m))); [lia|]. cbn. eauto.
  - destruct l as [|b l]; [discriminate|]. injection E as <- <-. unfold vv_front, vv_at.
    destruct (VR_starts m _ 0 H) as (SE & _); [cbn; lia|]. rewrite SE. cbn [offs length].
    destruct (vv_bucket_ok m _ 0 H) as (-> & _); [cbn; lia|]. cbn. eauto.
  - unfold vv_back, vv_size.
    assert (L : length (vv_starts m) - 1 = length l).
    { destruct H as (_ & [->|(-> & ->)]); [rewrite offs_length; lia|auto]. }
    rewrite L. destruct (rev l) as [|b r] eqn:Q.
    + injection E as <- <-. apply (f_equal (@length _)) in Q. rewrite rev_length in Q. cbn in Q. rewrite Q. cbn. eauto.
    + injection E as <- <-. apply (f_equal (@rev _)) in Q. rewrite rev_involutive in Q. cbn in Q. rewrite Q in *.
      rewrite app_length in *. cbn [length] in *. destruct (Nat.eqb_spec (length (rev r) + 1) 0); [lia|].
      rewrite Nat.add_sub. unfold vv_at. rewrite (proj1 (VR_starts m _ (length (rev r)) H ltac:(rewrite app_length; cbn; lia))).
      rewrite offs_length, app_length. cbn [length]. destruct (Nat.ltb_spec (length (rev r)) (length (rev r) + 1 + 1)); [|lia].
      cbn [verify bind]. destruct (vv_bucket_ok m _ (length (rev r)) H) as (-> & _); [rewrite app_length; cbn; lia|].
      cbn. rewrite nth_mid. eauto.
  - injection E as <- <-. unfold vv_size.
    assert (L : length (vv_starts m) - 1 = length l).
    { destruct H as (_ & [->|(-> & ->)]); [rewrite offs_length; lia|auto]. }
    rewrite L. eauto.
  - injection E as <- <-. rewrite (vv_all_ok m l H). cbn. eauto.
Qed.
Lemma VR_new : VR vv_new [].
Proof. split; cbn; auto. Qed.
Theorem vv_history ops l outs : shist A (vv_spec A dflt) [] ops = Some (l, outs) ->
  exists m, hist A (vv_step A dflt) vv_new ops = Ok (m, outs) /\ vv_all A m = Ok l.
Proof.
  intros E. destruct (hist_sim (vv_step A dflt) _ VR vv_step_ok ops _ _ _ _ VR_new E) as (m & E1 & H).
  exists m. split; auto. apply vv_all_ok; auto.
Qed.

(* ---- fws_multimap ---- *)
Definition FR (m : fw A) (s : fstate A) : Prop :=
  let '(ks, cur, fin) := s in
  fw_data m = concat ks ++ cur /\ fw_complete m = fin /\
  if fin then cur = [] /\ fw_index m = offs 0 ks
  else fw_index m = firstn (length ks) (offs 0 ks) /\ fw_cur m = len ks.

Lemma fw_get_ok m ks k tail : fw_data m = concat ks ++ tail -> k < length ks ->
  nth_error (fw_index m) k = nth_error (offs 0 ks) k ->
  nth_error (fw_index m) (k + 1) = nth_error (offs 0 ks) (k + 1) ->
  fw_get A m k = Ok (nth k ks []).
Proof.
  intros D Hk E1 E2. destruct (split_nth ks k Hk) as (a & b & E & La). set (x := nth k ks []) in *. clearbody x. subst ks k.
  rewrite offs_mid_begin in E1. rewrite offs_mid_end in E2. unfold fw_get.
  rewrite (idx_some _ _ _ E1), (idx_some _ _ _ E2). cbn [bind].
  rewrite D, concat_mid, <- !app_assoc. apply range_mid; auto.
Qed.
Lemma nth_error_firstn_lt {B} (l : list B) n i : i < n -> nth_error (firstn n l) i = nth_error l i.
Proof. revert n i; induction l; intros [|n] [|i] H; cbn; auto; try lia. apply IHl. lia. Qed.

Lemma fw_step_ok m s o s' x : FR m s -> fw_spec A s o = Some (s', x) ->
  exists m', fw_step A m o = Ok (m', x) /\ FR m' s'.
Proof.
  destruct s as ((ks, cur), fin). intros H E. destruct o; cbn [fw_spec fw_step] in *.
  - apply guard_some in E as (Z & [= <- <-]). destruct fin; [discriminate|]. destruct H as (D & C & I1 & I2). rewrite C.
    eexists. split; [reflexivity|]. cbn. rewrite D, <- app_assoc. auto.
  - apply guard_some in E as (Z & [= <- <-]). destruct fin; [discriminate|]. destruct H as (D & C & I1 & I2). rewrite C.
    eexists. split; [reflexivity|]. cbn. rewrite D, app_nil_r, concat_app. cbn. rewrite app_nil_r. split; auto. split; auto.
    split.
    + rewrite I1, I2, offs_app. rewrite app_length. cbn [length offs].
      set (f := firstn (length ks) (offs 0 ks)).
      assert (Lf : length f = length ks) by (unfold f; rewrite firstn_length, offs_length; lia).
      rewrite <- Lf. rewrite firstn_app, firstn_all2 by lia. replace (length f + 1 - length f) with 1 by lia. reflexivity.
    + unfold len. rewrite concat_app. cbn. rewrite app_nil_r. auto.
  - apply guard_some in E as (Z & [= <- <-]). destruct fin; [discriminate|]. destruct H as (D & C & I1 & I2). rewrite C.
    cbn in Z. apply Nat.eqb_eq in Z. destruct cur; [|discriminate].
    eexists. split; [reflexivity|]. cbn. split; auto. split; auto. split; auto. rewrite I1, D, app_nil_r.
    pose proof (offs_app ks [] 0) as Q. rewrite app_nil_r in Q. rewrite Q at 2. auto.
  - apply guard_some in E as (Z & [= <- <-]). destruct fin; [discriminate|]. pose proof H as (D & C & I1 & I2).
    exists m. split; auto. rewrite I1, firstn_length, offs_length. do 3 f_equal. lia.
  - apply guard_some in E as (Z & [= <- <-]). unfold answer. destruct H as (D & C & I). destruct fin.
    + destruct I as (-> & I). apply Nat.ltb_lt in Z. rewrite (fw_get_ok m ks k [] D Z) by (rewrite I; auto).
      exists m. repeat split; auto.
    + destruct I as (I1 & I2). apply Nat.ltb_lt in Z. rewrite (fw_get_ok m ks k cur D) by (try lia; rewrite I1, nth_error_firstn_lt by lia; auto).
      exists m. repeat split; auto.
  - apply guard_some in E as (Z & [= <- <-]). destruct fin; [|discriminate]. pose proof H as (D & C & -> & I).
    unfold fw_all. rewrite I, offs_length. destruct (Nat.eqb_spec (length ks + 1) 0); [lia|].
    rewrite Nat.add_sub.
    assert (G : forall n k, k + n = length ks -> fw_all_from A m k n = Ok (skipn k ks)).
    { induction n0 as [|n0 IH]; intros k Hk; cbn [fw_all_from].
      - rewrite skipn_all2; auto. lia.
      - rewrite (fw_get_ok m ks k [] D) by (try lia; rewrite I; auto). cbn [bind]. rewrite IH by lia. cbn [bind].
        f_equal. apply skipn_nth. lia. }
    rewrite G by lia. cbn. eauto.
  - apply guard_some in E as (Z & [= <- <-]). destruct fin; [|discriminate]. pose proof H as (D & C & -> & I).
    rewrite I, offs_length. eauto.
  - injection E as <- <-. pose proof H as (D & _). rewrite D, app_length. eauto.
Qed.
Theorem fw_history ops s outs : shist A (fw_spec A) ([], [], false) ops = Some (s, outs) ->
  exists m, hist A (fw_step A) fw_new ops = Ok (m, outs) /\ FR m s.
Proof. intros E. eapply hist_sim; eauto using fw_step_ok. cbn. auto. Qed.
End FP.

(* ---- nvec ---- *)
Section NP.
Variable A : Type.
Notation nest := (nest A).
Definition kids (c : nest) : list nest := match c with Node ns => ns | Leaf _ => [] end.
Notation elems := (elems A).
Fixpoint cum (s : nat) (ws : list nat) : list nat := s :: match ws with [] => [] | w :: ws => cum (s + w) ws end.
Fixpoint sum (ws : list nat) : nat := match ws with [] => 0 | w :: ws => w + sum ws end.

Fixpoint nest_rec' (P : nest -> Prop) (HL : forall xs, P (Leaf xs)) (HN : forall ns, Forall P ns -> P (Node ns)) (c : nest) : P c :=
  match c with
  | Leaf xs => HL xs
  | Node ns => HN ns ((fix all l : Forall P l := match l with [] => Forall_nil P | c :: l => Forall_cons c (nest_rec' P HL HN c) (all l) end) ns)
  end.

Lemma depth_leaf (n : nat) c : depth A 1 c <-> exists xs, c = Leaf xs.
Proof. clear n. destruct c; cbn; split; eauto; try tauto. intros (xs & [=]). Qed.
Lemma depth_node n c : depth A (S (S n)) c <-> exists ns, c = Node ns /\ Forall (depth A (S n)) ns.
Proof.
  destruct c as [xs|ns]; cbn [depth]; split; try tauto.
  - intros (ns & [=] & _).
  - intros H. exists ns. split; auto. induction ns as [|c ns IH]; constructor; [apply H|apply IH, H].
  - intros (ns' & [= <-] & H). induction H; auto.
Qed.

Lemma cum_length s ws : length (cum s ws) = length ws + 1.
Proof. revert s; induction ws as [|w ws IH]; intros s; cbn [cum length]; auto. rewrite IH. lia. Qed.
Lemma cum_nth ws : forall s k, k <= length ws -> nth_error (cum s ws) k = Some (s + sum (firstn k ws)).
Proof.
  induction ws as [|x l IH]; intros s [|k] H; cbn in *; try lia; try (f_equal; lia).
  rewrite IH by lia. f_equal. lia.
Qed.
Lemma cum_snoc ws w s : cum s (ws ++ [w]) = cum s ws ++ [s + sum ws + w].
Proof.
  revert s; induction ws as [|y l IH]; intros s; cbn; [f_equal; f_equal; lia|].
  rewrite IH. do 3 f_equal. lia.
Qed.
Lemma sum_app a b : sum (a ++ b) = sum a + sum b.
Proof. induction a; cbn; auto. lia. Qed.

(* the containers d levels below those of l *)
Fixpoint down (d : nat) (l : list nest) : list nest :=
  match d with O => l | S d => down d (concat (map kids l)) end.
Lemma down_app d : forall a b, down d (a ++ b) = down d a ++ down d b.
Proof. induction d as [|d IH]; intros a b; cbn; auto. rewrite map_app, concat_app. apply IH. Qed.
Lemma down_S d : forall l, down (S d) l = concat (map kids (down d l)).
Proof. induction d as [|d IH]; intros l; auto. cbn [down]. rewrite <- IH. auto. Qed.

Definition Rep (m : nv A) (n : nat) (lv : nat -> list nest) : Prop :=
  length (nv_index m) = n /\ nv_data m = concat (map elems (lv 0)) /\
  (forall j, j < n -> nth_error (nv_index m) j = Some (cum 0 (map (width A) (lv j)))) /\
  (forall j, j < n -> Forall (depth A (S j)) (lv j)).
Definition cons (L : nat) (lv : nat -> list nest) : Prop := forall j, j < L -> lv j = concat (map kids (lv (S j))).
Definition addlv (L : nat) (l : list nest) (lv : nat -> list nest) : nat -> list nest :=
  fun j => if j <=? L then lv j ++ down (L - j) l else lv j.

Lemma widths_kids n l : Forall (depth A (S (S n))) l -> sum (map (width A) l) = length (concat (map kids l)).
Proof.
  induction 1 as [|c l H _ IH]; cbn; auto. apply depth_node in H as (ns & -> & _). cbn. rewrite app_length, IH. auto.
Qed.
Lemma widths_elems l : Forall (depth A 1) l -> sum (map (width A) l) = length (concat (map elems l)).
Proof.
  induction 1 as [|c l H _ IH]; cbn; auto. apply (depth_leaf 0) in H as (ns & ->). cbn. rewrite app_length, IH. auto.
Qed.
Lemma down_depth d : forall n l, Forall (depth A (S (d + n))) l -> Forall (depth A (S n)) (down d l).
Proof.
  induction d as [|d IH]; intros n l H; cbn; auto. apply IH. cbn [Nat.add] in H.
  induction H as [|c l H _ IHl]; cbn; auto. apply depth_node in H as (ns & -> & H). cbn. apply Forall_app; auto.
Qed.
Lemma addlv_depth L l lv n : Forall (depth A (S L)) l -> (forall j, j < n -> Forall (depth A (S j)) (lv j)) ->
  forall j, j < n -> Forall (depth A (S j)) (addlv L l lv j).
Proof.
  intros Hl H j Hj. unfold addlv. destruct (Nat.leb_spec j L); auto. apply Forall_app. split; auto.
  apply down_depth. replace (L - j + j) with L by lia. auto.
Qed.
Lemma push_at_ok l L s v : nth_error l L = Some s -> push_at l L v = Ok (upd L (s ++ [v]) l).
Proof.
  intros H. unfold push_at, put, idx. rewrite H. cbn [bind].
  destruct (Nat.ltb_spec L (length l)) as [|Q]; auto. apply nth_error_None in Q. congruence.
Qed.

Lemma nv_add_ok c : forall L m n lv, depth A (S L) c -> L < n -> Rep m n lv -> cons L lv ->
  exists m', nv_add A L m c = Ok m' /\ Rep m' n (addlv L [c] lv) /\ cons L (addlv L [c] lv).
Proof.
  induction c as [xs|ns IH] using nest_rec'; intros L m n lv Hd HL (Hn & HD & HI & HF) HC.
  - destruct L as [|L]; [|cbn in Hd; tauto]. cbn [nv_add].
    rewrite (push_at_ok _ 0 _ _ (HI 0 HL)). cbn [bind]. eexists. split; [reflexivity|]. split; [|intros j Hj; lia].
    split; [cbn [nv_index]; rewrite upd_length; auto|]. split; [|split].
    + cbn. rewrite HD, map_app, concat_app. cbn. rewrite app_nil_r. auto.
    + intros j Hj. cbn [nv_index]. rewrite nth_error_upd. unfold addlv. destruct j as [|j]; cbn [Nat.leb Nat.eqb].
      * destruct (Nat.ltb_spec 0 (length (nv_index m))); [|lia]. cbn [andb]. f_equal. rewrite map_app. cbn [down Nat.sub map].
        rewrite cum_snoc. do 3 f_equal. cbn [width]. rewrite widths_elems, <- HD by (apply HF; lia). lia.
      * apply HI; auto.
    + apply addlv_depth; auto.
  - destruct L as [|L]; [cbn in Hd; tauto|]. pose proof Hd as Hd0. apply depth_node in Hd as (ns' & [= <-] & Hd).
    cbn [nv_add]. unfold idx. rewrite (HI L) by lia. cbn [bind].
    rewrite (push_at_ok _ _ _ _ (HI (S L) HL)). cbn [bind].
    set (m1 := NV _ _).
    set (lv1 := fun j => if j =? S L then lv j ++ [Node ns] else lv j).
    assert (R1 : Rep m1 n lv1).
    { split; [cbn [m1 nv_index]; rewrite upd_length; auto|]. split; [|split].
      - cbn. auto.
      - intros j Hj. cbn [m1 nv_index]. rewrite nth_error_upd. unfold lv1. destruct (Nat.eqb_spec (S L) j) as [<-|Hne].
        + rewrite Nat.eqb_refl. destruct (Nat.ltb_spec (S L) (length (nv_index m))); [|lia]. cbn [andb]. f_equal.
          rewrite map_app. cbn [map]. rewrite cum_snoc. do 2 f_equal. cbn [width]. rewrite (widths_kids L) by (apply HF; lia).
          rewrite <- HC by lia. rewrite cum_length, map_length. lia.
        + destruct (Nat.eqb_spec j (S L)); [congruence|]. cbn [andb]. apply HI; auto.
      - intros j Hj. unfold lv1. destruct (Nat.eqb_spec j (S L)) as [->|]; auto. apply Forall_app; auto. }
    assert (C1 : cons L lv1).
    { intros j Hj. unfold lv1. destruct (Nat.eqb_spec j (S L)); [lia|]. destruct (Nat.eqb_spec (S j) (S L)); [lia|]. apply HC. lia. }
    clearbody m1. 
    assert (G : forall ns m1 lv1, Forall (fun c => forall L m n lv, depth A (S L) c -> L < n -> Rep m n lv -> cons L lv ->
        exists m', nv_add A L m c = Ok m' /\ Rep m' n (addlv L [c] lv) /\ cons L (addlv L [c] lv)) ns ->
       Forall (depth A (S L)) ns -> Rep m1 n lv1 -> cons L lv1 ->
       exists m', (fix all (m : nv A) (ns : list nest) : res (nv A) :=
         match ns with
         | [] => Ok m
         | n :: ns => let* m := nv_add A L m n in all m ns
         end) m1 ns = Ok m' /\ Rep m' n (addlv L ns lv1) /\ cons L (addlv L ns lv1)).
    { clear -HL. induction ns as [|c ns IHns]; intros m1 lv1 IH Hd R1 C1.
      - exists m1. split; auto. assert (Q : forall j, addlv L [] lv1 j = lv1 j).
        { intros j. unfold addlv. destruct (j <=? L); auto. replace (down (L - j) []) with (@nil nest); [apply app_nil_r|].
          clear. induction (L - j); auto. }
        split.
        + destruct R1 as (Hn & HD & HI & HF). repeat split; auto.
          * rewrite Q. auto.
          * intros j Hj. rewrite Q. auto.
          * intros j Hj. rewrite Q. auto.
        + intros j Hj. rewrite !Q. apply C1; auto.
      - inversion IH as [|? ? IHc IHr]; subst. inversion Hd as [|? ? Hc Hr]; subst.
        destruct (IHc L m1 n lv1 Hc ltac:(lia) R1 C1) as (m2 & -> & R2 & C2). cbn [bind].
        destruct (IHns m2 _ IHr Hr R2 C2) as (m3 & -> & R3 & C3). exists m3. split; auto.
        assert (Q : forall j, addlv L ns (addlv L [c] lv1) j = addlv L (c :: ns) lv1 j).
        { intros j. unfold addlv. destruct (j <=? L); auto. change (c :: ns) with ([c] ++ ns). rewrite down_app, app_assoc. auto. }
        split.
        + destruct R3 as (Hn & HD & HI & HF). repeat split; auto.
          * rewrite <- Q. auto.
          * intros j Hj. rewrite <- Q. auto.
          * intros j Hj. rewrite <- Q. auto.
        + intros j Hj. rewrite <- !Q. apply C3; auto. }
    destruct (G ns m1 lv1 IH Hd R1 C1) as (m' & -> & R & C). exists m'. split; auto.
    assert (Q : forall j, addlv L ns lv1 j = addlv (S L) [Node ns] lv j).
    { intros j. unfold addlv, lv1. destruct (Nat.leb_spec j L).
      - destruct (Nat.eqb_spec j (S L)); [lia|]. destruct (Nat.leb_spec j (S L)); [|lia].
        replace (S L - j) with (S (L - j)) by lia. cbn [down map kids concat]. rewrite app_nil_r. auto.
      - destruct (Nat.eqb_spec j (S L)) as [->|].
        + rewrite Nat.leb_refl, Nat.sub_diag. auto.
        + destruct (Nat.leb_spec j (S L)); auto. lia. }
    split.
    + destruct R as (Hn' & HD' & HI' & HF'). repeat split; auto.
      * rewrite <- Q. auto.
      * intros j Hj. rewrite <- Q. auto.
      * intros j Hj. rewrite <- Q. auto.
    + intros j Hj. destruct (Nat.eq_dec j L) as [->|].
      * unfold addlv. destruct (Nat.leb_spec L (S L)); [|lia]. rewrite Nat.leb_refl, Nat.sub_diag.
        replace (S L - L) with 1 by lia. cbn [down]. rewrite map_app, concat_app, (HC L) by lia. auto.
      * rewrite <- !Q. apply C. lia.
Qed.

(* the whole container *)
Definition NR (n : nat) (m : nv A) (l : list nest) : Prop :=
  l = [] /\ m = nv_new n \/ Rep m n (fun j => down (n - 1 - j) l) /\ cons (n - 1) (fun j => down (n - 1 - j) l).

Lemma Rep_ext m n lv lv' : (forall j, j < n -> lv j = lv' j) -> 0 < n -> Rep m n lv -> Rep m n lv'.
Proof.
  intros Q P (Hn & HD & HI & HF). repeat split; auto.
  - rewrite <- Q; auto.
  - intros j Hj. rewrite <- Q; auto.
  - intros j Hj. rewrite <- Q; auto.
Qed.
Lemma down_nil d : down d [] = [].
Proof. induction d; auto. Qed.

Lemma nv_emplace_ok n m l c : 0 < n -> depth A n c -> NR n m l ->
  exists m', nv_emplace_back A n m c = Ok m' /\ NR n m' (l ++ [c]).
Proof.
  intros P Hc H.
  assert (K : forall m0 lv0, Rep m0 n lv0 -> cons (n - 1) lv0 -> (forall j, j < n -> lv0 j = down (n - 1 - j) l) ->
            exists m', nv_add A (n - 1) m0 c = Ok m' /\ NR n m' (l ++ [c])).
  { intros m0 lv0 R C Q. destruct (nv_add_ok c (n - 1) m0 n lv0) as (m' & E & R' & C'); auto; try lia.
    { replace (S (n - 1)) with n by lia. auto. }
    exists m'. split; auto. right. assert (Q' : forall j, j < n -> addlv (n - 1) [c] lv0 j = down (n - 1 - j) (l ++ [c])).
    { intros j Hj. unfold addlv. destruct (Nat.leb_spec j (n - 1)); [|lia]. rewrite Q, down_app; auto. }
    split; [eapply Rep_ext; eauto|]. intros j Hj. rewrite <- !Q' by lia. apply C'. auto. }
  unfold nv_emplace_back, idx. destruct H as [(-> & ->)|(R & C)].
  - cbn [nv_new nv_index nv_data]. destruct n as [|n]; [lia|]. cbn [repeat nth_error bind length Nat.eqb].
    apply (K _ (fun j => down (S n - 1 - j) [])); auto.
    + change ([] :: repeat [] n) with (@repeat (list nat) [] (S n)).
      split; [cbn [nv_index]; rewrite map_length, repeat_length; auto|]. split; [cbn [nv_data]; rewrite down_nil; auto|]. split.
      * intros j Hj. cbn [nv_index]. rewrite down_nil. cbn [map cum]. rewrite nth_error_map.
        rewrite (nth_error_nth' _ []) by (rewrite repeat_length; auto). cbn [option_map]. rewrite nth_repeat. auto.
      * intros j Hj. rewrite down_nil. constructor.
    + intros j Hj. rewrite !down_nil. auto.
  - pose proof R as (Hn & HD & HI & HF). rewrite (HI 0) by lia. cbn [bind]. rewrite cum_length.
    destruct (Nat.eqb_spec (length (map (width A) (down (n - 1 - 0) l)) + 1) 0); [lia|]. eapply K; eauto.
Qed.

Lemma nv_build_ok n cs : 0 < n -> Forall (depth A n) cs -> forall m l, NR n m l -> exists m', nv_build A n m cs = Ok m' /\ NR n m' (l ++ cs).
Proof.
  intros P. induction 1 as [|c cs Hc _ IH]; intros m l H; cbn [nv_build].
  - rewrite app_nil_r. eauto.
  - destruct (nv_emplace_ok n m l c P Hc H) as (m1 & -> & H1). cbn [bind].
    destruct (IH m1 _ H1) as (m2 & -> & H2). rewrite <- app_assoc in H2. eauto.
Qed.

(* reading *)
Lemma sum_firstn_S ws k w : nth_error ws k = Some w -> sum (firstn (k + 1) ws) = sum (firstn k ws) + w.
Proof.
  intros H. destruct (nth_error_split _ _ H) as (a & b & -> & <-). rewrite firstn_mid1, firstn_mid, sum_app. cbn. lia.
Qed.
Lemma idx_cum (lv : nat -> list nest) L p c : nth_error (lv L) p = Some c ->
  idx (cum 0 (map (width A) (lv L))) p = Ok (sum (map (width A) (firstn p (lv L)))) /\
  idx (cum 0 (map (width A) (lv L))) (p + 1) = Ok (sum (map (width A) (firstn p (lv L))) + width A c).
Proof.
  intros H. assert (Hp : p < length (lv L)) by (apply nth_error_Some; congruence).
  unfold idx. rewrite !cum_nth by (rewrite map_length; lia). rewrite !firstn_map. split; auto. f_equal. cbn [Nat.add].
  rewrite <- !firstn_map. apply sum_firstn_S. rewrite nth_error_map, H. auto.
Qed.
Lemma kid_at (l : list nest) n p ns i c : Forall (depth A (S (S n))) l -> nth_error l p = Some (Node ns) -> nth_error ns i = Some c ->
  nth_error (concat (map kids l)) (sum (map (width A) (firstn p l)) + i) = Some c.
Proof.
  intros F H Hc. destruct (nth_error_split _ _ H) as (a & b & -> & <-). rewrite firstn_mid.
  apply Forall_app in F as (Fa & _). rewrite (widths_kids n) by auto. rewrite map_app, concat_app. cbn.
  apply nth_error_split_app; auto.
Qed.

Lemma nv_below_ok m n lv : Rep m n lv -> cons (n - 1) lv ->
  forall L p c, L < n -> nth_error (lv L) p = Some c -> nv_below A m L p = Ok c.
Proof.
  intros (Hn & HD & HI & HF) HC. induction L as [|L IH]; intros p c HL Hp.
  - cbn [nv_below]. rewrite (idx_some _ _ _ (HI 0 HL)). cbn [bind].
    destruct (idx_cum lv 0 p c Hp) as (-> & ->). cbn [bind].
    pose proof (HF 0 HL) as F. destruct (nth_error_split _ _ Hp) as (a & b & E & <-). rewrite E in *.
    apply Forall_app in F as (Fa & Fc). inversion Fc as [|? ? Hc _]; subst. apply (depth_leaf 0) in Hc as (xs & ->).
    rewrite firstn_mid, widths_elems by auto. rewrite HD, map_app, concat_app. cbn [map elems concat].
    rewrite range_mid; auto.
  - cbn [nv_below]. rewrite (idx_some _ _ _ (HI (S L) HL)). cbn [bind].
    destruct (idx_cum lv (S L) p c Hp) as (-> & ->). cbn [bind].
    set (b := sum _). destruct (Nat.leb_spec b (b + width A c)); [|lia].
    pose proof (HF (S L) HL) as F. pose proof (proj1 (Forall_forall _ _) F c (nth_error_In _ _ Hp)) as Hc.
    apply depth_node in Hc as (ns & -> & Hns). cbn [width]. rewrite Nat.add_comm, Nat.add_sub.
    assert (G : forall k j, j + k = length ns ->
      (fix all (q n : nat) : res (list nest) :=
                      match n with
                      | O => Ok []
                      | S n => let* x := nv_below A m L q in let* xs := all (S q) n in Ok (x :: xs)
                      end) (b + j) k = Ok (skipn j ns)).
    { induction k as [|k IHk]; intros j Hj.
      - rewrite skipn_all2 by lia. auto.
      - destruct (nth_error ns j) as [c|] eqn:Q; [|apply nth_error_None in Q; lia].
        rewrite (IH (b + j) c); [|lia|]. 2: { rewrite HC by lia. apply (kid_at _ L _ ns); auto. }
        cbn [bind]. rewrite <- Nat.add_succ_r. rewrite IHk by lia. cbn [bind]. f_equal.
        rewrite <- (nth_error_nth _ _ c Q). apply skipn_nth. lia. }
    specialize (G (length ns) 0). rewrite Nat.add_0_r in G. rewrite G by lia. auto.
Qed.
Lemma nv_pos_ok m n lv : Rep m n lv -> cons (n - 1) lv ->
  forall path L p c c', L < n -> nth_error (lv L) p = Some c -> sub A c path = Some c' ->
  exists L' q, nv_pos A m L p path = Ok (L', q) /\ L' < n /\ nth_error (lv L') q = Some c'.
Proof.
  intros (Hn & HD & HI & HF) HC. induction path as [|i path IH]; intros L p c c' HL Hp E; cbn [sub nv_pos] in *.
  { exists L, p. injection E as <-. split; [destruct L; reflexivity|auto]. }
  destruct c as [xs|ns]; [discriminate|]. destruct (nth_error ns i) as [c|] eqn:Q; [|discriminate].
  pose proof (proj1 (Forall_forall _ _) (HF L HL) _ (nth_error_In _ _ Hp)) as Hc.
  destruct L as [|L]; [apply (depth_leaf 0) in Hc as (xs & [=])|]. cbn [nv_pos].
  rewrite (idx_some _ _ _ (HI (S L) HL)). cbn [bind]. destruct (idx_cum lv (S L) p _ Hp) as (-> & _). cbn [bind].
  eapply IH; eauto; [lia|]. rewrite HC by lia. eapply kid_at; eauto.
Qed.
Lemma nv_len_ok m n lv : Rep m n lv -> forall L p c, L < n -> nth_error (lv L) p = Some c -> nv_len A m L p = Ok (width A c).
Proof.
  intros (Hn & HD & HI & HF) L p c HL Hp. unfold nv_len. rewrite (idx_some _ _ _ (HI L HL)). cbn [bind].
  destruct (idx_cum lv L p _ Hp) as (-> & ->). cbn [bind]. set (b := sum _).
  destruct (Nat.leb_spec b (b + width A c)); [|lia]. f_equal. lia.
Qed.

Theorem nvec_ok n cs : 0 < n -> Forall (depth A n) cs ->
  exists m, nv_build A n (nv_new n) cs = Ok m /\
    nv_size A n m = Ok (length cs) /\
    forall k path c c', nth_error cs k = Some c -> sub A c path = Some c' ->
      nv_path A n m (k :: path) = Ok c' /\ nv_path_size A n m (k :: path) = Ok (width A c').
Proof.
  intros P F. destruct (nv_build_ok n cs P F (nv_new n) []) as (m & E & H); [left; auto|]. cbn [app] in H.
  exists m. split; auto. destruct H as [(-> & ->)|(R & C)].
  - split; [|intros [|k] path c c' [=]]. unfold nv_size, idx, nv_new. cbn [nv_index].
    rewrite (nth_error_nth' _ []) by (rewrite repeat_length; lia). rewrite nth_repeat. auto.
  - set (lv := fun j => down (n - 1 - j) cs) in *.
    assert (T : lv (n - 1) = cs) by (unfold lv; rewrite Nat.sub_diag; auto). split.
    + pose proof R as (Hn & HD & HI & HF). unfold nv_size. rewrite (idx_some _ _ _ (HI (n - 1) ltac:(lia))). cbn [bind].
      rewrite cum_length, map_length, T. f_equal. lia.
    + intros k path c c' Hk Hs. rewrite <- T in Hk.
      destruct (nv_pos_ok m n lv R C path (n - 1) k c c' ltac:(lia) Hk Hs) as (L & q & Ep & HL & Hq).
      cbn [nv_path nv_path_size]. rewrite Ep. cbn [bind]. split; [eapply nv_below_ok|eapply nv_len_ok]; eauto.
Qed.

Theorem nvec2_ok cs : Forall (depth A 2) cs ->
  exists m, nv_build A 2 (nv_new 2) cs = Ok m /\
    forall k i c c', nth_error cs k = Some c -> sub A c [i] = Some c' ->
      nv_at2 A m k i = Ok (elems c') /\ nv_size_of A 2 m k [i] = Ok (width A c').
Proof.
  intros F. destruct (nv_build_ok 2 cs ltac:(lia) F (nv_new 2) []) as (m & E & H); [left; auto|]. cbn [app] in H.
  exists m. split; auto. destruct H as [(-> & ->)|(R & C)].
  - intros [|k] i c c' [=].
  - set (lv := fun j => down (2 - 1 - j) cs) in *. intros k i c c' Hk Hs.
    pose proof R as (Hn & HD & HI & HF). change cs with (lv 1) in Hk.
    pose proof (proj1 (Forall_forall _ _) (HF 1 ltac:(lia)) _ (nth_error_In _ _ Hk)) as Hc.
    apply depth_node in Hc as (ns & -> & Hns). cbn [sub] in Hs.
    destruct (nth_error ns i) as [c1|] eqn:Q; [|discriminate]. injection Hs as ->.
    pose proof (kid_at _ 0 _ _ _ _ (HF 1 ltac:(lia)) Hk Q) as H0. rewrite <- (C 0) in H0 by lia.
    assert (Hk2 : k < length (lv 1)) by (apply nth_error_Some; congruence).
    unfold nv_at2, nv_size_of. cbn [length Nat.sub Nat.eqb nv_get_size].
    rewrite !(idx_some _ _ _ (HI 1 ltac:(lia))), !(idx_some _ _ _ (HI 0 ltac:(lia))). cbn [bind].
    rewrite cum_length, map_length. destruct (Nat.ltb_spec k (length (lv 1) + 1)); [|lia]. cbn [verify bind].
    destruct (idx_cum lv 1 k _ Hk) as (-> & _). cbn [bind].
    destruct (idx_cum lv 0 _ _ H0) as (-> & ->). cbn [bind]. split.
    + pose proof (nv_below_ok m 2 lv R C 0 _ _ ltac:(lia) H0) as B. cbn [nv_below] in B.
      rewrite !(idx_some _ _ _ (HI 0 ltac:(lia))) in B. cbn [bind] in B.
      destruct (idx_cum lv 0 _ _ H0) as (Q1 & Q2). rewrite Q1, Q2 in B. cbn [bind] in B.
      destruct (range _ _ _); try discriminate. cbn in B. injection B as <-. auto.
    + set (b := sum _). destruct (Nat.leb_spec b (b + width A c')); [|lia]. f_equal. lia.
Qed.
End NP.

(* ---- flat_matrix ---- *)
Section MP.
Variable A : Type.
Variable dflt : A.
Definition MR (m : fm A) (s : mstate A) : Prop :=
  let '(r, c, rows) := s in
  N.to_nat (fm_rows m) = r /\ N.to_nat (fm_cols m) = c /\ (fm_rows m < W32 /\ fm_cols m < W32 /\ fm_rows m * fm_cols m < W32)%N /\
  fm_entries m = concat rows /\ length rows = r /\ Forall (fun x => length x = c) rows.

Lemma concat_uniform c (rows : list (list A)) : Forall (fun x => length x = c) rows -> length (concat rows) = c * length rows.
Proof. induction 1 as [|x l H _ IH]; cbn; [lia|]. rewrite app_length, IH, H. lia. Qed.
Lemma nth_uniform c (rows : list (list A)) : Forall (fun x => length x = c) rows -> forall i j, i < length rows -> j < c ->
  nth_error (concat rows) (c * i + j) = nth_error (nth i rows []) j.
Proof.
  intros F i j Hi Hj. destruct (split_nth A rows i Hi) as (a & b & E & La). set (x := nth i rows []) in *. clearbody x.
  subst rows i. apply Forall_app in F as (Fa & Fx). inversion Fx; subst.
  rewrite concat_mid. rewrite <- (concat_uniform _ _ Fa), nth_error_app2 by lia.
  replace (_ + j - _) with j by lia. rewrite nth_error_app1; auto.
Qed.
Lemma upd_uniform c (rows : list (list A)) x : Forall (fun x => length x = c) rows -> forall i j, i < length rows -> j < c ->
  upd (c * i + j) x (concat rows) = concat (upd i (upd j x (nth i rows [])) rows) /\
  Forall (fun x => length x = c) (upd i (upd j x (nth i rows [])) rows).
Proof.
  intros F i j Hi Hj. destruct (split_nth A rows i Hi) as (a & b & E & La). set (y := nth i rows []) in *. clearbody y.
  subst rows i. pose proof F as F0. apply Forall_app in F as (Fa & Fx). inversion Fx; subst. rewrite upd_mid. split.
  - rewrite !concat_mid. rewrite <- (concat_uniform _ _ Fa), upd_app2, upd_app1; auto.
  - apply Forall_app. split; auto. constructor; auto. apply upd_length.
Qed.
Lemma map_seq_nth (l : list A) n : length l <= n -> map (fun i => nth i l dflt) (seq 0 n) = l ++ repeat dflt (n - length l).
Proof.
  intros H. apply (nth_ext _ _ dflt dflt).
  - rewrite map_length, seq_length, app_length, repeat_length. lia.
  - intros i Hi. rewrite map_length, seq_length in Hi.
    rewrite (nth_indep _ dflt (nth 0 l dflt)) by (rewrite map_length, seq_length; auto).
    rewrite (map_nth (fun i => nth i l dflt)), seq_nth by auto. cbn [Nat.add].
    destruct (lt_dec i (length l)).
    + rewrite app_nth1; auto.
    + rewrite app_nth2, nth_repeat, nth_overflow; auto; lia.
Qed.
Lemma concat_chunks (f : nat -> A) c r : concat (map (fun i => map (fun j => f (c * i + j)) (seq 0 c)) (seq 0 r)) = map f (seq 0 (c * r)).
Proof.
  induction r as [|r IH]; [rewrite Nat.mul_0_r; auto|].
  rewrite seq_S, map_app, concat_app, IH. cbn [map concat Nat.add]. rewrite app_nil_r.
  replace (c * S r) with (c * r + c) by lia. rewrite seq_app, map_app. f_equal. cbn [Nat.add].
  clear. generalize (c * r). induction c as [|c IH] using nat_ind; intros s; auto.
  rewrite !seq_S, !map_app. rewrite IH. auto.
Qed.
Lemma m_resize_entries r c (rows : list (list A)) :
  concat (m_resize A dflt r c rows) = res_resize dflt (concat rows) (r * c).
Proof.
  unfold m_resize. rewrite (concat_chunks (fun i => nth i (concat rows) dflt)). unfold res_resize. rewrite (Nat.mul_comm r c).
  generalize (c * r) (concat rows). clear. intros n l. destruct (le_lt_dec (length l) n).
  - rewrite map_seq_nth by auto. rewrite firstn_all2 by auto. auto.
  - replace (n - length l) with 0 by lia. cbn [repeat]. rewrite app_nil_r.
    pose proof (map_seq_nth (firstn n l) n) as Q. rewrite firstn_length_le, Nat.sub_diag in Q by lia. cbn [repeat] in Q.
    rewrite app_nil_r in Q. rewrite <- Q by auto. apply map_ext_in. intros i Hi. apply in_seq in Hi.
    rewrite <- (firstn_skipn n l) at 1. rewrite app_nth1; auto. rewrite firstn_length. lia.
Qed.
Lemma concat_repeat (x : A) c r : concat (repeat (repeat x c) r) = repeat x (r * c).
Proof. induction r as [|r IH]; cbn; auto. rewrite IH, repeat_app. auto. Qed.

Lemma N_cell (r c i j : N) : (r * c < W32)%N -> (i < r)%N -> (j < c)%N -> (c * i + j < W32)%N.
Proof. intros H Hi Hj. apply N.lt_le_trans with (c * (i + 1))%N; [lia|]. apply N.le_trans with (c * r)%N; [apply N.mul_le_mono_l; lia|lia]. Qed.
Lemma fm_pos_ok (m : fm A) i j : (fm_rows m * fm_cols m < W32)%N -> (i < fm_rows m)%N -> (j < fm_cols m)%N ->
  fm_pos A m i j = N.to_nat (fm_cols m) * N.to_nat i + N.to_nat j.
Proof.
  intros H Hi Hj. unfold fm_pos, wrap32. rewrite N.mod_small by (eapply N_cell; eauto). lia.
Qed.

Lemma fm_step_ok m s o s' x : MR m s -> fm_spec A dflt s o = Some (s', x) ->
  exists m', fm_step A dflt m o = Ok (m', x) /\ MR m' s'.
Proof.
  destruct s as ((r, c), rows). intros H E.
  assert (CELL : forall i j, N.to_nat i < r -> N.to_nat j < c ->
    (i <? fm_rows m)%N = true /\ (j <? fm_cols m)%N = true /\ fm_pos A m i j = c * N.to_nat i + N.to_nat j).
  { intros i j Hi Hj. destruct H as (Hr & Hc & (W1 & W2 & W3) & _). subst r c.
    assert (i < fm_rows m)%N by lia. assert (j < fm_cols m)%N by lia. rewrite fm_pos_ok by auto.
    repeat split; auto; apply N.ltb_lt; auto. }
  assert (READ : forall i j, N.to_nat i < r -> N.to_nat j < c ->
    idx (fm_entries m) (fm_pos A m i j) = Ok (nth (N.to_nat j) (nth (N.to_nat i) rows []) dflt)).
  { intros i j Hi Hj. destruct (CELL i j Hi Hj) as (_ & _ & ->). destruct H as (Hr & Hc & _ & HE & Hl & F).
    apply idx_some. rewrite HE, (nth_uniform c) by (auto; lia). apply nth_error_nth'.
    rewrite (proj1 (Forall_forall _ _) F); auto. apply nth_In. lia. }
  destruct o; cbn [fm_spec fm_step] in *.
  - apply guard_some in E as (Z & [= <- <-]). eexists. split; [reflexivity|].
    apply andb_true_iff in Z as (Z & Z3). apply andb_true_iff in Z as (Z1 & Z2). apply N.ltb_lt in Z1, Z2, Z3.
    destruct H as (Hr & Hc & _ & HE & Hl & F). cbn [fm_resize MR fm_rows fm_cols fm_entries]. unfold wrap32.
    rewrite !N.mod_small by auto. split; auto. split; auto. split; auto. split; [|split].
    + rewrite m_resize_entries, HE. f_equal. lia.
    + unfold m_resize. rewrite map_length, seq_length. auto.
    + unfold m_resize. apply Forall_map, Forall_forall. intros i _. rewrite map_length, seq_length. auto.
  - apply guard_some in E as (Z & [= <- <-]). eexists. split; [reflexivity|].
    apply andb_true_iff in Z as (Z & Z3). apply andb_true_iff in Z as (Z1 & Z2). apply N.ltb_lt in Z1, Z2, Z3.
    cbn [fm_make MR fm_rows fm_cols fm_entries]. unfold wrap32. rewrite !N.mod_small by auto.
    split; auto. split; auto. split; auto. split; [|split].
    + rewrite concat_repeat. f_equal. lia.
    + apply repeat_length.
    + apply Forall_forall. intros y Hy. apply repeat_spec in Hy. subst y. apply repeat_length.
  - apply guard_some in E as (Z & [= <- <-]). apply andb_true_iff in Z as (Z1 & Z2). apply Nat.ltb_lt in Z1, Z2.
    destruct (CELL i j Z1 Z2) as (E1 & E2 & E3). unfold fm_set. rewrite E1, E2, E3. cbn [andb].
    destruct H as (Hr & Hc & W & HE & Hl & F). rewrite HE. unfold put.
    destruct (Nat.ltb_spec (c * N.to_nat i + N.to_nat j) (length (concat rows))) as [L|L].
    2: { exfalso. rewrite (concat_uniform c) in L by auto. nia. }
    cbn [bind become]. eexists. split; [reflexivity|]. cbn [MR fm_rows fm_cols fm_entries].
    destruct (upd_uniform c rows x0 F (N.to_nat i) (N.to_nat j)) as (U1 & U2); auto; try lia.
    rewrite upd_length. auto 10.
  - apply guard_some in E as (Z & [= <- <-]). apply andb_true_iff in Z as (Z1 & Z2). apply Nat.ltb_lt in Z1, Z2.
    destruct (CELL i j Z1 Z2) as (E1 & E2 & E3). unfold fm_get. rewrite E1, E2, READ by auto. cbn. eauto.
  - apply guard_some in E as (Z2 & [= <- <-]). apply Nat.ltb_lt in Z2. unfold fm_at.
    destruct (Nat.ltb_spec (N.to_nat i) r) as [L|L].
    + destruct (CELL i j L Z2) as (E1 & E2 & E3). rewrite E1, E2, READ by auto. cbn. eauto.
    + pose proof H as (Hr & _). destruct (N.ltb_spec i (fm_rows m)); [lia|]. cbn. eauto.
  - injection E as <- <-. eexists. split; [reflexivity|]. destruct H as (Hr & Hc & W & HE & Hl & F).
    cbn [fm_reset MR fm_rows fm_cols fm_entries]. split; auto. split; auto. split; auto. split; [|split].
    + rewrite concat_repeat, HE. rewrite <- Hl. clear -F. induction F as [|y l Hy _ IH]; cbn; auto.
      rewrite map_app, IH, repeat_app. f_equal. subst c. clear. induction y; cbn; congruence.
    + apply repeat_length.
    + apply Forall_forall. intros y Hy. apply repeat_spec in Hy. subst y. apply repeat_length.
Qed.
Lemma MR_new : MR fm_new (0, 0, []).
Proof. split; [reflexivity|]. split; [reflexivity|]. split; [repeat split; reflexivity|]. repeat split; auto. Qed.
Theorem fm_history ops s outs : shist A (fm_spec A dflt) (0, 0, []) ops = Some (s, outs) ->
  exists m, hist A (fm_step A dflt) fm_new ops = Ok (m, outs).
Proof.
  intros E. destruct (hist_sim A (fm_step A dflt) _ MR fm_step_ok ops fm_new _ _ _ MR_new E) as (m & E1 & _).
  eauto.
Qed.
(* with unchanged columns, resizing keeps all the cells that are left *)
Lemma resize_keeps r c (rows : list (list A)) i j : Forall (fun x => length x = c) rows -> i < length rows -> i < r -> j < c ->
  nth j (nth i (m_resize A dflt r c rows) []) dflt = nth j (nth i rows []) dflt.
Proof.
  intros F Hi Hr Hj. unfold m_resize.
  rewrite (nth_indep _ [] (map (fun j => nth (c * 0 + j) (concat rows) dflt) (seq 0 c))) by (rewrite map_length, seq_length; auto).
  rewrite (map_nth (fun i => map (fun j => nth (c * i + j) (concat rows) dflt) (seq 0 c)) (seq 0 r) 0 i), seq_nth by auto. cbn [Nat.add].
  rewrite (nth_indep _ dflt (nth (c * i + 0) (concat rows) dflt)) by (rewrite map_length, seq_length; auto).
  rewrite (map_nth (fun j => nth (c * i + j) (concat rows) dflt) (seq 0 c) 0 j), seq_nth by auto. cbn [Nat.add].
  pose proof (nth_uniform c rows F i j Hi Hj) as Q.
  destruct (nth_error (nth i rows []) j) as [y|] eqn:Q1.
  - rewrite (nth_error_nth _ _ dflt Q), (nth_error_nth _ _ dflt Q1). auto.
  - apply nth_error_None in Q1. rewrite (proj1 (Forall_forall _ _) F) in Q1; [lia|]. apply nth_In. auto.
Qed.
End MP.
