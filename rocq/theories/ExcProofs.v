(* Proofs about vectors and strings when allocation or copying fails. *)
From Verif Require Import Base ExcModel ExcSpec.

Section P.
Variable A : Type.
Variable badalloc badcopy : nat -> bool.
Notation cell := (cell A).
Notation st := (st A).
Notation content := (list (option A)).

Definition cell_of (x : option A) : cell := match x with Some v => Live v | None => Moved end.
Notation cs := (map cell_of).

(* the state s holds the contents xs; under t, no object is lost *)
Definition R (t : Prop) (s : st) (xs : content) : Prop :=
  exists rest, cells s = cs xs ++ rest /\ used s = length xs
    /\ (t -> Forall (eq Raw) rest /\ made s = gone s + length xs).

Lemma R_weaken : forall (t u : Prop) s xs, (u -> t) -> R t s xs -> R u s xs.
Proof. intros t u s xs I (rest & E & U & T). exists rest. auto. Qed.

Lemma cs_value : forall xs, map (value A) (cs xs) = xs.
Proof. induction xs as [|[v|] xs IH]; cbn; [reflexivity| |]; rewrite IH; reflexivity. Qed.

Lemma R_contents : forall t s xs, R t s xs -> contents A s = xs.
Proof.
  intros t s xs (rest & E & U & _). unfold contents. rewrite E, U.
  rewrite firstn_app, map_length, Nat.sub_diag, firstn_all2 by (rewrite map_length; lia). cbn [firstn]. rewrite app_nil_r.
  apply cs_value.
Qed.

Lemma not_raw : forall xs, existsb (is_raw A) (cs xs) = false.
Proof. induction xs as [|[v|] xs IH]; cbn; auto. Qed.

Lemma body : forall xs (rest : list cell), firstn (length xs) (cs xs ++ rest) = cs xs.
Proof.
  intros xs rest. rewrite firstn_app, map_length, Nat.sub_diag, firstn_all2 by (rewrite map_length; lia).
  apply app_nil_r.
Qed.
Lemma behind : forall xs (rest : list cell), skipn (length xs) (cs xs ++ rest) = rest.
Proof. intros xs rest. rewrite skipn_app, map_length, Nat.sub_diag, skipn_all2 by (rewrite map_length; lia). reflexivity. Qed.

Lemma Forall_raw_repeat : forall n, Forall (eq (@Raw A)) (repeat Raw n).
Proof. induction n; cbn; constructor; auto. Qed.

(* the result of a step: returns with P, or throws with Q *)
Definition res_ok (r : st * how) (P Q : st -> Prop) : Prop :=
  match r with
  | (s, Done) => P s
  | (s, Threw) => Q s
  | (_, Bad) => False
  end.
Lemma andthen_ok : forall r f (P Q P1 : st -> Prop), res_ok r P1 Q -> (forall s, P1 s -> res_ok (f s) P Q) ->
  res_ok (andthen A r f) P Q.
Proof. intros [s []] f P Q P1 H F; cbn in *; auto. Qed.
Lemma res_mono : forall r (P Q P' Q' : st -> Prop), res_ok r P Q -> (forall s, P s -> P' s) -> (forall s, Q s -> Q' s) -> res_ok r P' Q'.
Proof. intros [s []] P Q P' Q' H HP HQ; cbn in *; auto. Qed.

Lemma log2_up_ge : forall n, n <= 2 ^ Nat.log2_up n.
Proof.
  intros n. destruct (le_lt_dec n 1) as [L|L].
  - assert (n = 0 \/ n = 1) as [->| ->] by lia; cbn; lia.
  - apply Nat.log2_up_spec in L. lia.
Qed.

Lemma reserve_ok : forall t n s xs, R t s xs ->
  res_ok (reserve A badalloc n s) (fun s' => R t s' xs /\ n <= length (cells s')) (fun s' => R t s' xs).
Proof.
  intros t n s xs (rest & E & U & T). unfold reserve. destruct (Nat.leb_spec n (length (cells s))) as [L|L].
  - cbn. split; [exists rest; auto|exact L].
  - destruct (badalloc (tick s)); [cbn; exists rest; auto|]. rewrite U, E, body, not_raw.
    rewrite (proj2 (Nat.ltb_ge _ _)) by (rewrite app_length, map_length; lia). cbn. split.
    + exists (repeat Raw (2 ^ Nat.log2_up n - length xs)). cbn. split; [reflexivity|]. split; [reflexivity|].
      intros t'. destruct (T t') as [_ M]. split; [apply Forall_raw_repeat|lia].
    + rewrite app_length, map_length, repeat_length. pose proof (log2_up_ge n). lia.
Qed.

Definition some_copy_failed : Prop := exists m, badcopy m = true.

(* constructing at the end of the contents *)
Lemma build_end : forall t v s xs, R t s xs -> length xs < length (cells s) ->
  res_ok (build A badcopy (used s) v s)
    (fun s' => R t (set_used A (used s' + 1) s') (xs ++ [Some v]) /\ length (cells s') = length (cells s))
    (fun s' => R t s' xs /\ some_copy_failed).
Proof.
  intros t v s xs (rest & E & U & T) L. unfold build. rewrite U.
  destruct (nth_error (cells s) (length xs)) as [c|] eqn:N; [|apply nth_error_None in N; lia].
  destruct (badcopy (tick s)) eqn:B; cbn; [split; [exists rest; auto|exists (tick s); exact B]|].
  rewrite E in L |- *. rewrite app_length, map_length in L. destruct rest as [|r rest]; [cbn in L; lia|].
  rewrite upd_length. split; [|reflexivity]. exists rest. cbn. rewrite map_app, app_length. cbn [map length cell_of].
  split; [|split; [lia|]].
  - rewrite <- app_assoc. cbn [app]. rewrite <- (map_length cell_of xs) at 1. clear.
    generalize (cs xs). intros l. induction l as [|x l IH]; cbn; [reflexivity|]. rewrite IH. reflexivity.
  - intros t'. destruct (T t') as [F M]. apply Forall_cons_iff in F. split; [apply F|lia].
Qed.

Lemma append_ok : forall t vs s xs, R t s xs -> length xs + length vs <= length (cells s) ->
  res_ok (append A badcopy vs s) (fun s' => R t s' (xs ++ map Some vs))
    (fun s' => exists k, k < length vs /\ R t s' (xs ++ map Some (firstn k vs)) /\ some_copy_failed).
Proof.
  intros t. induction vs as [|v vs IH]; intros s xs HR L; cbn [append].
  - cbn. rewrite app_nil_r. exact HR.
  - cbn [length] in L. eapply andthen_ok.
    + eapply res_mono; [apply (build_end t v s xs HR); lia|intros s' H; exact H|].
      cbn beta. intros s' [H B]. exists 0. cbn. rewrite app_nil_r. split; [lia|split; [exact H|exact B]].
    + cbn beta. intros s' [H H2]. eapply res_mono.
      * apply (IH _ _ H). cbn. rewrite app_length. cbn. lia.
      * cbn beta. intros s2 H3. rewrite <- app_assoc in H3. exact H3.
      * cbn beta. intros s2 (k & K & H3 & B). exists (S k). cbn. rewrite <- app_assoc in H3. split; [lia|split; [exact H3|exact B]].
Qed.

Lemma append_grow_ok : forall t vs s xs, R t s xs ->
  res_ok (append_grow A badalloc badcopy vs s) (fun s' => R t s' (xs ++ map Some vs))
    (fun s' => exists k, k < length vs /\ R t s' (xs ++ map Some (firstn k vs))).
Proof.
  intros t. induction vs as [|v vs IH]; intros s xs HR; cbn [append_grow].
  - cbn. rewrite app_nil_r. exact HR.
  - eapply andthen_ok.
    + eapply res_mono; [apply (reserve_ok t (used s + 1) s xs HR)|intros s' H; exact H|].
      cbn beta. intros s' H. exists 0. cbn. rewrite app_nil_r. split; [lia|exact H].
    + cbn beta. intros s0 [HR0 L0]. destruct HR as (_ & _ & U & _). rewrite U in L0. eapply andthen_ok.
      * eapply res_mono; [apply (build_end t v s0 xs HR0); lia|intros s' H; exact H|].
        cbn beta. intros s' [H _]. exists 0. cbn. rewrite app_nil_r. split; [lia|exact H].
      * cbn beta. intros s' [H H2]. eapply res_mono.
        -- apply (IH _ _ H).
        -- cbn beta. intros s2 H3. rewrite <- app_assoc in H3. exact H3.
        -- cbn beta. intros s2 (k & K & H3). exists (S k). cbn. rewrite <- app_assoc in H3. split; [lia|exact H3].
Qed.

Lemma rotate_ok : forall t s xs ys i, R t s (xs ++ ys) -> i <= length xs ->
  R t (rotate A i (length xs) s) (firstn i xs ++ ys ++ skipn i xs).
Proof.
  intros t s xs ys i (rest & E & U & T) I. unfold rotate. rewrite U, E, body, behind. exists rest. cbn [cells used made gone].
  assert (L : length (firstn i xs ++ ys ++ skipn i xs) = length (xs ++ ys)).
  { rewrite !app_length, firstn_length, skipn_length. lia. }
  split; [|split; [congruence|]].
  - rewrite !map_app, <- !app_assoc. f_equal; [|f_equal].
    + rewrite firstn_app, map_length. replace (i - length xs) with 0 by lia. cbn [firstn]. rewrite app_nil_r.
      apply firstn_map.
    + rewrite skipn_app, map_length, Nat.sub_diag, skipn_all2 by (rewrite map_length; lia). reflexivity.
    + f_equal. rewrite firstn_app, map_length, Nat.sub_diag, firstn_all2 by (rewrite map_length; lia). cbn [firstn]. rewrite app_nil_r.
      apply skipn_map.
  - intros t'. destruct (T t') as [F M]. split; [exact F|]. rewrite L. exact M.
Qed.

(* constructing behind the contents without counting *)
Lemma upd_at : forall (l r : list cell) c x i, i = length l -> upd i x (l ++ c :: r) = l ++ x :: r.
Proof. intros l r c x i ->. induction l as [|y l IH]; cbn; [reflexivity|]. rewrite IH. reflexivity. Qed.

(* fill: the cells from i = length l on; counts made objects *)
Lemma fill_ok : forall vs l r s i, i = length l -> cells s = l ++ r -> length vs <= length r ->
  res_ok (fill A badcopy i vs s)
    (fun s' => cells s' = l ++ map Live vs ++ skipn (length vs) r /\ used s' = used s /\ gone s' = gone s /\ made s' = made s + length vs)
    (fun s' => exists k, k < length vs /\ cells s' = l ++ map Live (firstn k vs) ++ skipn k r /\ used s' = used s
                         /\ (exists m, badcopy m = true)).
Proof.
  induction vs as [|v vs IH]; intros l r s i I E L; cbn [fill].
  - cbn. rewrite E. repeat split; lia.
  - destruct r as [|c r]; [cbn in L; lia|]. cbn [length] in L. unfold build.
    destruct (nth_error (cells s) i) as [d|] eqn:N.
    2: { apply nth_error_None in N. rewrite E, app_length in N. cbn in N. lia. }
    destruct (badcopy (tick s)) eqn:B.
    + cbn. exists 0. cbn. rewrite E. split; [lia|]. split; [reflexivity|]. split; [reflexivity|]. exists (tick s). exact B.
    + cbn [andthen]. eapply res_mono.
      * apply (IH (l ++ [Live v]) r); [rewrite app_length; cbn; lia| |lia].
        cbn [cells]. rewrite E, (upd_at l r c (Live v) i I), <- app_assoc. reflexivity.
      * cbn [used gone made map length]. intros s' (H1 & H2 & H3 & H4). rewrite H1, <- app_assoc. repeat split; auto. lia.
      * cbn [used map length]. intros s' (k & K & H1 & H2 & H3). exists (S k). rewrite H1, <- app_assoc. cbn. repeat split; auto. lia.
Qed.

Lemma cs_live : forall vs : list A, map Live vs = cs (map Some vs).
Proof. induction vs as [|v vs IH]; cbn; [reflexivity|]. rewrite IH. reflexivity. Qed.

Lemma Forall_skipn_ : forall (P : cell -> Prop) n l, Forall P l -> Forall P (skipn n l).
Proof. induction n as [|n IH]; intros l F; [exact F|]. destruct F; cbn; auto. Qed.

(* copying never fails *)
Definition copies_fine : Prop := forall m, badcopy m = false.

Lemma resize_ok : forall (t : Prop) n v s xs, R t s xs ->
  res_ok (resize A badalloc badcopy n v s)
    (fun s' => R (t /\ length xs <= n) s' (firstn n xs ++ repeat (Some v) (n - length xs)))
    (fun s' => R (t /\ copies_fine) s' xs).
Proof.
  intros t n v s xs HR. unfold resize. eapply andthen_ok.
  { eapply res_mono; [apply (reserve_ok t n s xs HR)|intros s' H; exact H|].
    cbn beta. intros s' H. eapply R_weaken; [|exact H]. tauto. }
  cbn beta. intros s' [(rest & E & U & T) L]. rewrite E, app_length, map_length in L. rewrite U.
  eapply andthen_ok.
  { eapply res_mono; [apply (fill_ok (repeat v (n - length xs)) (cs xs) rest s' (length xs))|intros s2 H; exact H|].
    - rewrite map_length. reflexivity.
    - exact E.
    - rewrite repeat_length. lia.
    - cbn beta. intros s2 (k & K & H1 & H2 & (m & B)). exists (map Live (firstn k (repeat v (n - length xs))) ++ skipn k rest).
      split; [exact H1|]. split; [congruence|]. intros [_ C]. rewrite C in B. discriminate. }
  cbn beta. intros s2 (H1 & H2 & H3 & H4). cbn. rewrite repeat_length in H1, H4.
  destruct (le_lt_dec (length xs) n) as [Q|Q].
  - exists (skipn (n - length xs) rest). cbn. rewrite H1, cs_live. rewrite firstn_all2 by lia.
    split; [|split].
    + rewrite map_app, <- app_assoc. do 2 f_equal. f_equal. generalize (n - length xs). intros m. induction m as [|m IH]; cbn; [reflexivity|]. rewrite IH. reflexivity.
    + rewrite app_length, repeat_length. lia.
    + intros [t' _]. destruct (T t') as [F M]. split; [apply Forall_skipn_; exact F|]. rewrite app_length, repeat_length. lia.
  - replace (n - length xs) with 0 in * by lia. cbn [repeat map app skipn] in *. rewrite app_nil_r.
    exists (cs (skipn n xs) ++ rest). cbn. rewrite H1. split; [|split].
    + rewrite app_assoc, <- map_app, firstn_skipn. reflexivity.
    + rewrite firstn_length. lia.
    + intros [_ L']. lia.
Qed.

Lemma set_range_ok : forall (t : Prop) vs s xs, R t s xs ->
  res_ok (set_range A badalloc badcopy vs s)
    (fun s' => R (t /\ xs = []) s' (map Some vs))
    (fun s' => exists k, k <= length vs /\ (k = 0 \/ some_copy_failed) /\ R (t /\ copies_fine) s' (firstn (length xs) (map Some (firstn k vs)) ++ skipn k xs)).
Proof.
  intros t vs s xs HR. unfold set_range. eapply andthen_ok.
  { eapply res_mono; [apply (reserve_ok t (length vs) s xs HR)|intros s' H; exact H|].
    cbn beta. intros s' H. exists 0. cbn. rewrite firstn_nil. split; [lia|]. split; [left; reflexivity|]. eapply R_weaken; [|exact H]. tauto. }
  cbn beta. intros s' [(rest & E & U & T) L].
  eapply andthen_ok.
  { eapply res_mono; [apply (fill_ok vs [] (cells s') s' 0 eq_refl eq_refl L)|intros s2 H; exact H|].
    cbn beta. intros s2 (k & K & H1 & H2 & (m & B)). exists k. split; [lia|]. split; [right; exists m; exact B|]. cbn [app] in H1.
    exists (if k <=? length xs then rest else map Live (skipn (length xs) (firstn k vs)) ++ skipn (k - length xs) rest).
    split; [|split].
    - rewrite H1, E, skipn_app, map_length, cs_live. destruct (Nat.leb_spec k (length xs)) as [Q|Q].
      + replace (k - length xs) with 0 by lia. cbn [skipn]. rewrite map_app.
        rewrite (firstn_all2 (n := length xs)) by (rewrite map_length, firstn_length; lia).
        rewrite <- app_assoc. rewrite skipn_map. reflexivity.
      + rewrite (skipn_all2 (cs xs)) by (rewrite map_length; lia). rewrite (skipn_all2 xs) by lia. cbn [app]. rewrite app_nil_r.
        rewrite app_assoc. f_equal. rewrite cs_live, <- map_app. f_equal.
        rewrite <- skipn_map, firstn_skipn. reflexivity.
    - rewrite H2, U, app_length, firstn_length, map_length, firstn_length, skipn_length. lia.
    - intros [_ C]. rewrite C in B. discriminate. }
  cbn beta. intros s2 (H1 & H2 & H3 & H4). cbn [app] in H1. cbn. exists (skipn (length vs) (cells s')). cbn. rewrite H1, cs_live, map_length.
  split; [reflexivity|]. split; [reflexivity|]. intros [t' ->]. destruct (T t') as [F M]. cbn in E, M. rewrite E in *.
  split; [apply Forall_skipn_; exact F|]. lia.
Qed.

(* ---------------- insertion of a forward range ---------------- *)
Lemma repeat_S_end : forall (x : cell) n, repeat x n ++ [x] = repeat x (S n).
Proof. intros x n. induction n as [|n IH]; [reflexivity|]. cbn in *. rewrite IH. reflexivity. Qed.

Lemma nth_mid : forall (l r : list cell) c i, i = length l -> nth_error (l ++ c :: r) i = Some c.
Proof. intros l r c i ->. rewrite nth_error_app2, Nat.sub_diag by lia. reflexivity. Qed.

Lemma shift_ok : forall n i ys p g r s, 0 < n -> length p = i -> length g = n ->
  cells s = p ++ cs ys ++ g ++ r -> i + length ys <= used s ->
  shift A i n (length ys) s =
    (ST (p ++ firstn n (repeat Moved (length ys) ++ g) ++ cs ys ++ r) (used s) (tick s)
        (made s + Nat.min (length ys) (i + n + length ys - used s)) (gone s), Done).
Proof.
  intros n i ys. induction ys as [|y ys IH] using rev_ind; intros p g r s Hn Hp Hg E U.
  - cbn [length shift repeat app]. rewrite Nat.min_0_l, Nat.add_0_r. rewrite firstn_all2 by lia. cbn [map app] in *. rewrite <- E. destruct s; reflexivity.
  - rewrite app_length in *. cbn [length] in *. rewrite Nat.add_1_r in *. cbn [shift].
    destruct g as [|z g _] using rev_ind; [cbn in Hg; lia|]. rewrite app_length in Hg. cbn [length] in Hg.
    rewrite map_app in E. cbn [map] in E.
    assert (E1 : cells s = (p ++ cs ys) ++ cell_of y :: (g ++ [z]) ++ r) by (rewrite E, <- !app_assoc; reflexivity).
    assert (L1 : i + length ys = length (p ++ cs ys)) by (rewrite app_length, map_length; lia).
    assert (E2 : forall c, upd (i + length ys + n) c (upd (i + length ys) Moved (cells s)) =
                           p ++ cs ys ++ (Moved :: g) ++ (c :: r)).
    { intros c. rewrite E1, (upd_at _ _ _ _ _ L1).
      replace ((p ++ cs ys) ++ Moved :: (g ++ [z]) ++ r) with (((p ++ cs ys) ++ Moved :: g) ++ z :: r)
        by (rewrite <- !app_assoc; reflexivity).
      rewrite upd_at; [rewrite <- !app_assoc; reflexivity|]. rewrite !app_length, map_length. cbn [length]. lia. }
    assert (N1 : nth_error (cells s) (i + length ys) = Some (cell_of y)) by (rewrite E1; apply nth_mid; exact L1).
    assert (N2 : nth_error (cells s) (i + length ys + n) = Some z).
    { rewrite E1. replace ((p ++ cs ys) ++ cell_of y :: (g ++ [z]) ++ r) with (((p ++ cs ys) ++ cell_of y :: g) ++ z :: r)
        by (rewrite <- !app_assoc; reflexivity). apply nth_mid. rewrite !app_length, map_length. cbn [length]. lia. }
    rewrite N1, N2. replace (is_raw A (cell_of y)) with false by (destruct y; reflexivity).
    rewrite (proj2 (Nat.eqb_neq n 0)) by lia. rewrite E2.
    rewrite (IH p (Moved :: g) (cell_of y :: r)); cbn [cells used tick made gone]; try lia; try reflexivity.
    2: { cbn. lia. }
    f_equal. f_equal.
    + f_equal. rewrite map_app, <- !app_assoc. cbn [map app]. f_equal.
      replace (repeat Moved (length ys) ++ Moved :: g) with (repeat Moved (S (length ys)) ++ g).
      2: { rewrite <- repeat_S_end, <- app_assoc. reflexivity. }
      rewrite (app_assoc (repeat Moved (S (length ys))) g [z]). rewrite (firstn_app n (repeat Moved (S (length ys)) ++ g) [z]).
      rewrite app_length, repeat_length. replace (n - (S (length ys) + length g)) with 0 by lia. cbn [firstn]. rewrite app_nil_r. reflexivity.
    + destruct (Nat.leb_spec (used s) (i + length ys + n)); lia.
Qed.

(* copying into the gap g: cells that count as elements hold objects *)
Lemma gap_ok : forall vs g p r s i, length p = i -> length g = length vs -> cells s = p ++ g ++ r ->
  (forall j, i + j < used s -> nth_error g j <> Some Raw) ->
  res_ok (gap A badcopy i vs s)
    (fun s' => cells s' = p ++ map Live vs ++ r /\ used s' = used s /\ gone s' = gone s
               /\ made s' = made s + (length vs - (used s - i)))
    (fun s' => exists k, k < length vs /\ cells s' = p ++ map Live (firstn k vs) ++ skipn k g ++ r /\ used s' = used s
                         /\ (exists m, badcopy m = true)).
Proof.
  induction vs as [|v vs IH]; intros g p r s i Hp Hg E W; cbn [gap].
  - destruct g; [|discriminate]. cbn. rewrite E. repeat split; lia.
  - destruct g as [|c g]; [discriminate|]. cbn [length] in *. cbn [app] in E.
    assert (N : nth_error (cells s) i = Some c) by (rewrite E; apply nth_mid; auto).
    assert (K : forall s0, cells s0 = upd i (Live v) (cells s) -> used s0 = used s -> gone s0 = gone s ->
                made s0 = made s + (if used s <=? i then 1 else 0) ->
                res_ok (gap A badcopy (S i) vs s0)
                  (fun s' => cells s' = p ++ map Live (v :: vs) ++ r /\ used s' = used s /\ gone s' = gone s
                     /\ made s' = made s + (S (length vs) - (used s - i)))
                  (fun s' => exists k, k < S (length vs) /\ cells s' = p ++ map Live (firstn k (v :: vs)) ++ skipn k (c :: g) ++ r
                     /\ used s' = used s /\ (exists m, badcopy m = true))).
    { intros s0 C0 U0 G0 M0. eapply res_mono.
      - apply (IH g (p ++ [Live v]) r s0 (S i)).
        + rewrite app_length. cbn. lia.
        + lia.
        + rewrite C0, E, (upd_at p (g ++ r) c (Live v) i (eq_sym Hp)), <- app_assoc. reflexivity.
        + intros j J. apply (W (S j)). lia.
      - cbn beta. intros s' (H1 & H2 & H3 & H4). rewrite H1, <- app_assoc. cbn [map app].
        repeat split; try congruence. destruct (Nat.leb_spec (used s) i); lia.
      - cbn beta. intros s' (k & Hk & H1 & H2 & H3). exists (S k). rewrite H1, <- app_assoc. cbn. split; [lia|split; [reflexivity|split; [congruence|exact H3]]]. }
    destruct (Nat.leb_spec (used s) i) as [Q|Q].
    + unfold build. rewrite N. destruct (badcopy (tick s)) eqn:B.
      * cbn. exists 0. cbn. rewrite E. split; [lia|]. split; [reflexivity|]. split; [reflexivity|]. exists (tick s). exact B.
      * cbn [andthen]. apply K; cbn; auto.
    + unfold put. rewrite N. assert (c <> Raw). { intros ->. apply (W 0); [lia|reflexivity]. }
      destruct (badcopy (tick s)) eqn:B.
      * destruct c; [contradiction| |]; cbn; exists 0; cbn; rewrite E; (split; [lia|]); (split; [reflexivity|]); (split; [reflexivity|]); exists (tick s); exact B.
      * destruct c; [contradiction| |]; cbn [andthen]; apply K; cbn; auto; lia.
Qed.

Lemma skipn_repeat_ : forall (x : cell) k n, skipn k (repeat x n) = repeat x (n - k).
Proof. intros x. induction k as [|k IH]; intros n; cbn; [rewrite Nat.sub_0_r; reflexivity|]. destruct n; cbn; [reflexivity|apply IH]. Qed.
Lemma firstn_repeat_ : forall (x : cell) k n, firstn k (repeat x n) = repeat x (Nat.min k n).
Proof. intros x. induction k as [|k IH]; intros n; cbn; [reflexivity|]. destruct n; cbn; [reflexivity|]. rewrite IH. reflexivity. Qed.

Lemma gap_content : forall k n kk (a g b : list cell), length a = kk -> kk <= n ->
  firstn k (a ++ skipn kk (firstn n (repeat Moved k ++ g)) ++ b) = firstn k (a ++ repeat Moved (n - kk) ++ b).
Proof.
  intros k n kk a g b La Hk. destruct (le_lt_dec n k) as [Q|Q].
  - rewrite (firstn_app n (repeat Moved k) g), repeat_length. replace (n - k) with 0 by lia. cbn [firstn]. rewrite app_nil_r.
    rewrite (firstn_repeat_ _ n k), Nat.min_l by lia. rewrite skipn_repeat_. reflexivity.
  - rewrite !(firstn_app k a), La. f_equal.
    rewrite (firstn_app n (repeat Moved k) g), repeat_length, (firstn_all2 (n := n) (repeat Moved k)) by (rewrite repeat_length; lia).
    rewrite skipn_app, repeat_length, skipn_repeat_. rewrite <- app_assoc.
    rewrite (firstn_app (k - kk) (repeat Moved (k - kk))), firstn_repeat_, repeat_length, Nat.sub_diag, Nat.min_id. cbn [firstn].
    rewrite (firstn_app (k - kk) (repeat Moved (n - kk))), firstn_repeat_, repeat_length, Nat.min_l by lia.
    replace (k - kk - (n - kk)) with 0 by lia. reflexivity.
Qed.

Lemma split_list : forall (l : list cell) n, n <= length l -> exists a b, l = a ++ b /\ length a = n.
Proof. intros l n L. exists (firstn n l), (skipn n l). rewrite firstn_skipn, firstn_length. split; [reflexivity|lia]. Qed.

Lemma cs_none : forall n, cs (repeat None n) = repeat Moved n.
Proof. induction n; cbn; congruence. Qed.

Lemma insert_range_ok : forall (t : Prop) i vs s xs, R t s xs -> i <= length xs -> (vs = [] -> i = length xs) ->
  res_ok (insert_range A badalloc badcopy i vs s)
    (fun s' => R t s' (firstn i xs ++ map Some vs ++ skipn i xs))
    (fun s' => exists ys, R (t /\ copies_fine) s' ys /\ (ys = xs \/ exists k, k < length vs /\
       ys = firstn (length xs) (firstn i xs ++ map Some (firstn k vs) ++ repeat None (length vs - k) ++ skipn i xs) /\ some_copy_failed)).
Proof.
  intros t i vs s xs HR Hi He. unfold insert_range. destruct (Nat.eqb_spec (used s) 0) as [Z|Z].
  { assert (xs = []) as ->. { destruct HR as (_ & _ & U & _). destruct xs; [reflexivity|]. cbn in U. lia. }
    cbn in Hi. assert (i = 0) by lia. subst i. eapply res_mono; [apply (set_range_ok t vs s [] HR)| |]; cbn beta.
    - intros s' H. cbn [firstn skipn app]. rewrite app_nil_r. eapply R_weaken; [|exact H]. tauto.
    - intros s' (k & _ & _ & H). exists []. split; [|left; reflexivity]. rewrite skipn_nil in H. cbn in H. exact H. }
  eapply andthen_ok.
  { eapply res_mono; [apply (reserve_ok t (used s + length vs) s xs HR)|intros s' H; exact H|].
    cbn beta. intros s' H. exists xs. split; [|left; reflexivity]. eapply R_weaken; [|exact H]. tauto. }
  cbn beta. intros s1 [(rest & E & U & T) L]. destruct HR as (_ & _ & U0 & _). rewrite U0 in L. rewrite U.
  rewrite E, app_length, map_length in L. destruct (split_list rest (length vs)) as (g & r & -> & Lg); [lia|].
  set (n := length vs) in *. set (k := length (skipn i xs)).
  assert (Hk : length xs - i = k) by (unfold k; rewrite skipn_length; reflexivity).
  assert (Sh : shift A i n (length xs - i) s1 =
    (ST (cs (firstn i xs) ++ firstn n (repeat Moved k ++ g) ++ cs (skipn i xs) ++ r) (used s1) (tick s1)
        (made s1 + Nat.min k n) (gone s1), Done)).
  { rewrite Hk. destruct (Nat.eq_dec n 0) as [N0|N0].
    - assert (i = length xs) by (apply He; destruct vs; [reflexivity|discriminate]). subst i.
      assert (k = 0) as -> by lia. cbn [shift]. rewrite N0, Nat.min_0_r, Nat.add_0_r. cbn [firstn app].
      destruct g; [|rewrite N0 in Lg; discriminate]. rewrite skipn_all, firstn_all. cbn [map app].
      cbn [app] in E. rewrite <- E. destruct s1; reflexivity.
    - unfold k. rewrite (shift_ok n i (skipn i xs) (cs (firstn i xs)) g r s1); try lia.
      + do 3 f_equal. lia.
      + rewrite map_length, firstn_length. lia.
      + rewrite E, (app_assoc (cs (firstn i xs))), <- map_app, firstn_skipn. reflexivity. }
  rewrite Sh. cbn [andthen]. eapply andthen_ok.
  { eapply res_mono;
      [apply (gap_ok vs (firstn n (repeat Moved k ++ g)) (cs (firstn i xs)) (cs (skipn i xs) ++ r) _ i)|intros s' H; exact H|].
    - rewrite map_length, firstn_length. lia.
    - rewrite firstn_length, app_length, repeat_length. fold n. lia.
    - reflexivity.
    - cbn [used]. intros j J W. rewrite U in J.
      assert (Q : nth_error (repeat (@Moved A) k ++ g) j = Some Raw).
      { rewrite <- (firstn_skipn n (repeat Moved k ++ g)). rewrite nth_error_app1; [exact W|]. apply nth_error_Some. congruence. }
      rewrite nth_error_app1 in Q by (rewrite repeat_length; lia). apply nth_error_In in Q. apply repeat_spec in Q. discriminate.
    - cbn beta. cbn [used gone]. intros s' (kk & Kk & H1 & H2 & (m & B)).
      eexists. split; [|right; exists kk; split; [exact Kk|split; [reflexivity|exists m; exact B]]].
      assert (C : firstn (length xs) (cells s') =
                  cs (firstn (length xs) (firstn i xs ++ map Some (firstn kk vs) ++ repeat None (n - kk) ++ skipn i xs))).
      { rewrite <- firstn_map, !map_app, <- cs_live, cs_none. rewrite H1.
        rewrite !(firstn_app (length xs) (cs (firstn i xs))). f_equal.
        rewrite map_length, firstn_length, Nat.min_l by lia. rewrite Hk.
        rewrite gap_content by (try (rewrite map_length, firstn_length); fold n in Kk |- *; lia).
        rewrite (app_assoc (map Live (firstn kk vs))), (app_assoc (_ ++ repeat Moved (n - kk))).
        rewrite (firstn_app k (_ ++ cs (skipn i xs)) r).
        rewrite !app_length, !map_length, firstn_length, repeat_length. fold n k.
        replace (k - (Nat.min kk n + (n - kk) + k)) with 0 by lia. cbn [firstn]. rewrite app_nil_r, <- app_assoc. reflexivity. }
      exists (skipn (length xs) (cells s')). split; [|split].
      + rewrite <- C, firstn_skipn. reflexivity.
      + rewrite H2, U, firstn_length, !app_length, firstn_length, map_length, firstn_length, repeat_length, skipn_length. lia.
      + intros [_ F]. rewrite F in B. discriminate. }
  cbn beta. cbn [used gone made]. intros s' (H1 & H2 & H3 & H4). cbn. exists r. cbn. rewrite H1, H2, H3, H4, U.
  rewrite !map_app, <- cs_live, <- !app_assoc. split; [reflexivity|].
  assert (Ln : length (firstn i xs ++ map Some vs ++ skipn i xs) = length xs + n).
  { rewrite !app_length, firstn_length, map_length. fold k n. lia. }
  split; [lia|]. intros t'. destruct (T t') as [F M]. apply Forall_app in F. split; [apply F|]. fold n in H4 |- *. rewrite Ln. lia.
Qed.

(* ---------------- removing ---------------- *)
Lemma pop_ok : forall t s xs, R t s xs -> xs <> [] ->
  res_ok (pop_back A s) (fun s' => R t s' (removelast xs)) (fun _ => False).
Proof.
  intros t s xs (rest & E & U & T) N. destruct xs as [|x xs _] using rev_ind; [contradiction|].
  rewrite app_length in *. cbn [length] in *. rewrite map_app, <- app_assoc in E. cbn [map app] in E.
  unfold pop_back. rewrite U, E. replace (length xs + 1 - 1) with (length xs) by lia.
  rewrite nth_mid by (rewrite map_length; reflexivity). rewrite (proj2 (Nat.eqb_neq (length xs + 1) 0)) by lia.
  rewrite (upd_at _ _ _ _ (length xs)) by (rewrite map_length; reflexivity). rewrite removelast_last.
  destruct x as [v|]; cbn; exists (Raw :: rest); cbn; (split; [reflexivity|]); (split; [reflexivity|]); intros t';
    destruct (T t') as [F M]; (split; [constructor; auto|lia]).
Qed.

Lemma clear_ok : forall t s xs, R t s xs -> res_ok (clear A s) (fun s' => R t s' []) (fun _ => False).
Proof.
  intros t s xs (rest & E & U & T). unfold clear. rewrite U, E, body, not_raw, behind.
  rewrite (proj2 (Nat.ltb_ge _ _)) by (rewrite app_length, map_length; lia). cbn.
  exists (repeat Raw (length xs) ++ rest). cbn. split; [reflexivity|]. split; [reflexivity|]. intros t'. destruct (T t') as [F M].
  split; [apply Forall_app; split; [apply Forall_raw_repeat|exact F]|lia].
Qed.

Lemma erase_ok : forall t i s xs, R t s xs -> i < length xs ->
  res_ok (erase A i s) (fun s' => R t s' (firstn i xs ++ skipn (i + 1) xs)) (fun _ => False).
Proof.
  intros t i s xs (rest & E & U & T) I. unfold erase. rewrite U, E, body, not_raw, behind.
  rewrite (proj2 (Nat.ltb_ge _ _)) by (rewrite app_length, map_length; lia). rewrite (proj2 (Nat.leb_gt _ _)) by lia. cbn.
  assert (L : length (firstn i xs ++ skipn (i + 1) xs) = length xs - 1).
  { rewrite app_length, firstn_length, skipn_length. lia. }
  exists (Raw :: rest). cbn [cells used made gone]. split; [|split; [lia|]].
  - rewrite map_app, <- app_assoc, firstn_map, skipn_map. reflexivity.
  - intros t'. destruct (T t') as [F M]. split; [constructor; auto|lia].
Qed.

(* ---------------- all operations ---------------- *)
(* what keeps objects accounted for *)
Definition keeps (o : op A) (xs : content) : Prop :=
  match o with
  | Resize n _ => length xs <= n /\ copies_fine
  | InsertRange _ _ => copies_fine
  | Assign _ => xs = [] /\ copies_fine
  | _ => True
  end.

(* if only allocations fail, nothing changes *)
Definition strong (o : op A) (xs ys : content) : Prop :=
  copies_fine -> match o with InsertInput _ _ => True | _ => ys = xs end.

Lemma failed_not_fine : some_copy_failed -> copies_fine -> False.
Proof. intros [m B] F. rewrite F in B. discriminate. Qed.

Lemma map_repeat_ : forall (v : A) n, map Some (repeat v n) = repeat (Some v) n.
Proof. intros v n. induction n as [|n IH]; cbn; [reflexivity|]. rewrite IH. reflexivity. Qed.

Lemma step_ok : forall (t : Prop) o s xs, R t s xs -> allowed A o xs -> exists s' h ys,
  step A badalloc badcopy o s = (s', h) /\ outcome A o xs h ys /\ (h = Threw -> strong o xs ys) /\ R (t /\ keeps o xs) s' ys.
Proof.
  intros t o s xs HR Al.
  assert (K : forall P Q, res_ok (step A badalloc badcopy o s) P Q ->
    (forall s', P s' -> R (t /\ keeps o xs) s' (effect A o xs)) ->
    (forall s', Q s' -> exists ys, remains A o xs ys /\ strong o xs ys /\ R (t /\ keeps o xs) s' ys) ->
    exists s' h ys, step A badalloc badcopy o s = (s', h) /\ outcome A o xs h ys /\ (h = Threw -> strong o xs ys) /\ R (t /\ keeps o xs) s' ys).
  { intros P Q H HP HQ. destruct (step A badalloc badcopy o s) as [s' []]; cbn in H; [| |contradiction].
    - exists s', Done, (effect A o xs). split; [reflexivity|]. split; [constructor|]. split; [discriminate|]. apply HP. exact H.
    - destruct (HQ s' H) as (ys & Re & St & Ry). exists s', Threw, ys. split; [reflexivity|]. split; [constructor; exact Re|].
      split; [intros _; exact St|exact Ry]. }
  assert (W : forall s' ys, R t s' ys -> R (t /\ keeps o xs) s' ys).
  { intros. eapply R_weaken; [|eassumption]. tauto. }
  assert (U : used s = length xs) by (destruct HR as (? & _ & U & _); exact U).
  destruct o as [v|n v|n|i v|i n v|i vs|i vs|vs| | |i]; cbn [step allowed keeps effect remains] in *; unfold strong in *; cbn beta iota in *.
  - eapply K; [apply (andthen_ok _ _ (fun s' => R t s' (xs ++ map Some [v])) (fun s' => R t s' xs)
                        _ (reserve_ok t (used s + 1) s xs HR))| |].
    + cbn beta. intros s1 [H L]. eapply res_mono; [apply (append_ok t [v] s1 xs H); cbn; lia|auto|].
      cbn beta. intros s2 (k & Hk & H2 & _). cbn in Hk. assert (k = 0) by lia. subst k. cbn in H2. rewrite app_nil_r in H2. exact H2.
    + intros s' H. apply W. exact H.
    + intros s' H. exists xs. split; [reflexivity|]. split; [reflexivity|]. apply W. exact H.
  - eapply K; [apply (resize_ok t n v s xs HR)| |]; cbn beta.
    + intros s' H. eapply R_weaken; [|exact H]. tauto.
    + intros s' H. exists xs. split; [reflexivity|]. split; [reflexivity|]. eapply R_weaken; [|exact H]. tauto.
  - eapply K; [apply (reserve_ok t n s xs HR)| |]; cbn beta.
    + intros s' [H _]. apply W. exact H.
    + intros s' H. exists xs. split; [reflexivity|]. split; [reflexivity|]. apply W. exact H.
  - eapply K; [apply (andthen_ok _ _ (fun s' => R t s' (firstn i xs ++ map Some [v] ++ skipn i xs)) (fun s' => R t s' xs)
                        _ (reserve_ok t (used s + 1) s xs HR))| |].
    + cbn beta. intros s1 [H L]. eapply andthen_ok.
      * eapply res_mono; [apply (append_ok t [v] s1 xs H); cbn; lia|intros s2 H2; exact H2|].
        cbn beta. intros s2 (k & Hk & H2 & _). cbn in Hk. assert (k = 0) by lia. subst k. cbn in H2. rewrite app_nil_r in H2. exact H2.
      * cbn beta. intros s2 H2. cbn [res_ok]. rewrite U. apply rotate_ok; assumption.
    + intros s' H. apply W. exact H.
    + intros s' H. exists xs. split; [reflexivity|]. split; [reflexivity|]. apply W. exact H.
  - destruct n as [|n].
    + eapply K with (Q := fun _ => False) (P := fun s' => R t s' xs).
      * unfold insert_n. rewrite Nat.add_0_r. unfold reserve.
        rewrite (proj2 (Nat.leb_le (used s) (length (cells s)))).
        2: { destruct HR as (rest & E & _). rewrite E, app_length, map_length. lia. }
        cbn [andthen append repeat res_ok]. rewrite U.
        assert (HR' : R t s (xs ++ [])) by (rewrite app_nil_r; exact HR).
        pose proof (rotate_ok t s xs [] i HR' Al) as HT. cbn [app] in HT. rewrite firstn_skipn in HT. exact HT.
      * intros s' H. apply W. cbn [repeat app]. rewrite firstn_skipn. exact H.
      * intros s' [].
    + eapply K; [apply (andthen_ok _ _ (fun s' => R t s' (firstn i xs ++ map Some (repeat v (S n)) ++ skipn i xs))
                          (fun s' => exists k, k < S n /\ R t s' (xs ++ map Some (firstn k (repeat v (S n)))) /\ (k = 0 \/ some_copy_failed))
                          (fun s' => R t s' xs /\ length xs + S n <= length (cells s')))| |].
      * eapply res_mono; [apply (reserve_ok t (used s + S n) s xs HR)| |].
        -- cbn beta. intros s' [H L]. split; [exact H|lia].
        -- cbn beta. intros s' H. exists 0. cbn [firstn map]. rewrite app_nil_r. split; [lia|split; [exact H|left; reflexivity]].
      * cbn beta. intros s1 [H L]. eapply andthen_ok.
        -- eapply res_mono; [apply (append_ok t (repeat v (S n)) s1 xs H); rewrite repeat_length; exact L|intros s2 H2; exact H2|].
           cbn beta. intros s2 (k & Hk & H2 & B). rewrite repeat_length in Hk. exists k. split; [exact Hk|split; [exact H2|right; exact B]].
        -- cbn beta. intros s2 H2. cbn [res_ok]. rewrite U. apply rotate_ok; assumption.
      * intros s' H. apply W. rewrite map_repeat_ in H. exact H.
      * intros s' (k & Hk & H & Z). exists (xs ++ map Some (firstn k (repeat v (S n)))). split; [|split; [|apply W; exact H]].
        -- exists k. split; [exact Hk|]. f_equal.
           replace (S n) with (k + (S n - k)) by lia. rewrite repeat_app, firstn_app, repeat_length, Nat.sub_diag.
           rewrite firstn_all2 by (rewrite repeat_length; lia). cbn [firstn]. rewrite app_nil_r. apply map_repeat_.
        -- intros F. destruct Z as [->|B]; [cbn; apply app_nil_r|]. destruct (failed_not_fine B F).
  - eapply K; [apply (andthen_ok _ _ (fun s' => R t s' (firstn i xs ++ map Some vs ++ skipn i xs))
                        _ _ (append_grow_ok t vs s xs HR))| |].
    + cbn beta. intros s2 H2. cbn [res_ok]. rewrite U. apply rotate_ok; assumption.
    + intros s' H. apply W. exact H.
    + cbn beta. intros s' (k & Hk & H). exists (xs ++ map Some (firstn k vs)).
      split; [exists k; split; [exact Hk|reflexivity]|]. split; [auto|]. apply W; exact H.
  - destruct Al as [Hi He]. eapply K; [apply (insert_range_ok t i vs s xs HR Hi He)| |]; cbn beta.
    + intros s' H. apply W. exact H.
    + intros s' (ys & H & Q). exists ys. split; [|split].
      * destruct Q as [Q|(k & Q1 & Q2 & _)]; [left; exact Q|right; exists k; auto].
      * intros F. destruct Q as [Q|(k & _ & _ & B)]; [exact Q|destruct (failed_not_fine B F)].
      * eapply R_weaken; [|exact H]. tauto.
  - eapply K; [apply (set_range_ok t vs s xs HR)| |]; cbn beta.
    + intros s' H. eapply R_weaken; [|exact H]. tauto.
    + intros s' (k & Hk & Z & H). exists (firstn (length xs) (map Some (firstn k vs)) ++ skipn k xs). split; [exists k; auto|]. split.
      * intros F. destruct Z as [->|B]; [cbn; rewrite firstn_nil; reflexivity|]. destruct (failed_not_fine B F).
      * eapply R_weaken; [|exact H]. tauto.
  - eapply K; [apply (pop_ok t s xs HR Al)| |]; cbn beta; [intros s' H; apply W; exact H|intros s' []].
  - eapply K; [apply (clear_ok t s xs HR)| |]; cbn beta; [intros s' H; apply W; exact H|intros s' []].
  - eapply K; [apply (erase_ok t i s xs HR Al)| |]; cbn beta; [intros s' H; apply W; exact H|intros s' []].
Qed.

Lemma run_ok : forall ops s xs, R False s xs -> legal A badalloc badcopy ops s ->
  exists s' hs ys, run A badalloc badcopy ops s = (s', hs) /\ follows A xs ops hs ys /\ contents A s' = ys.
Proof.
  induction ops as [|o ops IH]; intros s xs HR L; cbn [run legal] in *.
  - exists s, [], xs. split; [reflexivity|]. split; [constructor|]. eapply R_contents. exact HR.
  - destruct L as [Al L]. rewrite (R_contents _ _ _ HR) in Al.
    destruct (step_ok False o s xs HR Al) as (s1 & h & ys & E & O & _ & R1). rewrite E in L |- *. cbn [fst] in L.
    destruct (IH s1 ys) as (s2 & hs & zs & E2 & F & C2); [eapply R_weaken; [|exact R1]; tauto|exact L|].
    rewrite E2. exists s2, (h :: hs), zs. split; [reflexivity|]. split; [|exact C2]. econstructor; eassumption.
Qed.

Lemma run_keeps : forall ops s xs, R True s xs -> legal A badalloc badcopy ops s -> Forall (careful A) ops ->
  exists s' hs ys, run A badalloc badcopy ops s = (s', hs) /\ R True s' ys.
Proof.
  induction ops as [|o ops IH]; intros s xs HR L C; cbn [run legal] in *.
  - exists s, [], xs. auto.
  - destruct L as [Al L]. rewrite (R_contents _ _ _ HR) in Al. apply Forall_cons_iff in C. destruct C as [Co C].
    destruct (step_ok True o s xs HR Al) as (s1 & h & ys & E & _ & _ & R1). rewrite E in L |- *. cbn [fst] in L.
    destruct (IH s1 ys) as (s2 & hs & zs & E2 & R2); [eapply R_weaken; [|exact R1]|exact L|exact C|].
    { intros _. split; [exact I|]. destruct o; cbn in *; try contradiction; exact I. }
    rewrite E2. exists s2, (h :: hs), zs. auto.
Qed.

Lemma run_thrifty : copies_fine -> forall ops s xs, R True s xs -> legal A badalloc badcopy ops s -> thrifty A badalloc badcopy ops s ->
  exists s' hs ys, run A badalloc badcopy ops s = (s', hs) /\ R True s' ys.
Proof.
  intros F. induction ops as [|o ops IH]; intros s xs HR L C; cbn [run legal thrifty] in *.
  - exists s, [], xs. auto.
  - destruct L as [Al L]. destruct C as [Co C]. rewrite (R_contents _ _ _ HR) in Al, Co.
    destruct (step_ok True o s xs HR Al) as (s1 & h & ys & E & _ & _ & R1). rewrite E in L, C |- *. cbn [fst] in L, C.
    destruct (IH s1 ys) as (s2 & hs & zs & E2 & R2); [eapply R_weaken; [|exact R1]|exact L|exact C|].
    { intros _. split; [exact I|]. destruct o; cbn in *; auto. }
    rewrite E2. exists s2, (h :: hs), zs. auto.
Qed.

Lemma legal_app : forall ops o s xs, R False s xs -> legal A badalloc badcopy (ops ++ [o]) s -> forall s' hs,
  run A badalloc badcopy ops s = (s', hs) -> exists ys, R False s' ys /\ allowed A o ys.
Proof.
  induction ops as [|p ops IH]; intros o s xs HR L s' hs E; cbn [run legal app] in *.
  - injection E as <- <-. exists xs. split; [exact HR|]. rewrite (R_contents _ _ _ HR) in L. apply L.
  - destruct L as [Al L]. rewrite (R_contents _ _ _ HR) in Al.
    destruct (step_ok False p s xs HR Al) as (s1 & h & ys & E1 & _ & _ & R1). rewrite E1 in L, E. cbn [fst] in L.
    destruct (run A badalloc badcopy ops s1) as [s2 hs2] eqn:E2. injection E as <- <-.
    eapply IH; [eapply R_weaken; [|exact R1]; tauto|exact L|exact E2].
Qed.

Lemma fresh_R : forall t tk m, R t (fresh tk m m) [].
Proof. intros t tk m. exists []. cbn. split; [reflexivity|]. split; [reflexivity|]. intros _. split; [constructor|symmetry; apply Nat.add_0_r]. Qed.

Lemma destroy_R : forall s xs, R True s xs -> exists s', destroy A s = (s', Done) /\ made s' = gone s' /\ cells s' = [].
Proof.
  intros s xs HR. unfold destroy. pose proof (clear_ok True s xs HR) as C. destruct (clear A s) as [s1 []]; cbn in C; try contradiction.
  destruct C as (rest & _ & _ & T). destruct (T I) as [_ M]. cbn. eexists. split; [reflexivity|]. cbn in M |- *. split; [lia|reflexivity].
Qed.
End P.

(* ---------------- strings ---------------- *)
Section S.
Variable A : Type.
Variable badalloc : nat -> bool.

Definition str_inv (x : str A) : Prop := blocks x = (if block x then 1 else 0) /\ (block x = true <-> 15 < length (text x)).

Lemma set_owning_ok : forall t cs x, str_inv x ->
  let '(x', h) := set_owning A badalloc t cs x in
  str_inv x' /\ (h = Done /\ text x' = cs \/ h = Threw /\ text x' = [] /\ 15 < length cs /\ badalloc t = true).
Proof.
  intros t cs x [B L]. unfold set_owning, str_reset. destruct (Nat.leb_spec (length cs) 15) as [Q|Q].
  - cbn. split; [|left; auto]. split; cbn; [destruct (block x); lia|]. split; [discriminate|lia].
  - destruct (badalloc t) eqn:F; cbn.
    + split; [|right; auto]. split; cbn; [destruct (block x); lia|]. split; [discriminate|lia].
    + split; [|left; auto]. split; cbn; [destruct (block x); lia|]. split; [intros; lia|reflexivity].
Qed.
End S.

Section S2.
Variable A : Type.
Variable badalloc : nat -> bool.
Lemma set_all_ok : forall l t x, str_inv A x ->
  let '(x', hs) := set_all A badalloc t l x in str_inv A x' /\ str_follows A (text x) l hs (text x').
Proof.
  induction l as [|cs l IH]; intros t x I; cbn [set_all]; [split; [exact I|constructor]|].
  pose proof (set_owning_ok A badalloc t cs x I) as H. destruct (set_owning A badalloc t cs x) as [x1 h]. destruct H as [I1 H].
  specialize (IH (t + 1) x1 I1). destruct (set_all A badalloc (t + 1) l x1) as [x2 hs]. destruct IH as [I2 F].
  split; [exact I2|]. destruct H as [[-> E]|(-> & E & L & _)]; rewrite E in F; constructor; assumption.
Qed.
End S2.
