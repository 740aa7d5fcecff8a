From Verif Require Import Base FlatModel FlatSpec FlatProofs TupleModel TupleProofs FileModel FileSpec FileProofs PagedProofs SumModel SumSpec SumProofs MvecModel MvecSpec.
Section P.
Variable sz : nat.
Variable zero : bytes.
Hypothesis sz_pos : 0 < sz.
Hypothesis zero_len : length zero = sz.
Definition len1 (x : bytes) : Prop := length x = sz.
Definition MB (m : mm) : Prop := msize m = length (mfile m) /\ maddr m = negb (msize m =? 0).
(* the file is these elements and less than one more *)
Definition FC (m : mm) (cs : list bytes) : Prop := exists tl, mfile m = concat cs ++ tl /\ length tl < sz /\ Forall len1 cs.
Definition same (m m' : mm) : Prop := mprot m' = mprot m /\ msize m' = msize m /\ mused m' = mused m /\ maddr m' = maddr m.

Lemma concat_len (cs : list bytes) : Forall len1 cs -> length (concat cs) = length cs * sz.
Proof. induction 1 as [|x cs H F IH]; auto. cbn [concat length]. rewrite app_length, IH, H. cbn. auto. Qed.
Lemma chunks (l : bytes) : exists cs tl, l = concat cs ++ tl /\ length tl < sz /\ Forall len1 cs.
Proof.
  remember (length l) as n eqn:E. revert l E. induction n as [n IH] using lt_wf_ind. intros l E. destruct (Nat.lt_ge_cases (length l) sz) as [H|H].
  - exists [], l. cbn. auto.
  - destruct (IH (length (skipn sz l)) ltac:(rewrite skipn_length; lia) (skipn sz l) eq_refl) as (cs & tl & A & B & C). exists (firstn sz l :: cs), tl. cbn [concat].
    split; [rewrite <- app_assoc, <- A; symmetry; apply firstn_skipn|]. split; auto. constructor; auto. unfold len1. rewrite firstn_length. lia.
Qed.
Lemma fc_nth m cs i : MB m -> FC m cs -> (i < length cs <-> i * sz + sz <= msize m).
Proof. intros (A & _) (tl & B & C & D). rewrite A, B, app_length, concat_len by auto. nia. Qed.
Lemma fc_size m cs k : MB m -> FC m cs -> (k <= length cs <-> k * sz <= msize m).
Proof. intros (A & _) (tl & B & C & D). rewrite A, B, app_length, concat_len by auto. nia. Qed.
Lemma concat_skip (cs : list bytes) i : Forall len1 cs -> skipn (i * sz) (concat cs) = concat (skipn i cs).
Proof.
  intros F. revert i. induction F as [|x cs H F IH]; intros i; [cbn; rewrite !skipn_nil; auto|]. destruct i as [|i]; [auto|]. cbn [concat skipn Nat.mul]. rewrite skipn_app, H.
  rewrite (skipn_all2 x) by (unfold len1 in H; lia). replace (sz + i * sz - sz) with (i * sz) by lia. cbn. auto.
Qed.
Lemma concat_first (cs : list bytes) i : Forall len1 cs -> firstn (i * sz) (concat cs) = concat (firstn i cs).
Proof.
  intros F. revert i. induction F as [|x cs H F IH]; intros i; [cbn; rewrite !firstn_nil; auto|]. destruct i as [|i]; [auto|]. cbn [concat firstn Nat.mul]. rewrite firstn_app, H.
  rewrite (firstn_all2 x) by (unfold len1 in H; lia). replace (sz + i * sz - sz) with (i * sz) by lia. rewrite IH. auto.
Qed.
Lemma F_first (cs : list bytes) i : Forall len1 cs -> Forall len1 (firstn i cs).
Proof. intros F. apply Forall_forall. intros x I. rewrite Forall_forall in F. apply F. rewrite <- (firstn_skipn i cs). apply in_or_app. auto. Qed.
Lemma F_skip (cs : list bytes) i : Forall len1 cs -> Forall len1 (skipn i cs).
Proof. intros F. apply Forall_forall. intros x I. rewrite Forall_forall in F. apply F. rewrite <- (firstn_skipn i cs). apply in_or_app; auto. Qed.
(* reading and writing n elements from i on *)
Lemma read_ok m cs i n : MB m -> FC m cs -> i + n <= length cs -> cs <> [] -> mm_read m (i * sz) (n * sz) = Ok (concat (firstn n (skipn i cs))).
Proof.
  intros M Hf H N. pose proof Hf as (tl & B & C & D). pose proof M as (A & A2). unfold mm_read. assert (L : (i + n) * sz <= msize m) by (apply (fc_size m cs); auto).
  assert (P : 1 * sz <= msize m). { apply (fc_size m cs); auto. destruct cs; [congruence|cbn; lia]. }
  rewrite A2. destruct (Nat.eqb_spec (msize m) 0); [lia|]. destruct (Nat.leb_spec (i * sz + n * sz) (msize m)); [|lia]. cbn [negb andb]. unfold rd. rewrite A in *.
  destruct (Nat.leb_spec (i * sz + n * sz) (length (mfile m))); [|lia]. f_equal. rewrite B, skipn_app, concat_skip by auto. rewrite concat_len by auto.
  replace (i * sz - length cs * sz) with 0 by nia. cbn [skipn]. rewrite firstn_app, concat_len by (apply F_skip; auto). rewrite skipn_length. replace (n * sz - (length cs - i) * sz) with 0 by nia. cbn [firstn]. rewrite app_nil_r.
  apply concat_first. apply F_skip; auto.
Qed.
Lemma write_ok m cs i xs : MB m -> FC m cs -> mprot m <> READ -> Forall len1 xs -> i + length xs <= length cs -> cs <> [] ->
  exists m', mm_write m (i * sz) (concat xs) = Ok m' /\ MB m' /\ FC m' (firstn i cs ++ xs ++ skipn (i + length xs) cs) /\ same m m'.
Proof.
  intros M Hf Hp Fx H N. pose proof Hf as (tl & B & C & D). pose proof M as (A & A2). unfold mm_write. pose proof (concat_len xs Fx) as Lx. assert (L : (i + length xs) * sz <= msize m) by (apply (fc_size m cs); auto).
  assert (P : 1 * sz <= msize m). { apply (fc_size m cs); auto. destruct cs; [congruence|cbn; lia]. }
  assert (E : (if maddr m && (i * sz + length (concat xs) <=? msize m) then let* f := wr (mfile m) (i * sz) (concat xs) in Ok (set_file m f) else UB) = Ok (set_file m (overwrite (mfile m) (i * sz) (concat xs)))).
  { rewrite A2, Lx. destruct (Nat.eqb_spec (msize m) 0); [lia|]. destruct (Nat.leb_spec (i * sz + length xs * sz) (msize m)); [|lia]. cbn [negb andb].
    rewrite wr_ok by (rewrite Lx; lia). auto. }
  exists (set_file m (overwrite (mfile m) (i * sz) (concat xs))). split; [destruct (mprot m); congruence|].
  assert (Q : overwrite (mfile m) (i * sz) (concat xs) = concat (firstn i cs ++ xs ++ skipn (i + length xs) cs) ++ tl).
  { unfold overwrite. rewrite Lx, B, !concat_app, <- !app_assoc. f_equal; [|f_equal].
    - rewrite firstn_app, concat_len by auto. replace (i * sz - length cs * sz) with 0 by nia. cbn [firstn]. rewrite app_nil_r. apply concat_first; auto.
    - replace (i * sz + length xs * sz) with ((i + length xs) * sz) by lia. rewrite skipn_app, concat_skip, concat_len by auto. f_equal. replace ((i + length xs) * sz - length cs * sz) with 0 by nia. auto. }
  assert (G : Forall len1 (firstn i cs ++ xs ++ skipn (i + length xs) cs)). { rewrite !Forall_app. split; [apply F_first; auto|]. split; auto. apply F_skip; auto. }
  split; [|split].
  - split; cbn [set_file msize mfile maddr]; auto. rewrite Q, app_length, concat_len, !app_length, firstn_length, skipn_length by auto. rewrite A, B, app_length, concat_len by auto. f_equal. f_equal. lia.
  - exists tl. cbn [set_file mfile]. rewrite Q. auto.
  - unfold same. auto.
Qed.
Lemma get_ok m cs i x : MB m -> FC m cs -> nth_error cs i = Some x -> get sz m i = Ok x.
Proof.
  intros M F H. unfold get. assert (i < length cs) by (apply nth_error_Some; congruence). replace sz with (1 * sz) at 2 by lia. rewrite (read_ok m cs i 1); auto; try lia; [|intros ->; cbn in *; lia].
  f_equal. destruct (nth_error_split _ _ H) as (a & b & -> & <-). rewrite skipn_app, skipn_all, Nat.sub_diag. cbn [app skipn firstn concat]. apply app_nil_r.
Qed.
Lemma put_ok m cs i x : MB m -> FC m cs -> mprot m <> READ -> len1 x -> i < length cs -> exists m', put sz m i x = Ok m' /\ MB m' /\ FC m' (upd i x cs) /\ same m m'.
Proof.
  intros M F P Hx H. destruct (write_ok m cs i [x] M F P) as (m' & E & A & B & C); auto; [cbn; lia|intros ->; cbn in *; lia|]. cbn [concat] in E. rewrite app_nil_r in E. exists m'. split; auto. split; auto. split; auto.
  cbn [length app] in B. rewrite upd_firstn_skipn by auto. replace (S i) with (i + 1) by lia. auto.
Qed.
Lemma same_refl m : same m m. Proof. unfold same; auto. Qed.
Lemma same_tr a b c : same a b -> same b c -> same a c.
Proof. unfold same. intros (A & B & C & D) (E & F & G & H). repeat split; congruence. Qed.
Lemma fill_ok xs : forall m cs i, MB m -> FC m cs -> mprot m <> READ -> Forall len1 xs -> i + length xs <= length cs ->
  exists m', fill sz m i xs = Ok m' /\ MB m' /\ FC m' (firstn i cs ++ xs ++ skipn (i + length xs) cs) /\ same m m'.
Proof.
  induction xs as [|x xs IH]; intros m cs i M F P Fx H; cbn [fill length] in *.
  - exists m. split; auto. split; auto. rewrite Nat.add_0_r. cbn [app]. rewrite firstn_skipn. split; auto. apply same_refl.
  - inversion Fx as [|? ? Hx Fx']; subst. destruct (put_ok m cs i x M F P Hx) as (m1 & E1 & M1 & F1 & S1); [lia|]. rewrite E1. cbn [bind].
    destruct (IH m1 (upd i x cs) (S i) M1 F1) as (m2 & E2 & M2 & F2 & S2); auto; [destruct S1; congruence|rewrite upd_length; lia|]. exists m2. split; auto. split; auto. split; [|eapply same_tr; eauto].
    rewrite upd_firstn_skipn in F2 by lia. set (r := skipn (S i) cs) in F2. rewrite firstn_app, firstn_length, Nat.min_l in F2 by lia. replace (S i - i) with 1 in F2 by lia. rewrite firstn_all2 in F2 by (rewrite firstn_length; lia). cbn [firstn] in F2.
    rewrite skipn_app, firstn_length, Nat.min_l in F2 by lia. rewrite skipn_all2 in F2 by (rewrite firstn_length; lia). replace (S i + length xs - i) with (S (length xs)) in F2 by lia. cbn [skipn] in F2. cbn [app] in F2. subst r. rewrite skip_skip in F2.
    rewrite <- app_assoc in F2. cbn [app] in F2. replace (i + S (length xs)) with (S i + length xs) by lia. exact F2.
Qed.
Lemma shift_ok n : forall m cs pos cnt, MB m -> FC m cs -> mprot m <> READ -> pos + n + cnt <= length cs ->
  exists m' cs', shift sz m pos n cnt = Ok m' /\ MB m' /\ FC m' cs' /\ same m m' /\ length cs' = length cs /\
    forall k, nth_error cs' k = if (pos + cnt <=? k) && (k <? pos + cnt + n) then nth_error cs (k - cnt) else nth_error cs k.
Proof.
  induction n as [|n IH]; intros m cs pos cnt M F P H; cbn [shift].
  - exists m, cs. split; auto. split; auto. split; auto. split; [apply same_refl|]. split; auto. intros k. destruct (Nat.leb_spec (pos + cnt) k), (Nat.ltb_spec k (pos + cnt + 0)); cbn [andb]; auto. lia.
  - destruct (nth_error cs (pos + n)) as [x|] eqn:Ex; [|apply nth_error_None in Ex; lia]. rewrite (get_ok m cs _ x M F Ex). cbn [bind].
    assert (Hx : len1 x). { destruct F as (tl & _ & _ & F). rewrite Forall_forall in F. apply F. eapply nth_error_In; eauto. }
    destruct (put_ok m cs (pos + n + cnt) x M F P Hx) as (m1 & E1 & M1 & F1 & S1); [lia|]. rewrite E1. cbn [bind].
    destruct (IH m1 _ pos cnt M1 F1) as (m2 & cs2 & E2 & M2 & F2 & S2 & L2 & K2); [destruct S1; congruence|rewrite upd_length; lia|].
    exists m2, cs2. split; auto. split; auto. split; auto. split; [eapply same_tr; eauto|]. split; [rewrite L2; apply upd_length|].
    intros k. rewrite K2. rewrite !nth_error_upd' by lia.
    destruct (Nat.leb_spec (pos + cnt) k), (Nat.ltb_spec k (pos + cnt + n)), (Nat.ltb_spec k (pos + cnt + S n)); cbn [andb]; try lia; auto.
    + destruct (Nat.eqb_spec (pos + n + cnt) (k - cnt)); [lia|auto].
    + assert (k = pos + n + cnt) as -> by lia. rewrite Nat.eqb_refl. replace (pos + n + cnt - cnt) with (pos + n) by lia. auto.
    + destruct (Nat.eqb_spec (pos + n + cnt) k); [lia|auto].
    + destruct (Nat.eqb_spec (pos + n + cnt) k); [lia|auto].
Qed.
Lemma rotate_ok m (a b c d : list bytes) i j e : MB m -> FC m (a ++ b ++ c ++ d) -> mprot m <> READ -> i = length a -> j = i + length b -> e = j + length c ->
  exists m', rotate sz m i j e = Ok (m', i + length c) /\ MB m' /\ FC m' (a ++ c ++ b ++ d) /\ same m m'.
Proof.
  intros M F P -> -> ->. unfold rotate. destruct (Nat.ltb_spec (length a + length b) (length a)); [lia|]. destruct (Nat.ltb_spec (length a + length b + length c) (length a + length b)); [lia|]. cbn [orb].
  destruct (Nat.eqb_spec (length a) (length a + length b + length c)) as [Z|Z].
  - assert (b = []) as -> by (apply length_zero_iff_nil; lia). assert (c = []) as -> by (apply length_zero_iff_nil; lia). exists m. cbn [app length] in *. rewrite Nat.add_0_r. split; auto. split; auto. split; auto. apply same_refl.
  - assert (N : a ++ b ++ c ++ d <> []). { intros Q. apply (f_equal (@length _)) in Q. rewrite !app_length in Q. cbn in Q. lia. }
    replace (length a + length b - length a) with (length b) by lia. replace (length a + length b + length c - (length a + length b)) with (length c) by lia.
    rewrite (read_ok m _ (length a) (length b) M F) by (auto; rewrite !app_length; lia). cbn [bind].
    rewrite (read_ok m _ (length a + length b) (length c) M F) by (auto; rewrite !app_length; lia). cbn [bind].
    assert (K : forall u w : list bytes, firstn (length u) (u ++ w) = u) by (intros; rewrite firstn_app, firstn_all, Nat.sub_diag; cbn [firstn]; apply app_nil_r).
    assert (K1 : firstn (length b) (skipn (length a) (a ++ b ++ c ++ d)) = b). { rewrite skipn_app, skipn_all, Nat.sub_diag. cbn [app skipn]. apply K. }
    assert (K2 : firstn (length c) (skipn (length a + length b) (a ++ b ++ c ++ d)) = c). { rewrite app_assoc, skipn_app, app_length, skipn_all2 by (rewrite app_length; lia). rewrite Nat.sub_diag. cbn [app skipn]. apply K. }
    rewrite K1, K2, <- concat_app.
    pose proof F as (tl & _ & _ & G). rewrite !Forall_app in G. destruct G as (Ga & Gb & Gc & Gd).
    destruct (write_ok m _ (length a) (c ++ b) M F P) as (m' & E & M' & F' & S'); auto; [apply Forall_app; auto|rewrite !app_length; lia|].
    exists m'. split; [unfold bytes in *; rewrite E; reflexivity|]. split; auto. split; auto.
    rewrite K in F'. rewrite <- (app_assoc c b) in F'.
    replace (skipn (length a + length (c ++ b)) (a ++ b ++ c ++ d)) with d in F'; auto.
    replace (a ++ b ++ c ++ d) with ((a ++ b ++ c) ++ d) by (rewrite <- !app_assoc; auto). rewrite skipn_app, skipn_all2 by (rewrite !app_length; lia). rewrite !app_length. replace (_ - _) with 0 by lia. auto.
Qed.
Lemma all_ok n : forall m cs i, MB m -> FC m cs -> i + n <= length cs -> all sz m i n = Ok (firstn n (skipn i cs)).
Proof.
  induction n as [|n IH]; intros m cs i M F H; cbn [all]; auto. destruct (nth_error cs i) as [x|] eqn:E; [|apply nth_error_None in E; lia].
  rewrite (get_ok m cs i x M F E). cbn [bind]. rewrite (IH m cs (S i) M F) by lia. cbn [bind]. destruct (nth_error_split _ _ E) as (a & b & -> & <-).
  rewrite !skipn_app, skipn_all. rewrite (skipn_all2 a) by lia. rewrite Nat.sub_diag. replace (S (length a) - length a) with 1 by lia. auto.
Qed.
(* growing *)
Lemma grow_ok m cs n : MB m -> FC m cs -> mprot m <> READ ->
  exists m' ext, mm_resize m n false = (m', false) /\ MB m' /\ FC m' (cs ++ ext) /\ mprot m' = mprot m /\ mused m' = n /\ n <= msize m' /\ msize m <= msize m'.
Proof.
  intros (A & A2) (tl & B & C & D) P. unfold mm_resize, mm_reserve. assert (Q : mprot m = WRITE \/ mprot m = MODIFY) by (destruct (mprot m); auto; congruence).
  destruct (Nat.ltb_spec (msize m) n) as [H|H].
  - set (q := FileModel.next_power_of_two n). assert (Lq : n <= q) by apply npo2_ge. destruct (chunks (tl ++ repeat 0%N (q - length (mfile m)))) as (ext & tl' & E1 & E2 & E3).
    set (f := ftruncate (mfile m) q). exists (MM f (f :: mhist m) (mprot m) q n true), ext. split.
    { unfold resize_map, resize_file. destruct Q as [Q|Q]; rewrite Q; reflexivity. }
    assert (Ef : f = concat (cs ++ ext) ++ tl'). { unfold f, ftruncate. rewrite firstn_all2 by lia. rewrite B at 1. rewrite <- app_assoc, E1, concat_app, app_assoc. auto. }
    split; [|split; [|cbn [mprot mused msize]; repeat split; auto; lia]].
    + split; cbn [msize mfile maddr]; [unfold f; rewrite trunc_len; auto|]. destruct (Nat.eqb_spec q 0); [lia|auto].
    + exists tl'. cbn [mfile]. split; auto. split; auto. apply Forall_app; auto.
  - exists (MM (mfile m) (mhist m) (mprot m) (msize m) n (maddr m)), []. rewrite app_nil_r. split; [destruct Q as [Q|Q]; rewrite Q; rewrite <- Q; reflexivity|].
    split; [split; auto|]. split; [exists tl; auto|]. cbn [mprot mused msize]. auto.
Qed.
Lemma ro_resize m n : mprot m = READ -> mm_resize m n false = (m, true).
Proof. intros P. unfold mm_resize, mm_reserve. rewrite P. auto. Qed.

(* own elements as arguments *)
Definition resized (m : mm) (n : nat) : mm := MM (mfile m) (mhist m) (mprot m) (msize m) n (maddr m).
Lemma resize_room m n : n <= msize m -> mprot m <> READ -> mm_resize m n false = (resized m n, false).
Proof.
  intros H P. unfold mm_resize, mm_reserve. destruct (Nat.ltb_spec (msize m) n); [lia|]. destruct (mprot m) eqn:E; try congruence; unfold resized; rewrite E; auto.
Qed.
Lemma own_room v n i : own_get sz v (resized (vm v) n) i = get sz (vm v) i.
Proof. unfold own_get. cbn [resized msize]. rewrite Nat.eqb_refl. reflexivity. Qed.
Lemma push_own_room v i : sz * S (vused v) <= msize (vm v) -> mprot (vm v) <> READ -> push_own sz v i = let* x := get sz (vm v) i in push sz v x.
Proof.
  intros H P. unfold push_own, push. rewrite resize_room by auto. rewrite own_room. reflexivity.
Qed.
Record VR (v : mv) (t : vs) : Prop := {
  vr_b : MB (vm v);
  vr_c : exists ext, FC (vm v) (cells t ++ ext);
  vr_u : vused v = length (cells t);
  vr_p : ro t = match mprot (vm v) with READ => true | _ => false end;
  vr_x : exact t = true -> mused (vm v) = length (cells t) * sz;
  vr_m : most t * sz <= msize (vm v);
  vr_l : mused (vm v) <= msize (vm v);
  vr_h : length (cells t) <= most t;
  vr_r : mprot (vm v) = READ -> mused (vm v) = msize (vm v)
}.
Lemma open_ok l p : Forall len1 l -> VR (mv_open sz (concat l) p) (vopened l p).
Proof.
  intros F. pose proof (concat_len l F) as L.
  assert (G : forall p, p <> WRITE -> FC (mm_open (concat l) p) (l ++ [])) by (intros q Hq; rewrite app_nil_r; exists []; destruct q; try congruence; cbn [mm_open mfile]; rewrite app_nil_r; auto).
  assert (M : forall p, MB (mm_open (concat l) p)) by (intros []; split; reflexivity).
  unfold mv_open. destruct p; unfold vopened; constructor; cbn [vm cells ro exact most vused]; auto; try (cbn [mm_open mprot msize mused]; try (intros E; discriminate); lia).
  - exists []. apply G. discriminate.
  - cbn [mm_open mused]. rewrite L. apply Nat.div_mul. lia.
  - exists [], []. cbn. auto.
  - cbn [mm_open mused length]. apply Nat.div_0_l. lia.
  - exists []. apply G. discriminate.
  - cbn [mm_open mused]. rewrite L. apply Nat.div_mul. lia.
Qed.
Lemma rw v t : VR v t -> ro t = false -> mprot (vm v) <> READ.
Proof. intros R H E. rewrite (vr_p _ _ R), E in H. discriminate. Qed.
Lemma rdo v t : VR v t -> ro t = true -> mprot (vm v) = READ.
Proof. intros R H. rewrite (vr_p _ _ R) in H. destruct (mprot (vm v)); auto; discriminate. Qed.
(* a vector with the elements l, its size set to theirs *)
Lemma with_ok v t m l ext : VR v t -> ro t = false -> MB m -> FC m (l ++ ext) -> mprot m <> READ -> mused m = length l * sz -> msize (vm v) <= msize m -> mused m <= msize m ->
  VR (MV m (length l)) (with_cells t l).
Proof.
  intros R Ro M F P U S1 S2. constructor; cbn [with_cells cells ro exact most vm vused]; auto; try (intros; congruence); try lia; eauto.
  - rewrite Ro. destruct (mprot m); congruence.
  - pose proof (vr_m _ _ R). destruct (Nat.max_spec (most t) (length l)) as [(_ & ->)|(_ & ->)]; lia.
Qed.
Lemma all_elem xs : forallb (elem sz) xs = true -> Forall len1 xs.
Proof. intros H. apply Forall_forall. intros x I. rewrite forallb_forall in H. apply Nat.eqb_eq. apply H. auto. Qed.

(* reserve space for k elements and write xs from i on *)
Lemma grow_cells v t k : VR v t -> ro t = false -> exists m ext, mm_resize (vm v) (k * sz) false = (m, false) /\ MB m /\ FC m (cells t ++ ext) /\ mprot m <> READ /\ mused m = k * sz /\ k * sz <= msize m /\
  msize (vm v) <= msize m /\ k <= length (cells t ++ ext).
Proof.
  intros R Ro. destruct (vr_c _ _ R) as (ext & F). pose proof (rw _ _ R Ro) as P. destruct (grow_ok (vm v) _ (k * sz) (vr_b _ _ R) F P) as (m & e & E & M & F' & P' & U & L1 & L2).
  rewrite <- app_assoc in F'. exists m, (ext ++ e). split; auto. split; auto. split; auto. split; [congruence|]. split; auto. split; auto. split; auto. apply (fc_size m); auto.
Qed.
Lemma len_cells v t : VR v t -> Forall len1 (cells t).
Proof. intros R. destruct (vr_c _ _ R) as (ext & tl & _ & _ & F). apply Forall_app in F. tauto. Qed.
Lemma append_ok xs : forall v t, VR v t -> ro t = false -> Forall len1 xs -> xs <> [] -> exists v', append sz v xs = Ok (v', false) /\ VR v' (with_cells t (cells t ++ xs)).
Proof.
  induction xs as [|x xs IH]; intros v t R Ro Fx N; [congruence|]. cbn [append]. unfold reserve. inversion Fx as [|? ? Hx Fx']; subst. rewrite (vr_u _ _ R).
  destruct (grow_cells v t (length (cells t) + 1) R Ro) as (m & ext & -> & M & F & P & U & L1 & L2 & L3).
  destruct (put_ok m _ (length (cells t)) x M F P Hx) as (m1 & -> & M1 & F1 & S1); [lia|]. cbn [bind].
  destruct ext as [|e ext]; [rewrite app_nil_r in L3; lia|]. rewrite upd_mid in F1. replace (cells t ++ x :: ext) with ((cells t ++ [x]) ++ ext) in F1 by (rewrite <- app_assoc; auto).
  destruct S1 as (S1 & S2 & S3 & S4).
  assert (R1 : VR (MV m1 (length (cells t) + 1)) (with_cells t (cells t ++ [x]))).
  { replace (length (cells t) + 1) with (length (cells t ++ [x])) by (rewrite app_length; auto). apply (with_ok v t m1 _ ext); auto; try congruence; rewrite ?app_length; cbn [length]; try lia. }
  destruct xs as [|y xs].
  - cbn [append]. eauto.
  - destruct (IH _ _ R1) as (v' & -> & R'); auto; [discriminate|]. exists v'. split; auto. cbn [with_cells cells] in R'. rewrite <- app_assoc in R'. cbn [app] in R'.
    unfold with_cells in *. cbn [ro most cells] in *. replace (Nat.max (most t) (length (cells t ++ x :: y :: xs))) with (Nat.max (Nat.max (most t) (length (cells t ++ [x]))) (length (cells t ++ x :: y :: xs))); auto.
    rewrite !app_length. cbn [length]. lia.
Qed.
Lemma mv_step_ok v t o t' r : VR v t -> mv_spec sz zero t o = Some (t', r) -> exists v', mv_step sz zero v o = Ok (v', r) /\ VR v' t'.
Proof.
  intros R E. pose proof (vr_u _ _ R) as U. pose proof (len_cells _ _ R) as FL.
  assert (SM : forall v, set_map v (vm v) = v) by (intros []; auto).
  assert (RO : ro t = true -> forall n, mm_resize (vm v) n false = (vm v, true)) by (intros Q n; apply ro_resize; eapply rdo; eauto).
  destruct o; cbn [mv_spec mv_step] in *; unfold change in E.
  - (* push *) apply guard_some in E as (H & E). apply andb_prop in H as (Hx & Ro). apply negb_true_iff in Ro. apply Nat.eqb_eq in Hx. injection E as <- <-.
    unfold push. rewrite U, Nat.mul_comm. destruct (grow_cells v t (S (length (cells t))) R Ro) as (m & ext & -> & M & F & P & Us & L1 & L2 & L3).
    destruct ext as [|e ext]; [rewrite app_nil_r in L3; lia|].
    destruct (put_ok m _ (S (length (cells t)) - 1) x M F P Hx) as (m1 & -> & M1 & F1 & S1); [lia|]. cbn [bind]. replace (S (length (cells t)) - 1) with (length (cells t)) in F1 by lia.
    rewrite upd_mid in F1. replace (cells t ++ x :: ext) with ((cells t ++ [x]) ++ ext) in F1 by (rewrite <- app_assoc; auto). destruct S1 as (S1 & S2 & S3 & S4).
    eexists. split; [reflexivity|]. replace (S (length (cells t))) with (length (cells t ++ [x])) by (rewrite app_length; cbn; lia).
    apply (with_ok v t m1 _ ext); auto; try congruence; rewrite ?app_length; cbn [length]; try lia.
  - (* push own *) destruct (nth_error (cells t) i) as [x|] eqn:Ex; [|discriminate]. apply guard_some in E as (H & E). apply andb_prop in H as (Ro & Hm). apply negb_true_iff in Ro. apply Nat.ltb_lt in Hm. injection E as <- <-.
    assert (Hx : len1 x) by (rewrite Forall_forall in FL; apply FL; eapply nth_error_In; eauto).
    pose proof (vr_m _ _ R) as Mo. rewrite push_own_room; [|rewrite U; nia|apply (rw _ _ R Ro)].
    destruct (vr_c _ _ R) as (ext0 & F0). rewrite (get_ok _ _ i x (vr_b _ _ R) F0) by (rewrite nth_error_app1; auto; apply nth_error_Some; congruence). cbn [bind].
    unfold push. rewrite U, Nat.mul_comm. destruct (grow_cells v t (S (length (cells t))) R Ro) as (m & ext & -> & M & F & P & Us & L1 & L2 & L3).
    destruct ext as [|e ext]; [rewrite app_nil_r in L3; lia|].
    destruct (put_ok m _ (S (length (cells t)) - 1) x M F P Hx) as (m1 & -> & M1 & F1 & S1); [lia|]. cbn [bind]. replace (S (length (cells t)) - 1) with (length (cells t)) in F1 by lia.
    rewrite upd_mid in F1. replace (cells t ++ x :: ext) with ((cells t ++ [x]) ++ ext) in F1 by (rewrite <- app_assoc; auto). destruct S1 as (S1 & S2 & S3 & S4).
    eexists. split; [reflexivity|]. replace (S (length (cells t))) with (length (cells t ++ [x])) by (rewrite app_length; cbn; lia).
    apply (with_ok v t m1 _ ext); auto; try congruence; rewrite ?app_length; cbn [length]; try lia.
  - (* emplace *) apply guard_some in E as (Hx & E). apply Nat.eqb_eq in Hx. unfold emplace, reserve. destruct (ro t) eqn:Ro; injection E as <- <-.
    { rewrite RO by auto. rewrite SM. eauto. }
    destruct (append_ok [x] v t R Ro) as (v' & Ea & Ra); [auto|discriminate|]. cbn [append] in Ea. unfold reserve in Ea. destruct (mm_resize (vm v) ((vused v + 1) * sz) false) as (m, [|]) eqn:Er; [discriminate|].
    destruct (put sz m (vused v) x) as [m1| | |]; try discriminate. cbn [bind] in *. injection Ea as <-. eauto.
  - (* get *) destruct (nth_error (cells t) i) as [x|] eqn:Ex; [|discriminate]. injection E as <- <-. destruct (vr_c _ _ R) as (ext & F).
    rewrite (get_ok _ _ i x (vr_b _ _ R) F) by (rewrite nth_error_app1; auto; apply nth_error_Some; congruence). cbn [bind]. eauto.
  - (* put *) apply guard_some in E as (H & E). apply andb_prop in H as (H & Ro). apply andb_prop in H as (Hx & Hi). apply Nat.eqb_eq in Hx. apply Nat.ltb_lt in Hi. apply negb_true_iff in Ro. injection E as <- <-.
    destruct (vr_c _ _ R) as (ext & F). pose proof (rw _ _ R Ro) as P. destruct (put_ok _ _ i x (vr_b _ _ R) F P Hx) as (m1 & -> & M1 & F1 & (S1 & S2 & S3 & S4)); [rewrite app_length; lia|]. cbn [bind].
    rewrite upd_app1 in F1 by auto. eexists. split; [reflexivity|]. destruct R. constructor; cbn [set_map vm vused cells ro exact most]; rewrite ?upd_length, ?S1, ?S2, ?S3; auto. eauto.
  - (* size *) injection E as <- <-. rewrite U. eauto.
  - (* all *) injection E as <- <-. destruct (vr_c _ _ R) as (ext & F). rewrite (all_ok _ _ _ 0 (vr_b _ _ R) F) by (rewrite U, app_length; lia). cbn [bind skipn]. rewrite U, firstn_app, firstn_all, Nat.sub_diag. cbn [firstn]. rewrite app_nil_r. eauto.
  - (* reserve *) unfold reserve. destruct (ro t) eqn:Ro; injection E as <- <-. { rewrite RO by auto. rewrite SM. eauto. }
    destruct (grow_cells v t n R Ro) as (m & ext & -> & M & F & P & Us & L1 & L2 & L3). eexists. split; [reflexivity|]. pose proof R as []. constructor; cbn [set_map vm vused cells ro exact most]; auto; try (intros; congruence); try lia; eauto.
    + destruct (mprot m); congruence.
  - (* resize *) apply guard_some in E as (_ & E). unfold resize. destruct (ro t) eqn:Ro; injection E as <- <-. { rewrite RO by auto. rewrite SM. eauto. }
    destruct (grow_cells v t n R Ro) as (m & ext & -> & M & F & P & Us & L1 & L2 & L3).
    destruct (fill_ok (repeat zero (n - vused v)) m _ (vused v) M F P) as (m1 & -> & M1 & F1 & (S1 & S2 & S3 & S4)).
    { apply Forall_forall. intros x I. apply repeat_spec in I. subst x. auto. } { rewrite repeat_length, app_length in *. lia. }
    cbn [bind]. rewrite U in F1. rewrite firstn_app, firstn_all, Nat.sub_diag in F1. cbn [firstn] in F1. rewrite app_nil_r in F1.
    eexists. split; [reflexivity|]. set (l := firstn n (cells t) ++ repeat zero (n - length (cells t))). assert (Ll : length l = n) by (unfold l; rewrite app_length, firstn_length, repeat_length; lia).
    rewrite <- Ll at 1.
    assert (G : exists e, cells t ++ repeat zero (n - length (cells t)) ++ skipn (length (cells t) + length (repeat zero (n - length (cells t)))) (cells t ++ ext) = l ++ e).
    { unfold l. destruct (Nat.le_ge_cases n (length (cells t))) as [Hn|Hn].
      - replace (n - length (cells t)) with 0 by lia. cbn [repeat app length]. exists (skipn n (cells t) ++ skipn (length (cells t) + 0) (cells t ++ ext)). rewrite app_nil_r, app_assoc, firstn_skipn. auto.
      - rewrite firstn_all2 by lia. eexists. rewrite <- app_assoc. reflexivity. }
    destruct G as (e & G). rewrite G in F1. apply (with_ok v t m1 _ e); auto; try congruence; try lia.
  - (* set *) apply guard_some in E as (Hx & E). apply all_elem in Hx. unfold set, reserve. destruct (ro t) eqn:Ro; injection E as <- <-. { rewrite RO by auto. rewrite SM. eauto. }
    destruct (grow_cells v t (length xs) R Ro) as (m & ext & -> & M & F & P & Us & L1 & L2 & L3).
    destruct (fill_ok xs m _ 0 M F P Hx) as (m1 & -> & M1 & F1 & (S1 & S2 & S3 & S4)); [lia|]. cbn [bind firstn app] in *. eexists. split; [reflexivity|].
    eapply with_ok; eauto; try congruence; lia.
  - (* insert one *) apply guard_some in E as (H & E). apply andb_prop in H as (Hx & Hi). apply Nat.eqb_eq in Hx. apply Nat.leb_le in Hi. unfold insert1, reserve. destruct (ro t) eqn:Ro; injection E as <- <-. { rewrite RO by auto. rewrite SM. eauto. }
    rewrite U. destruct (grow_cells v t (length (cells t) + 1) R Ro) as (m & ext & -> & M & F & P & Us & L1 & L2 & L3). destruct ext as [|e ext]; [rewrite app_nil_r in L3; lia|].
    destruct (put_ok m _ (length (cells t)) x M F P Hx) as (m1 & -> & M1 & F1 & S1); [lia|]. cbn [bind]. rewrite upd_mid in F1.
    replace (cells t ++ x :: ext) with (firstn i (cells t) ++ skipn i (cells t) ++ [x] ++ ext) in F1 by (rewrite app_assoc, firstn_skipn; auto).
    destruct (rotate_ok m1 _ _ _ _ i (length (cells t)) (length (cells t) + 1) M1 F1) as (m2 & -> & M2 & F2 & S2).
    { destruct S1; congruence. } { rewrite firstn_length. lia. } { rewrite skipn_length. lia. } { auto. }
    cbn [bind length]. eexists. split; [reflexivity|]. pose proof (same_tr _ _ _ S1 S2) as (T1 & T2 & T3 & T4). assert (Ll : length (insert_at i [x] (cells t)) = length (cells t) + 1). { unfold insert_at. rewrite !app_length, firstn_length, skipn_length. cbn [length]. lia. }
    rewrite <- Ll at 1. apply (with_ok v t m2 _ ext); auto; try congruence; try lia. unfold insert_at. rewrite <- !app_assoc. auto.
  - (* insert input *) apply guard_some in E as (H & E). apply andb_prop in H as (H & Hn). apply andb_prop in H as (H & Ro). apply andb_prop in H as (Hx & Hi). apply all_elem in Hx. apply Nat.leb_le in Hi. apply negb_true_iff in Ro. apply negb_true_iff, Nat.eqb_neq in Hn. injection E as <- <-.
    unfold insert_in. destruct (append_ok xs v t R Ro Hx) as (v1 & -> & R1); [intros ->; auto|]. cbn [bind]. rewrite (vr_u _ _ R1). cbn [with_cells cells]. rewrite U, app_length.
    destruct (vr_c _ _ R1) as (ext & F1). cbn [with_cells cells] in F1. pose proof (rw _ _ R1 Ro) as P1.
    replace ((cells t ++ xs) ++ ext) with (firstn i (cells t) ++ skipn i (cells t) ++ xs ++ ext) in F1 by (rewrite app_assoc, firstn_skipn, app_assoc; auto).
    destruct (rotate_ok (vm v1) _ _ _ _ i (length (cells t)) (length (cells t) + length xs) (vr_b _ _ R1) F1 P1) as (m2 & -> & M2 & F2 & (S1 & S2 & S3 & S4)).
    { rewrite firstn_length. lia. } { rewrite skipn_length. lia. } { auto. }
    cbn [bind]. eexists. split; [reflexivity|]. unfold insert_at.
    assert (Ll : length (firstn i (cells t) ++ xs ++ skipn i (cells t)) = length (cells t ++ xs)). { rewrite !app_length, firstn_length, skipn_length. lia. }
    unfold with_cells. rewrite Ll. pose proof R1 as []. cbn [with_cells cells ro exact most] in *. constructor; cbn [set_map vm vused cells ro exact most]; rewrite ?Ll, ?S1, ?S2, ?S3; auto.
    exists ext. rewrite <- !app_assoc. auto.
  - (* insert forward *) apply guard_some in E as (H & E). apply andb_prop in H as (Hx & Hi). apply all_elem in Hx. apply Nat.leb_le in Hi. unfold insert_fwd. rewrite U. destruct (Nat.eqb_spec (length (cells t)) 0) as [Z|Z].
    + assert (cells t = []) as C by (apply length_zero_iff_nil; auto). unfold set, reserve. destruct (ro t) eqn:Ro; injection E as <- <-. { rewrite RO by auto. rewrite SM. cbn [bind]. eauto. }
      destruct (grow_cells v t (length xs) R Ro) as (m & ext & -> & M & F & P & Us & L1 & L2 & L3).
      destruct (fill_ok xs m _ 0 M F P Hx) as (m1 & -> & M1 & F1 & (S1 & S2 & S3 & S4)); [lia|]. cbn [bind firstn app] in *. replace i with 0 by lia. eexists. split; [reflexivity|].
      unfold insert_at. rewrite C. cbn [firstn skipn app]. rewrite app_nil_r. eapply with_ok; eauto; try congruence; lia.
    + destruct (Nat.ltb_spec (length (cells t)) i); [lia|]. unfold reserve. destruct (ro t) eqn:Ro; injection E as <- <-. { rewrite RO by auto. rewrite SM. eauto. }
      destruct (grow_cells v t (length (cells t) + length xs) R Ro) as (m & ext & -> & M & F & P & Us & L1 & L2 & L3).
      destruct (shift_ok (length (cells t) - i) m _ i (length xs) M F P) as (m1 & cs1 & -> & M1 & F1 & S1 & Lc & K); [lia|]. cbn [bind].
      destruct (fill_ok xs m1 _ i M1 F1) as (m2 & -> & M2 & F2 & S2); auto; [destruct S1; congruence|lia|]. cbn [bind]. eexists. split; [reflexivity|].
      pose proof (same_tr _ _ _ S1 S2) as (T1 & T2 & T3 & T4). assert (Ll : length (insert_at i xs (cells t)) = length (cells t) + length xs). { unfold insert_at. rewrite !app_length, firstn_length, skipn_length. lia. }
      rewrite <- Ll at 1. apply (with_ok v t m2 _ (skipn (length xs) ext)); auto; try congruence; try lia.
      replace (insert_at i xs (cells t) ++ skipn (length xs) ext) with (firstn i cs1 ++ xs ++ skipn (i + length xs) cs1); auto.
      unfold insert_at. rewrite <- !app_assoc. f_equal; [|f_equal].
      * apply TupleProofs.ext. intros k. rewrite !nth_first. rewrite K. destruct (Nat.ltb_spec k i); auto. destruct (Nat.leb_spec (i + length xs) k); [lia|]. cbn [andb]. apply nth_error_app1. lia.
      * apply TupleProofs.ext. intros k. rewrite nth_skip, K. rewrite app_length in *. destruct (Nat.leb_spec (i + length xs) (i + length xs + k)); [|lia].
        destruct (Nat.ltb_spec (i + length xs + k) (i + length xs + (length (cells t) - i))); cbn [andb].
        -- rewrite !nth_error_app1 by (rewrite ?skipn_length; lia). rewrite nth_skip. f_equal. lia.
        -- rewrite !nth_error_app2 by (rewrite ?skipn_length; lia). rewrite nth_skip, skipn_length. f_equal. lia.
  - (* reopen *) apply guard_some in E as (Hx & E). injection E as <- <-. eexists. split; [reflexivity|].
    replace (mfile (mm_close (vm v))) with (concat (cells t)); [apply open_ok; auto|].
    pose proof (vr_b _ _ R) as (A & A2). destruct (vr_c _ _ R) as (ext & tl & B & C & D). pose proof (vr_x _ _ R Hx) as X. pose proof (concat_len _ FL) as L.
    assert (B' : mfile (vm v) = concat (cells t) ++ (concat ext ++ tl)) by (rewrite B, concat_app, <- app_assoc; auto).
    unfold mm_close. rewrite A2. destruct (Nat.eqb_spec (msize (vm v)) 0) as [Z|Z]; cbn [negb].
    + rewrite A in Z. apply length_zero_iff_nil in Z. rewrite Z in *. destruct (concat (cells t)); [auto|discriminate].
    + assert (Hs : mfile (mm_sync (vm v)) = mfile (vm v) /\ mprot (mm_sync (vm v)) = mprot (vm v) /\ mused (mm_sync (vm v)) = mused (vm v)).
      { unfold mm_sync. destruct (mprot (vm v)) eqn:Ep; auto; destruct (maddr (vm v)); cbn; auto. }
      destruct Hs as (H1 & H2 & H3). rewrite H1, H2, H3. cbn [msize mfile]. destruct (Nat.eqb_spec (mused (vm v)) (length (mfile (vm v)))) as [Q|Q].
      * cbn [mfile]. rewrite Q, B', app_length in X. assert (concat ext ++ tl = []) as W by (apply length_zero_iff_nil; lia). rewrite B', W, app_nil_r. auto.
      * unfold resize_file. cbn [mprot msize mfile]. destruct (mprot (vm v)) eqn:Ep; [exfalso; apply Q; rewrite <- A; apply (vr_r _ _ R); auto| |].
        all: cbn [fst set_file mfile]; unfold ftruncate; rewrite X, B', app_length, L; replace (length (cells t) * sz - _) with 0 by lia; cbn [repeat]; rewrite app_nil_r, firstn_app, L, Nat.sub_diag; cbn [firstn]; rewrite app_nil_r; symmetry; apply firstn_all2; lia.
Qed.
Lemma mv_history l p ops t xs : Forall len1 l -> sruns _ _ _ (mv_spec sz zero) (vopened l p) ops = Some (t, xs) ->
  exists v, runs _ _ _ (mv_step sz zero) (mv_open sz (concat l) p) ops = Ok (v, xs) /\ firstn (length (cells t) * sz) (mfile (vm v)) = concat (cells t).
Proof.
  intros F E. destruct (runs_ok _ _ _ _ _ _ VR mv_step_ok ops _ _ _ _ (open_ok l p F) E) as (v & Er & R). exists v. split; auto.
  pose proof (len_cells _ _ R) as FL. destruct (vr_c _ _ R) as (ext & tl & B & C & D). rewrite B, concat_app, <- app_assoc. rewrite <- (concat_len _ FL), firstn_app, firstn_all, Nat.sub_diag. cbn [firstn]. apply app_nil_r.
Qed.
(* after a history, the calls with own elements *)
Lemma own_full v t m i n : VR v t -> ro t = false -> msize (vm v) < n * sz -> mm_resize (vm v) (n * sz) false = (m, false) -> own_get sz v m i = UB.
Proof.
  intros R Ro H E. destruct (grow_cells v t n R Ro) as (m' & ext & E' & _ & _ & _ & _ & L & _). rewrite E in E'. injection E' as <-.
  unfold own_get. destruct (Nat.eqb_spec (msize m) (msize (vm v))); [lia|auto].
Qed.
Lemma own_calls v t i x : VR v t -> nth_error (cells t) i = Some x ->
  let safe := ro t || ((length (cells t) + 1) * sz <=? msize (vm v)) in
  push_own sz v i = (if safe then push sz v x else UB) /\ emplace_own sz v i = (if safe then emplace sz v x else UB) /\
  forall j, insert_own sz v j i = (if safe then insert1 sz v j x else UB).
Proof.
  intros R Hx safe. assert (G : get sz (vm v) i = Ok x).
  { destruct (vr_c _ _ R) as (ext & F). apply (get_ok _ _ i x (vr_b _ _ R) F). rewrite nth_error_app1; auto. apply nth_error_Some. congruence. }
  pose proof (vr_u _ _ R) as U. unfold push_own, push, emplace_own, emplace, insert_own, insert1, reserve.
  replace (sz * S (vused v)) with ((vused v + 1) * sz) by lia. rewrite U. subst safe.
  destruct (ro t) eqn:Ro; cbn [orb].
  - rewrite (ro_resize _ _ (rdo _ _ R Ro)). auto.
  - destruct (Nat.leb_spec ((length (cells t) + 1) * sz) (msize (vm v))) as [L|L].
    + rewrite resize_room by (auto; apply (rw _ _ R Ro)). rewrite own_room, G. auto.
    + destruct (grow_cells v t (length (cells t) + 1) R Ro) as (m & ext & E & _). rewrite E.
      rewrite (own_full v t m i _ R Ro L E). auto.
Qed.
Lemma own_history l p ops t xs v : Forall len1 l -> sruns _ _ _ (mv_spec sz zero) (vopened l p) ops = Some (t, xs) ->
  runs _ _ _ (mv_step sz zero) (mv_open sz (concat l) p) ops = Ok (v, xs) -> forall i x, nth_error (cells t) i = Some x ->
  let safe := ro t || ((length (cells t) + 1) * sz <=? msize (vm v)) in
  push_own sz v i = (if safe then push sz v x else UB) /\ emplace_own sz v i = (if safe then emplace sz v x else UB) /\
  forall j, insert_own sz v j i = (if safe then insert1 sz v j x else UB).
Proof.
  intros F E Ev. destruct (runs_ok _ _ _ _ _ _ VR mv_step_ok ops _ _ _ _ (open_ok l p F) E) as (v' & Er & R).
  rewrite Ev in Er. injection Er as <-. intros i x Hx. apply own_calls; auto.
Qed.
(* the file when the process is killed *)
Lemma killed_history l p ops t xs v : Forall len1 l -> sruns _ _ _ (mv_spec sz zero) (vopened l p) ops = Some (t, xs) ->
  runs _ _ _ (mv_step sz zero) (mv_open sz (concat l) p) ops = Ok (v, xs) ->
  exists ext u, mv_step sz zero (mv_open sz (mfile (vm v)) MODIFY) VAll = Ok (u, VVals (cells t ++ ext)) /\
    length (cells t ++ ext) = length (mfile (vm v)) / sz /\ most t <= length (cells t ++ ext).
Proof.
  intros F E Ev. destruct (runs_ok _ _ _ _ _ _ VR mv_step_ok ops _ _ _ _ (open_ok l p F) E) as (v' & Er & R).
  rewrite Ev in Er. injection Er as <-. destruct (vr_c _ _ R) as (ext & FCv). pose proof FCv as (tl & B & C & D).
  set (cs := cells t ++ ext) in *. set (m := mm_open (mfile (vm v)) MODIFY).
  assert (M : MB m) by (split; reflexivity). assert (FM : FC m cs) by (exists tl; auto).
  assert (L : length (mfile (vm v)) / sz = length cs).
  { rewrite B, app_length, (concat_len _ D). rewrite Nat.add_comm, Nat.div_add by lia. rewrite Nat.div_small by auto. auto. }
  exists ext, (mv_open sz (mfile (vm v)) MODIFY). split; [|split].
  - cbn [mv_step]. unfold mv_open. fold m. cbn [vm vused]. change (mused m) with (length (mfile (vm v))). rewrite L.
    rewrite (all_ok (length cs) m cs 0 M FM) by lia. cbn [bind skipn]. rewrite firstn_all. reflexivity.
  - auto.
  - apply (fc_size (vm v) cs (most t) (vr_b _ _ R) FCv). apply (vr_m _ _ R).
Qed.
Lemma readonly_push l p ops t xs v x : Forall len1 l -> sruns _ _ _ (mv_spec sz zero) (vopened l p) ops = Some (t, xs) ->
  runs _ _ _ (mv_step sz zero) (mv_open sz (concat l) p) ops = Ok (v, xs) -> ro t = true ->
  exists u, mv_step sz zero v (VPush x) = Ok (u, VThrow) /\ mv_step sz zero u VSize = Ok (u, VNum (length (cells t) + 1)).
Proof.
  intros F E Ev Ro. destruct (runs_ok _ _ _ _ _ _ VR mv_step_ok ops _ _ _ _ (open_ok l p F) E) as (v' & Er & R).
  rewrite Ev in Er. injection Er as <-. cbn [mv_step]. unfold push. rewrite (ro_resize _ _ (rdo _ _ R Ro)). eexists. split; [reflexivity|].
  cbn [vused]. rewrite (vr_u _ _ R). do 3 f_equal. lia.
Qed.
End P.
