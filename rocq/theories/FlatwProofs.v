(* Proofs for FlatwProps.v. *)
From Verif Require Import Base FlatModel FlatSpec FlatwSpec FlatProofs.

Section W.
Variable A : Type.
Variable dflt : A.
Lemma hist_app {S O} (step : S -> O -> res (S * vout A)) a b : forall s s1 xs, hist A step s a = Ok (s1, xs) ->
  hist A step s (a ++ b) = (let* ' (s2, ys) := hist A step s1 b in Ok (s2, xs ++ ys)).
Proof.
  induction a as [|o a IH]; intros s s1 xs E; cbn [app hist] in *.
  - injection E as <- <-. destruct (hist A step s b) as [(?, ?)| | |]; reflexivity.
  - destruct (step s o) as [(s0, x)| | |]; try discriminate. cbn [bind] in *. destruct (hist A step s0 a) as [(s2, zs)| | |] eqn:E2; try discriminate.
    cbn [bind] in E. injection E as <- <-. rewrite (IH _ _ _ E2). destruct (hist A step s2 b) as [(?, ?)| | |]; reflexivity.
Qed.
Lemma vv_reach ops l outs : shist A (vv_spec A dflt) [] ops = Some (l, outs) -> exists m, hist A (vv_step A dflt) vv_new ops = Ok (m, outs) /\ VR A m l.
Proof. intros E. exact (hist_sim A (vv_step A dflt) _ (VR A) (vv_step_ok A dflt) ops _ _ _ _ (VR_new A) E). Qed.

Lemma shrink_state m l n xs : VR A m l -> n <= length l -> VR A (vv_emplace_back A (vv_resize A m n) xs) (firstn n l ++ [concat (skipn n l) ++ xs]).
Proof.
  intros (D & S0) Hn. assert (E : vv_starts (vv_resize A m n) = offs A 0 (firstn n l)).
  { unfold vv_resize. cbn [vv_starts]. destruct S0 as [E|(-> & E)].
    - rewrite E, offs_length. replace (n + 1 - (length l + 1)) with 0 by lia. cbn [repeat]. rewrite app_nil_r. apply offs_firstn.
    - cbn in Hn. assert (n = 0) by lia. subst n. rewrite E. cbn. rewrite D. reflexivity. }
  assert (C : concat (firstn n l) ++ concat (skipn n l) = concat l) by (rewrite <- concat_app, firstn_skipn; auto).
  split.
  - cbn [vv_emplace_back vv_data vv_resize]. rewrite D, concat_app. cbn [concat]. rewrite app_nil_r, app_assoc, C. auto.
  - left. unfold vv_emplace_back, vv_started. cbn [vv_starts vv_data]. rewrite E, offs_length.
    destruct (Nat.eqb_spec (length (firstn n l) + 1) 0); [lia|]. rewrite offs_snoc. f_equal. f_equal.
    cbn [vv_resize vv_data]. rewrite D, <- C, !app_length. unfold len. lia.
Qed.
Lemma shrink_history ops l outs n xs ops2 l2 outs2 :
  shist A (vv_spec A dflt) [] ops = Some (l, outs) -> n <= length l ->
  shist A (vv_spec A dflt) (firstn n l ++ [concat (skipn n l) ++ xs]) ops2 = Some (l2, outs2) ->
  exists m, hist A (vv_step A dflt) vv_new (ops ++ VResize n :: VEmplace xs :: ops2) = Ok (m, outs ++ XNone :: XNone :: outs2) /\ vv_all A m = Ok l2.
Proof.
  intros E Hn E2. destruct (vv_reach _ _ _ E) as (m & E1 & R). pose proof (shrink_state m l n xs R Hn) as R2.
  destruct (hist_sim A (vv_step A dflt) _ (VR A) (vv_step_ok A dflt) ops2 _ _ _ _ R2 E2) as (m2 & E3 & R3).
  exists m2. rewrite (hist_app _ _ _ _ _ _ E1). cbn [hist vv_step bind]. rewrite E3. cbn [bind]. split; auto. apply vv_all_ok; auto.
Qed.
(* whether bucket_starts_ is still empty *)
Lemma vv_starts_empty ops : forall m l l' outs m' b, VR A m l -> (b = true <-> vv_starts m = []) ->
  shist A (vv_spec A dflt) l ops = Some (l', outs) -> hist A (vv_step A dflt) m ops = Ok (m', outs) ->
  (unused b ops = true <-> vv_starts m' = []).
Proof.
  induction ops as [|o ops IH]; intros m l l' outs m' b R B S0 H; cbn [unused shist hist] in *.
  - injection H as <- _. exact B.
  - destruct (vv_spec A dflt l o) as [(l1, x)|] eqn:E1; [|discriminate]. destruct (shist A (vv_spec A dflt) l1 ops) as [(l2, ys)|] eqn:E2; [|discriminate].
    destruct (vv_step_ok A dflt m l o l1 x R E1) as (m1 & Q & R1). rewrite Q in H. cbn [bind] in H.
    destruct (hist A (vv_step A dflt) m1 ops) as [(m2, zs)| | |] eqn:E3; try discriminate. cbn [bind] in H.
    injection S0 as <- <-. apply (f_equal (fun r => match r with Ok (a, b) => Some (a, b) | _ => None end)) in H. injection H as <- <-.
    assert (B1 : unused1 b o = true <-> vv_starts m1 = []).
    { assert (K : forall (r : res (vv A * vout A)), r = Ok (m1, x) -> (exists (rr : res (list A)), r = answer A m rr XList) \/ (exists (rr : res nat), r = answer A m rr XNum)
                  \/ (exists (rr : res A), r = answer A m rr XVal) \/ (exists (rr : res (list (list A))), r = answer A m rr XAll) -> m1 = m).
      { clear. intros r -> [(rr & E)|[(rr & E)|[(rr & E)|(rr & E)]]]; unfold answer in E; destruct rr; try discriminate; injection E as -> _; auto. }
      assert (Z : forall r, become A m r = Ok (m1, x) -> (forall m2, r = Ok m2 -> (vv_starts m2 = [] <-> vv_starts m = [])) -> (vv_starts m1 = [] <-> vv_starts m = [])).
      { clear. intros r E G. unfold become in E. destruct r as [m2| | |]; try discriminate; injection E as <- _; auto. tauto. }
      assert (I : forall k ys m2, vv_insert_end A m k ys = Ok m2 -> (vv_starts m2 = [] <-> vv_starts m = [])).
      { clear. intros k ys m2 E. unfold vv_insert_end in E. destruct (vv_end A m k) as [e| | |]; try discriminate. cbn [bind] in E.
        destruct (ins (vv_data m) e ys) as [d| | |]; try discriminate. cbn [bind] in E. destruct (Nat.ltb_spec (length (vv_starts m)) (k + 1)); [discriminate|].
        injection E as <-. cbn [vv_starts]. unfold vv_shift. destruct (vv_starts m) as [|s r]; [cbn in *; lia|]. rewrite Nat.add_1_r. cbn. split; discriminate. }
      destruct o; cbn [unused1 vv_step] in *.
      - injection Q as <- _. unfold vv_emplace_back. cbn [vv_starts]. split; [discriminate|]. intros W. apply app_eq_nil in W as (_ & W). discriminate.
      - injection Q as <- _. unfold vv_add_back_sized. cbn [vv_starts]. split; [discriminate|]. intros W. apply app_eq_nil in W as (_ & W). discriminate.
      - injection Q as <- _. unfold vv_resize. cbn [vv_starts]. split; [discriminate|]. intros W. rewrite Nat.add_1_r in W. destruct (vv_starts m); cbn in W; discriminate.
      - injection Q as <- _. cbn. tauto.
      - rewrite B. symmetry. apply (Z _ Q). intros m3. apply I.
      - rewrite B. symmetry. apply (Z _ Q). intros m3 E. unfold vv_grow in E. destruct (vv_bucket_size A m k) as [s| | |]; try discriminate. cbn [bind] in E.
        destruct (s <=? n); try discriminate. exact (I _ _ _ E).
      - rewrite B. symmetry. apply (Z _ Q). intros m3 E. unfold vv_set in E. destruct (idx (vv_starts m) k) as [s| | |]; try discriminate. cbn [bind] in E.
        destruct (put (vv_data m) (s + i) x0); try discriminate. cbn [bind] in E. injection E as <-. cbn. tauto.
      - rewrite (K _ Q); eauto.
      - rewrite (K _ Q); eauto.
      - rewrite (K _ Q); eauto.
      - rewrite (K _ Q); eauto.
      - rewrite (K _ Q); eauto.
      - rewrite (K _ Q); eauto.
      - rewrite (K _ Q); eauto.
      - rewrite (K _ Q); eauto.
      - injection Q as <- _. auto.
      - rewrite (K _ Q); eauto 6. }
    exact (IH m1 l1 l2 zs m2 (unused1 b o) R1 B1 E2 E3).
Qed.
Lemma at_size ops l outs : shist A (vv_spec A dflt) [] ops = Some (l, outs) ->
  hist A (vv_step A dflt) vv_new (ops ++ [VAt (length l)]) = UB \/
  unused true ops = true /\ exists m, hist A (vv_step A dflt) vv_new (ops ++ [VAt (length l)]) = Ok (m, outs ++ [XThrow]).
Proof.
  intros E. destruct (vv_reach _ _ _ E) as (m & E1 & R). rewrite (hist_app _ _ _ _ _ _ E1). cbn [hist vv_step].
  assert (I : unused true ops = true <-> vv_starts m = []) by (eapply vv_starts_empty; [exact (VR_new A)| |exact E|exact E1]; cbn; tauto).
  destruct R as (D & [S0|(-> & S0)]).
  - left. unfold vv_at, vv_bucket, vv_begin, vv_end. rewrite S0, offs_length. destruct (Nat.ltb_spec (length l) (length l + 1)); [|lia]. cbn [verify bind].
    destruct (Nat.eqb_spec (length l + 1) 0); [lia|]. destruct (idx (offs A 0 l) (length l)) as [b| | |] eqn:Q; [|unfold idx in Q; destruct (nth_error _ _); discriminate|reflexivity|unfold idx in Q; destruct (nth_error _ _); discriminate].
    cbn [bind]. unfold idx. rewrite (proj2 (nth_error_None _ _)); [reflexivity|]. rewrite offs_length. lia.
  - right. split; [tauto|]. unfold vv_at. rewrite S0. cbn. eauto.
Qed.
Lemma at_size_used ops l outs : shist A (vv_spec A dflt) [] ops = Some (l, outs) -> unused true ops = false ->
  hist A (vv_step A dflt) vv_new (ops ++ [VAt (length l)]) = UB.
Proof. intros E U. destruct (at_size ops l outs E) as [H|(H & _)]; congruence. Qed.
Lemma at_size_unused ops l outs : shist A (vv_spec A dflt) [] ops = Some (l, outs) -> unused true ops = true ->
  l = [] /\ exists m, hist A (vv_step A dflt) vv_new (ops ++ [VAt 0]) = Ok (m, outs ++ [XThrow]).
Proof.
  intros E U. destruct (vv_reach _ _ _ E) as (m & E1 & R). rewrite (hist_app _ _ _ _ _ _ E1). cbn [hist vv_step].
  assert (I : unused true ops = true <-> vv_starts m = []) by (eapply vv_starts_empty; [exact (VR_new A)| |exact E|exact E1]; cbn; tauto).
  apply I in U. destruct R as (D & [S0|(-> & S0)]).
  - exfalso. apply (f_equal (@length _)) in S0. rewrite U, offs_length in S0. cbn in S0. lia.
  - split; auto. unfold vv_at. rewrite S0. cbn. eauto.
Qed.

(* fws_multimap *)
Lemma unfinished_history ops a b cur outs ops2 s2 outs2 :
  shist A (fw_spec A) ([], [], false) ops = Some ((a ++ [b], cur, false), outs) ->
  shist A (fw_spec A) (a ++ [b ++ cur], [], true) ops2 = Some (s2, outs2) ->
  exists m, hist A (fw_step A) fw_new (ops ++ FFinishMap :: ops2) = Ok (m, outs ++ XNone :: outs2).
Proof.
  intros E E2. destruct (fw_history A ops _ _ E) as (m & E1 & D & C & I1 & I2).
  assert (R : FR A (fw_finish_map A m) (a ++ [b ++ cur], [], true)).
  { cbn [FR fw_finish_map fw_data fw_complete fw_index]. rewrite D, !concat_app. cbn [concat]. rewrite !app_nil_r, <- app_assoc.
    split; auto. split; auto. split; auto. rewrite I1, !offs_app, app_length. cbn [offs length].
    set (f := firstn (length a) (offs A 0 a)). assert (Lf : length f = length a) by (unfold f; rewrite firstn_length, offs_length; lia).
    rewrite <- Lf, firstn_app, firstn_all2 by lia. replace (length f + 1 - length f) with 1 by lia. cbn [firstn].
    rewrite <- app_assoc. cbn [app]. f_equal. f_equal. f_equal. rewrite !app_length. unfold len. lia. }
  destruct (hist_sim A (fw_step A) _ (FR A) (fw_step_ok A) ops2 _ _ _ _ R E2) as (m2 & E3 & _).
  exists m2. rewrite (hist_app _ _ _ _ _ _ E1). cbn [hist fw_step]. rewrite C. cbn [bind]. rewrite E3. reflexivity.
Qed.
Lemma unfinished_first ops cur outs : shist A (fw_spec A) ([], [], false) ops = Some (([], cur, false), outs) ->
  exists m, hist A (fw_step A) fw_new (ops ++ [FFinishMap; FAll; FDataSize]) = Ok (m, outs ++ [XNone; XAll []; XNum (length cur)]).
Proof.
  intros E. destruct (fw_history A ops _ _ E) as (m & E1 & D & C & I1 & I2). rewrite (hist_app _ _ _ _ _ _ E1). cbn [hist fw_step]. rewrite C. cbn [bind].
  unfold fw_all, fw_finish_map. cbn [fw_index fw_data]. rewrite I1, D. cbn. eauto.
Qed.
Lemma last_key ops ks cur outs k : shist A (fw_spec A) ([], [], false) ops = Some ((ks, cur, false), outs) -> length ks <= k + 1 ->
  hist A (fw_step A) fw_new (ops ++ [FGet k]) = UB.
Proof.
  intros E L. destruct (fw_history A ops _ _ E) as (m & E1 & D & C & I1 & I2). rewrite (hist_app _ _ _ _ _ _ E1). cbn [hist fw_step].
  assert (N : nth_error (fw_index m) (k + 1) = None) by (apply nth_error_None; rewrite I1, firstn_length; lia).
  unfold fw_get, idx. rewrite N. destruct (nth_error (fw_index m) k); reflexivity.
Qed.

(* flat_matrix *)
Lemma wraps_history ops s outs r c : shist A (fm_spec A dflt) (0, 0, []) ops = Some (s, outs) -> (r < W32)%N -> (c < W32)%N -> (W32 <= r * c)%N ->
  let i := (r * c mod W32 / c)%N in let j := (r * c mod W32 mod c)%N in
  (i < r)%N /\ (j < c)%N /\ hist A (fm_step A dflt) fm_new (ops ++ [MResize r c; MGet i j]) = UB.
Proof.
  intros E Hr Hc Hw i j. destruct (fm_history A dflt ops s outs E) as (m & E1).
  assert (W0 : (0 < W32)%N) by reflexivity. assert (C0 : c <> 0%N) by (intros ->; rewrite N.mul_0_r in Hw; lia).
  pose proof (N.mod_lt (r * c) W32 ltac:(lia)) as K. set (k := (r * c mod W32)%N) in *.
  assert (Hi : (i < r)%N). { unfold i. apply N.div_lt_upper_bound; auto. lia. }
  assert (Hj : (j < c)%N) by (apply N.mod_lt; auto).
  assert (P : (c * i + j = k)%N) by (unfold i, j; symmetry; apply N.div_mod; auto).
  split; auto. split; auto. rewrite (hist_app _ _ _ _ _ _ E1). cbn [hist fm_step bind]. unfold fm_get, fm_pos, fm_resize. cbn [fm_rows fm_cols fm_entries].
  assert (Wc : wrap32 c = c) by (apply N.mod_small; auto). rewrite Wc, P.
  rewrite (proj2 (N.ltb_lt i r) Hi), (proj2 (N.ltb_lt j c) Hj). cbn [andb].
  assert (Wk : wrap32 k = k) by (apply N.mod_small; auto). rewrite Wk. change (wrap32 (r * c)) with k.
  unfold idx. rewrite (proj2 (nth_error_None _ _)); [reflexivity|]. unfold res_resize. rewrite app_length, firstn_length, repeat_length. lia.
Qed.
End W.
