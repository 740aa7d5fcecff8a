From Coq Require Import ZArith.
From Verif Require Import Base FlatModel FlatSpec FlatProofs MmModel PagedModel PagedSpec PagedProofs BiterModel BiterSpec.

Section Laws.
Variable w : N.
Hypothesis Hw : bits w.
Notation M := (2 ^ Z.of_N w)%Z.

Lemma M_range : (0 < M <= 2 ^ 64)%Z.
Proof. destruct Hw as [-> | [-> | [-> | ->]]]; cbn; lia. Qed.
Lemma to_i_small z : (0 <= z < M)%Z -> to_i w z = Z.to_N z.
Proof. intros H. unfold to_i. rewrite Z.mod_small; auto. Qed.
Lemma i_sum_small z : (0 <= z < M)%Z -> i_sum w z = Ok (Z.to_N z).
Proof.
  intros H. unfold i_sum. rewrite to_i_small by auto. destruct (N.eqb_spec w 64) as [E|E]; auto.
  assert (X : in_ptrdiff z = true); [|now rewrite X].
  unfold in_ptrdiff. apply andb_true_iff. rewrite Z.leb_le, Z.ltb_lt.
  assert (M <= 2 ^ 63)%Z by (destruct Hw as [-> | [-> | [-> | ->]]]; try congruence; cbn; lia). lia.
Qed.
Lemma to_ptrdiff_id z : (- 2 ^ 63 <= z < 2 ^ 63)%Z -> to_ptrdiff z = z.
Proof.
  intros H. unfold to_ptrdiff. cbv zeta. destruct (Z.ltb_spec z 0).
  - replace (z mod 2 ^ 64)%Z with (z + 2 ^ 64)%Z.
    + destruct (Z.ltb_spec (z + 2 ^ 64) (2 ^ 63)); lia.
    + rewrite <- (Z_mod_plus_full z 1). rewrite Z.mod_small; lia.
  - rewrite Z.mod_small by lia. destruct (Z.ltb_spec z (2 ^ 63)); lia.
Qed.
Lemma to_ptrdiff_mod z : to_ptrdiff (z mod 2 ^ 64) = to_ptrdiff z.
Proof. unfold to_ptrdiff. now rewrite Z.mod_mod by lia. Qed.
(* numbers so small that a difference fits *)
Lemma i_diff_ok (lo a b n : nat) : (Z.of_nat (lo + n) < M)%Z -> (Z.of_nat n < 2 ^ 63)%Z ->
  a <= n -> b <= n -> may (diffs_of w) a b = true ->
  i_diff w (N.of_nat (lo + a)) (N.of_nat (lo + b)) = (Z.of_nat a - Z.of_nat b)%Z.
Proof.
  intros L L' Ha Hb D. unfold i_diff. cbv zeta.
  replace (Z.of_N (N.of_nat (lo + a)) - Z.of_N (N.of_nat (lo + b)))%Z with (Z.of_nat a - Z.of_nat b)%Z by lia.
  destruct Hw as [E | [E | [E | E]]]; rewrite E in *.
  - reflexivity.
  - reflexivity.
  - cbn [N.ltb N.compare Pos.compare Pos.compare_cont]. change (diffs_of 32) with Forward in D. cbn [may] in D.
    apply Nat.leb_le in D. cbn [Z.of_N] in *. rewrite Z.mod_small by lia. apply to_ptrdiff_id. lia.
  - cbn [N.ltb N.compare Pos.compare Pos.compare_cont Z.of_N]. rewrite to_ptrdiff_mod. apply to_ptrdiff_id. lia.
Qed.

Section Prog.
Variable B : Type.
Variable deref : nat -> res B.
Variables first last : res N.
Variable l : list B.
Variable lo : nat.
Variable d : diffs.
Hypothesis Hd : forall a b, may d a b = true -> may (diffs_of w) a b = true.
Hypothesis Hlo : first = Ok (N.of_nat lo).
Hypothesis Hlast : last = Ok (N.of_nat (lo + length l)).
Hypothesis Hfit : (Z.of_nat (lo + length l) < M)%Z.
Hypothesis Hsmall : (Z.of_nat (length l) < 2 ^ 63)%Z.
Hypothesis Hderef : forall k x, nth_error l k = Some x -> deref (lo + k) = Ok x.

Notation R := (fun (rs : list N) (ks : list nat) => rs = map (fun k => N.of_nat (lo + k)) ks /\ Forall (fun k => k <= length l) ks).

Lemma R_idx rs ks r k : R rs ks -> nth_error ks r = Some k -> idx rs r = Ok (N.of_nat (lo + k)) /\ k <= length l.
Proof.
  intros (-> & F) E. split.
  - unfold idx. rewrite nth_error_map, E. auto.
  - exact (proj1 (Forall_forall _ _) F k (nth_error_In _ _ E)).
Qed.
Lemma R_put rs ks r z y ks' : R rs ks -> at_ B l ks r z = Some (ks', y) ->
  exists rs', put rs r (Z.to_N (Z.of_nat lo + z)) = Ok rs' /\ R rs' ks' /\ y = INone B /\ (0 <= z <= Z.of_nat (length l))%Z.
Proof.
  intros (-> & F) E. unfold at_ in E. apply guard_some in E as (G & [= <- <-]).
  apply andb_true_iff in G as (G1 & G2). apply andb_true_iff in G2 as (G2 & G3). apply Nat.ltb_lt in G1. apply Z.leb_le in G2, G3.
  unfold put. rewrite map_length. destruct (Nat.ltb_spec r (length ks)); [|lia]. eexists. split; [reflexivity|].
  split; [|split; [reflexivity|lia]]. split.
  - replace (Z.to_N (Z.of_nat lo + z)) with (N.of_nat (lo + Z.to_nat z)) by lia.
    clear F G1 H. revert r. induction ks as [|k ks IH]; intros [|r]; cbn; auto. now rewrite IH.
  - clear G1 H. revert r. induction F as [|k ks Hk F IH]; intros [|r]; cbn; auto; constructor; auto. lia.
Qed.

Lemma i_step_ok rs ks o ks' y : R rs ks -> i_spec B l d ks o = Some (ks', y) ->
  exists rs', i_step w B deref first last rs o = Ok (rs', y) /\ R rs' ks'.
Proof.
  intros HR E.
  destruct o as [r|r|r|r|r n|r n|r s n|r s n|r s|r s|r s|r]; cbn [i_spec] in E; cbn [i_step];
    unfold with_ in E;
    repeat match type of E with
    | match nth_error ks ?r with _ => _ end = _ => let k := fresh "k" in let Q := fresh "Q" in
        destruct (nth_error ks r) as [k|] eqn:Q; [|discriminate];
        let I := fresh "I" in let L := fresh "L" in destruct (R_idx _ _ _ _ HR Q) as (I & L); rewrite I; cbn [bind]
    end.
  - rewrite Hlo. destruct (R_put _ _ _ _ _ _ HR E) as (rs' & P & HR' & -> & _).
    replace (Z.to_N (Z.of_nat lo + 0)) with (N.of_nat lo) in P by lia. cbn [bind]. rewrite P. cbn [bind]. eauto.
  - rewrite Hlast. destruct (R_put _ _ _ _ _ _ HR E) as (rs' & P & HR' & -> & _).
    replace (Z.to_N _) with (N.of_nat (lo + length l)) in P by lia. cbn [bind]. rewrite P. cbn [bind]. eauto.
  - destruct (R_put _ _ _ _ _ _ HR E) as (rs' & P & HR' & -> & Z).
    unfold i_inc. rewrite to_i_small by lia. replace (Z.of_N (N.of_nat (lo + k)) + 1)%Z with (Z.of_nat lo + (Z.of_nat k + 1))%Z by lia.
    rewrite P. cbn [bind]. eauto.
  - destruct (R_put _ _ _ _ _ _ HR E) as (rs' & P & HR' & -> & Z).
    unfold i_dec. rewrite to_i_small by lia. replace (Z.of_N (N.of_nat (lo + k)) - 1)%Z with (Z.of_nat lo + (Z.of_nat k - 1))%Z by lia.
    rewrite P. cbn [bind]. eauto.
  - destruct (R_put _ _ _ _ _ _ HR E) as (rs' & P & HR' & -> & Z).
    unfold i_add. rewrite i_sum_small by lia. replace (Z.of_N (N.of_nat (lo + k)) + n)%Z with (Z.of_nat lo + (Z.of_nat k + n))%Z by lia.
    cbn [bind]. rewrite P. cbn [bind]. eauto.
  - destruct (R_put _ _ _ _ _ _ HR E) as (rs' & P & HR' & -> & Z).
    unfold i_sub. rewrite i_sum_small by lia. replace (Z.of_N (N.of_nat (lo + k)) - n)%Z with (Z.of_nat lo + (Z.of_nat k - n))%Z by lia.
    cbn [bind]. rewrite P. cbn [bind]. eauto.
  - destruct (R_put _ _ _ _ _ _ HR E) as (rs' & P & HR' & -> & Z).
    unfold i_add. rewrite i_sum_small by lia. replace (Z.of_N (N.of_nat (lo + k)) + n)%Z with (Z.of_nat lo + (Z.of_nat k + n))%Z by lia.
    cbn [bind]. rewrite P. cbn [bind]. eauto.
  - destruct (R_put _ _ _ _ _ _ HR E) as (rs' & P & HR' & -> & Z).
    unfold i_sub. rewrite i_sum_small by lia. replace (Z.of_N (N.of_nat (lo + k)) - n)%Z with (Z.of_nat lo + (Z.of_nat k - n))%Z by lia.
    cbn [bind]. rewrite P. cbn [bind]. eauto.
  - apply guard_some in E as (G & [= <- <-]). rewrite (i_diff_ok lo k k0 (length l)); auto. eauto.
  - injection E as <- <-. exists rs. split; auto. do 3 f_equal.
    destruct (N.eqb_spec (N.of_nat (lo + k)) (N.of_nat (lo + k0))), (Nat.eqb_spec k k0); auto; lia.
  - injection E as <- <-. exists rs. split; auto. do 4 f_equal.
    destruct (N.eqb_spec (N.of_nat (lo + k)) (N.of_nat (lo + k0))), (Nat.eqb_spec k k0); auto; lia.
  - destruct (nth_error l k) as [x|] eqn:Qx; [|discriminate]. injection E as <- <-.
    rewrite Nat2N.id, (Hderef _ _ Qx). cbn [bind]. eauto.
Qed.
Lemma i_run_ok ops : forall rs ks outs, R rs ks -> i_means B l d ks ops = Some outs -> i_run w B deref first last rs ops = Ok outs.
Proof.
  induction ops as [|o ops IH]; intros rs ks outs HR E; cbn [i_means i_run] in *; [congruence|].
  destruct (i_spec B l d ks o) as [(ks', y)|] eqn:Es; [|discriminate].
  destruct (i_means B l d ks' ops) as [ys|] eqn:Em; [|discriminate]. injection E as <-.
  destruct (i_step_ok _ _ _ _ _ HR Es) as (rs' & -> & HR'). cbn [bind]. now rewrite (IH _ _ _ HR' Em).
Qed.
Theorem i_prog_ok k ops outs : i_means B l d (repeat 0 k) ops = Some outs -> i_prog w B deref first last k ops = Ok outs.
Proof.
  intros E. unfold i_prog. rewrite Hlo at 1. cbn [bind]. apply (i_run_ok _ _ (repeat 0 k)); auto. split.
  - clear E. induction k as [|k IH]; cbn; auto. f_equal; auto; lia.
  - apply Forall_forall. intros x Hx. apply repeat_spec in Hx. lia.
Qed.

(* lower_bound: p holds for the first c buckets and for no other *)
Variable p : B -> bool.
Variable c : nat.
Hypothesis Hc : c <= length l.
Hypothesis Hp : forall k x, nth_error l k = Some x -> p x = (k <? c).
Lemma lower_bound_ok fuel : forall a len, a <= c -> c <= a + len -> a + len <= length l -> len < fuel ->
  lower_bound w B deref fuel p (N.of_nat (lo + a)) (Z.of_nat len) = Ok (N.of_nat (lo + c)).
Proof.
  induction fuel as [|fuel IH]; intros a len H1 H2 H3 HF; [lia|]. cbn [lower_bound].
  destruct (Z.leb_spec (Z.of_nat len) 0) as [Z|Z]. { do 2 f_equal. lia. }
  assert (Eh : (Z.of_nat len / 2)%Z = Z.of_nat (len / 2)) by (rewrite Nat2Z.inj_div; auto). rewrite Eh. clear Eh.
  assert (Hh : len / 2 < len) by (apply Nat.div_lt; lia). set (h := len / 2) in *.
  unfold i_add. rewrite i_sum_small by lia. cbn [bind].
  replace (Z.to_N (Z.of_N (N.of_nat (lo + a)) + Z.of_nat h)) with (N.of_nat (lo + (a + h))) by lia.
  rewrite Nat2N.id. destruct (nth_error l (a + h)) as [x|] eqn:Q; [|apply nth_error_None in Q; lia].
  rewrite (Hderef _ _ Q). cbn [bind]. rewrite (Hp _ _ Q). destruct (Nat.ltb_spec (a + h) c).
  - unfold i_inc. rewrite to_i_small by lia. replace (Z.to_N (Z.of_N (N.of_nat (lo + (a + h))) + 1)) with (N.of_nat (lo + (a + h + 1))) by lia.
    replace (Z.of_nat len - Z.of_nat h - 1)%Z with (Z.of_nat (len - h - 1)) by lia. apply IH; lia.
  - apply IH; lia.
Qed.
Theorem search_ok fuel : length l < fuel -> search w B deref first last fuel p = Ok (N.of_nat (lo + c)).
Proof.
  intros HF. unfold search. rewrite Hlo, Hlast. cbn [bind].
  replace (N.of_nat lo) with (N.of_nat (lo + 0)) by (f_equal; lia).
  rewrite (i_diff_ok lo (length l) 0 (length l)); auto; try lia.
  - replace (Z.of_nat (length l) - Z.of_nat 0)%Z with (Z.of_nat (length l)) by lia. apply lower_bound_ok; lia.
  - unfold diffs_of. destruct (w =? 32)%N; auto.
Qed.
End Prog.
End Laws.

(* ---- the containers ---- *)
Lemma may_id w a b : may (diffs_of w) a b = true -> may (diffs_of w) a b = true. Proof. auto. Qed.
Lemma may_no w a b : may NoDiff a b = true -> may (diffs_of w) a b = true. Proof. discriminate. Qed.
Lemma last_at (n : nat) (w : N) : bits w -> fits w n -> to_i w (Z.of_nat n) = N.of_nat n.
Proof. intros Hw (H & _). rewrite (to_i_small w) by lia. lia. Qed.
Lemma nth_error_nth0 {A} (l : list (list A)) k x : nth_error l k = Some x -> k < length l /\ nth k l [] = x.
Proof. intros H. split; [apply nth_error_Some; congruence|]. now apply nth_error_nth. Qed.
Lemma bits64 : bits 64. Proof. unfold bits. auto. Qed.
Lemma fits64 n w : fits w n -> fits 64 n.
Proof. intros (_ & H). split; auto. cbn [Z.of_N]. lia. Qed.

Lemma VR_size {A} m (l : list (list A)) : VR A m l -> vv_size A m = length l.
Proof.
  intros (_ & [E|(-> & E)]); unfold vv_size; rewrite E; [rewrite offs_length; lia|auto].
Qed.
Section VP.
Variable A : Type.
Variable dflt : A.
Theorem vv_iter ops l outs w k prog xs : shist A (vv_spec A dflt) [] ops = Some (l, outs) -> bits w -> fits w (length l) ->
  (i_means _ l (diffs_of w) (repeat 0 k) prog = Some xs ->
   exists m, hist A (vv_step A dflt) vv_new ops = Ok (m, outs) /\
     i_prog w _ (vv_bucket A m) vv_first (vv_last w m) k prog = Ok xs) /\
  (i_means _ l Any (repeat 0 k) prog = Some xs ->
   exists m, hist A (vv_step A dflt) vv_new ops = Ok (m, outs) /\
     i_prog 64 _ (vv_cbucket A m) vv_first (vv_last 64 m) k prog = Ok xs).
Proof.
  intros E Hw Hf. destruct (hist_sim A (vv_step A dflt) _ (VR A) (vv_step_ok A dflt) ops _ _ _ _ (VR_new A) E) as (m & E1 & H).
  split; intros Em; exists m; split; auto.
  - apply (i_prog_ok w Hw _ _ _ _ l 0 (diffs_of w)); auto.
    + unfold vv_last. rewrite (VR_size m l H), (last_at _ w); auto.
    + apply Hf.
    + apply Hf.
    + intros j x Hj. destruct (nth_error_nth0 _ _ _ Hj) as (Hl & <-). apply (vv_bucket_ok A m l j H Hl).
  - pose proof (fits64 _ _ Hf) as Hf'. apply (i_prog_ok 64 bits64 _ _ _ _ l 0 Any); auto.
    + unfold vv_last. rewrite (VR_size m l H), (last_at _ 64); auto using bits64.
    + apply Hf'.
    + apply Hf'.
    + intros j x Hj. destruct (nth_error_nth0 _ _ _ Hj) as (Hl & <-). apply (vv_bucket_ok A m l j H Hl).
Qed.
Theorem vv_search ops l outs w p c fuel : shist A (vv_spec A dflt) [] ops = Some (l, outs) -> bits w -> fits w (length l) ->
  c <= length l -> (forall j x, nth_error l j = Some x -> p x = (j <? c)) -> length l < fuel ->
  exists m, hist A (vv_step A dflt) vv_new ops = Ok (m, outs) /\
    search w _ (vv_bucket A m) vv_first (vv_last w m) fuel p = Ok (N.of_nat c).
Proof.
  intros E Hw Hf Hc Hp HF. destruct (hist_sim A (vv_step A dflt) _ (VR A) (vv_step_ok A dflt) ops _ _ _ _ (VR_new A) E) as (m & E1 & H).
  exists m. split; auto. apply (search_ok w Hw _ _ _ _ l 0 (diffs_of w)); auto.
  - unfold vv_last. rewrite (VR_size m l H), (last_at _ w); auto.
  - apply Hf.
  - apply Hf.
  - intros j x Hj. destruct (nth_error_nth0 _ _ _ Hj) as (Hl & <-). apply (vv_bucket_ok A m l j H Hl).
Qed.

Variable lmin lw : nat.
Hypothesis lmin_ok : 1 <= lmin <= 15.
Hypothesis lw_ok : 1 <= lw <= 2 ^ lmin.
Theorem pv_iter ops l outs w k prog xs : shist A (pv_spec A) [] ops = Some (l, outs) -> bits w -> fits w (length l) -> l <> [] ->
  i_means _ l (diffs_of w) (repeat 0 k) prog = Some xs ->
  exists m, hist A (pv_step A dflt lmin lw) (pv_new A lmin) ops = Ok (m, outs) /\
    i_prog w _ (pv_bucket A m) (pv_first m) (pv_last w m) k prog = Ok xs.
Proof.
  intros E Hw Hf Hl Em.
  destruct (hist_sim A (pv_step A dflt lmin lw) (pv_spec A) (PR A lmin) (pv_step_ok A dflt lmin lw lmin_ok lw_ok) ops _ _ _ _ (pv_new_ok A lmin lw lmin_ok lw_ok) E) as (m & E1 & H).
  exists m. split; auto. pose proof (proj1 H) as Hn. apply (i_prog_ok w Hw _ _ _ _ l 0 (diffs_of w)); auto.
  - unfold pv_first. rewrite Hn. destruct l; [congruence|auto].
  - unfold pv_last. rewrite Hn, (last_at _ w); auto.
  - apply Hf.
  - apply Hf.
  - intros j x Hj. destruct (nth_error_nth0 _ _ _ Hj) as (Hj' & <-). eapply bucket_ok; eauto.
Qed.
End VP.

Section NVP.
Variable A : Type.
Notation nest := (nest A).
Lemma nodes_node (ns : list nest) : nodes (Node ns) = 1 + all_nodes ns.
Proof. reflexivity. Qed.
Lemma all_nodes_app (a b : list nest) : all_nodes (a ++ b) = all_nodes a + all_nodes b.
Proof. unfold all_nodes. induction a as [|c a IH]; cbn; auto. rewrite IH. lia. Qed.
Lemma all_nodes_kids (l : list nest) : all_nodes (concat (map (kids A) l)) + length l = all_nodes l.
Proof.
  induction l as [|c l IH]; auto. cbn [map concat length]. rewrite all_nodes_app. change (all_nodes (c :: l)) with (nodes c + all_nodes l).
  destruct c as [xs|ns]; [cbn [kids nodes]; cbn; lia|]. rewrite nodes_node. cbn [kids]. lia.
Qed.
Lemma down_nodes d : forall l : list nest, length (down A d l) <= all_nodes l.
Proof.
  induction d as [|d IH]; intros l; cbn [down]; pose proof (all_nodes_kids l); [lia|]. pose proof (IH (concat (map (kids A) l))). lia.
Qed.
Lemma nv_pos_level (m : nv A) path : forall L p L' q, nv_pos A m L p path = Ok (L', q) -> L' + length path = L.
Proof.
  induction path as [|i path IH]; intros L p L' q E.
  - destruct L; cbn in E; injection E as <- <-; cbn; lia.
  - destruct L as [|L]; cbn [nv_pos] in E; [discriminate|].
    destruct (idx (nv_index m) (S L)) as [s| | |]; try discriminate. cbn [bind] in E.
    destruct (idx s p) as [b| | |]; try discriminate. cbn [bind] in E. apply IH in E. cbn [length]. lia.
Qed.

Theorem nv_iter n cs : 0 < n -> Forall (depth A n) cs -> forall w, bits w -> fits w (all_nodes cs) ->
  exists m, nv_build A n (nv_new n) cs = Ok m /\
    (forall k prog xs, i_means _ cs NoDiff (repeat 0 k) prog = Some xs ->
       i_prog w _ (nv_below A m (n - 1)) nv_first (nv_last w n m) k prog = Ok xs) /\
    (forall j path c ns, nth_error cs j = Some c -> sub A c path = Some (Node ns) ->
       forall k prog xs,
       i_means _ ns (if n =? length path + 2 then diffs_of w else NoDiff) (repeat 0 k) prog = Some xs ->
       nv_in_prog w n m j path k prog = Ok xs).
Proof.
  intros P F w Hw Hf. destruct (nvec_ok A n cs P F) as (m & E & Hs & _).
  destruct (nv_build_ok A n cs P F (nv_new n) []) as (m' & E' & H); [left; auto|].
  rewrite E in E'. injection E' as <-. cbn [app] in H. exists m. split; auto.
  assert (Hlen : forall d, fits w (length (down A d cs))) by (intros d; pose proof (down_nodes d cs); unfold fits in *; lia).
  split.
  - intros k prog xs Em. pose proof (Hlen 0) as H0. cbn [down] in H0. apply (i_prog_ok w Hw _ _ _ _ cs 0 NoDiff); auto.
    + discriminate.
    + unfold nv_last. rewrite Hs. cbn [bind]. rewrite (last_at _ w); auto.
    + apply H0.
    + apply H0.
    + intros j x Hj. destruct H as [(-> & ->)|(R & C)]; [destruct j; discriminate|].
      apply (nv_below_ok A m n _ R C (n - 1) j x); [lia|]. now rewrite Nat.sub_diag.
  - intros j path c ns Hj Hsub k prog xs Em. destruct H as [(-> & ->)|(R & C)]; [destruct j; discriminate|].
    set (lv := fun j => down A (n - 1 - j) cs) in *.
    assert (T : lv (n - 1) = cs) by (unfold lv; rewrite Nat.sub_diag; auto).
    assert (Hj' : nth_error (lv (n - 1)) j = Some c) by now rewrite T.
    destruct (nv_pos_ok A m n lv R C path (n - 1) j c _ ltac:(lia) Hj' Hsub) as (L & q & Ep & HL & Hq).
    unfold nv_in_prog. rewrite Ep. cbn [bind]. pose proof (nv_pos_level _ _ _ _ _ _ Ep) as Hlev.
    pose proof R as (Hn & HD & HI & HF).
    pose proof (proj1 (Forall_forall _ _) (HF L HL) _ (nth_error_In _ _ Hq)) as Hc.
    destruct L as [|L]; [apply (depth_leaf A 0) in Hc as (ys & [=])|].
    destruct (idx_cum A lv (S L) q _ Hq) as (I1 & I2). cbn [FlatSpec.width] in I2.
    set (lo := sum (map (FlatSpec.width A) (firstn q (lv (S L))))) in *.
    assert (Hb : lo + length ns <= length (lv L)).
    { rewrite (C L) by lia. rewrite <- (widths_kids A L) by (apply HF; lia).
      destruct (nth_error_split _ _ Hq) as (a & b & Q & La). unfold lo. rewrite Q, <- La, firstn_mid, map_app, sum_app.
      cbn [map sum FlatSpec.width]. lia. }
    pose proof (Hlen (n - 1 - L)) as Hfit. fold (lv L) in Hfit.
    assert (Hlo : fits w lo) by (unfold fits in *; lia). assert (Hhi : fits w (lo + length ns)) by (unfold fits in *; lia).
    apply (i_prog_ok w Hw _ _ _ _ ns lo (if n =? length path + 2 then diffs_of w else NoDiff)); auto.
    + intros a b. destruct (n =? length path + 2); auto. discriminate.
    + unfold nv_in_first. rewrite (idx_some _ _ _ (HI (S L) HL)). cbn [bind]. rewrite I1. cbn [bind]. now rewrite (last_at _ w).
    + unfold nv_in_last. rewrite (idx_some _ _ _ (HI (S L) HL)). cbn [bind]. rewrite I2. cbn [bind]. now rewrite (last_at _ w).
    + apply Hhi.
    + unfold fits in Hhi. lia.
    + intros i x Hi. apply (nv_below_ok A m n lv R C L (lo + i) x); [lia|]. rewrite (C L) by lia.
      apply (kid_at A _ L _ ns); auto.
Qed.
End NVP.

(* positions of 32 bits: a first iterator before the second *)
Lemma i_diff_back (a b : nat) : a < b -> (Z.of_nat b < 2 ^ 32)%Z -> i_diff 32 (N.of_nat a) (N.of_nat b) = (2 ^ 32 - (Z.of_nat b - Z.of_nat a))%Z.
Proof.
  intros H L. unfold i_diff. cbv zeta. change (32 <? 32)%N with false. cbv iota. change (Z.of_N 32) with 32%Z.
  rewrite <- (Z.mod_add _ 1) by lia. rewrite Z.mod_small by lia. rewrite to_ptrdiff_id by lia. lia.
Qed.
Lemma vv_back_diff A (dflt : A) ops l outs i j : shist A (vv_spec A dflt) [] ops = Some (l, outs) -> fits 32 (length l) -> i < j -> j <= length l ->
  exists m, hist A (vv_step A dflt) vv_new ops = Ok (m, outs) /\
    i_prog 32 _ (vv_bucket A m) vv_first (vv_last 32 m) 2 [IAdd 0 (Z.of_nat i); IAdd 1 (Z.of_nat j); IDiff 0 1] =
    Ok [INone _; INone _; INum _ (2 ^ 32 - (Z.of_nat j - Z.of_nat i))%Z].
Proof.
  intros E (F & _) H L. destruct (hist_sim A (vv_step A dflt) _ (VR A) (vv_step_ok A dflt) ops _ _ _ _ (VR_new A) E) as (m & E1 & _).
  exists m. split; auto. change (Z.of_N 32) with 32%Z in F.
  assert (G : forall k : nat, k <= length l -> i_add 32 0 (Z.of_nat k) = Ok (N.of_nat k)).
  { intros k K. unfold i_add. change (Z.of_N 0 + Z.of_nat k)%Z with (Z.of_nat k).
    rewrite i_sum_small; [f_equal; lia|unfold bits; auto|change (Z.of_N 32) with 32%Z; lia]. }
  unfold i_prog. change (@vv_first) with (Ok 0%N). cbn [bind repeat i_run i_step idx nth_error put length Nat.ltb Nat.leb upd].
  rewrite (G i) by lia. cbn [bind idx nth_error put length Nat.ltb Nat.leb upd]. rewrite (G j) by lia. cbn [bind idx nth_error put length Nat.ltb Nat.leb upd].
  rewrite (i_diff_back i j) by lia. reflexivity.
Qed.
