From Coq Require Import ZArith.
From Verif Require Import Base FlatModel FlatSpec FlatProofs BiterSpec BiterProofs NarrowModel NarrowSpec.

Section P.
Variable A : Type.
Variable dflt : A.
Variable w : N.
Hypothesis Hw : bits w.

Lemma cut_few n : few w n = true -> cut w n = n.
Proof. unfold few, cut. intros H. apply N.ltb_lt in H. rewrite N.mod_small by auto. apply Nat2N.id. Qed.
Lemma few_le a b : few w b = true -> a <= b -> few w a = true.
Proof. unfold few. rewrite !N.ltb_lt. lia. Qed.
Lemma pow_small : (2 ^ w <= 2 ^ 64)%N.
Proof. destruct Hw as [-> | [-> | [-> | ->]]]; vm_compute; discriminate. Qed.
Lemma map_cut l : (forall n, In n l -> few w n = true) -> map (cut w) l = l.
Proof. intros H. rewrite <- (map_id l) at 2. apply map_ext_in. intros n Hn. apply cut_few. auto. Qed.

(* ---- vecvec ---- *)
Lemma offs_le l : forall s n, In n (offs A s l) -> n <= s + length (concat l).
Proof.
  induction l as [|x l IH]; intros s n H; cbn [offs concat] in *.
  - destruct H as [<-|[]]. lia.
  - rewrite app_length. destruct H as [<-|H]; [lia|]. apply IH in H. lia.
Qed.
Lemma narrow_id m l : VR A m l -> vv_small A w l = true -> vv_narrow A w m = m.
Proof.
  intros (_ & H) S. apply andb_true_iff in S as (S & _). unfold vv_narrow. destruct m as (d, s). cbn [vv_data vv_starts] in *. f_equal.
  apply map_cut. intros n Hn. destruct H as [-> | (_ & ->)]; [|destruct Hn].
  apply offs_le in Hn. eapply few_le; eauto.
Qed.
Lemma size_id m l : VR A m l -> vv_small A w l = true -> nvv_size A w m = vv_size A m.
Proof.
  intros H S. apply andb_true_iff in S as (_ & S). unfold nvv_size. apply cut_few. now rewrite (VR_size m l H).
Qed.
Lemma sub_id e b : b <= e -> few w e = true -> nvv_sub w e b = e - b.
Proof.
  intros L F. unfold nvv_sub. cbv zeta. unfold few in F. apply N.ltb_lt in F. pose proof pow_small as P.
  assert (E : (2 ^ Z.of_N w)%Z = Z.of_N (2 ^ w)) by (rewrite N2Z.inj_pow; auto).
  change (2 ^ 64)%N with 18446744073709551616%N in P.
  assert (K : ((Z.of_nat e - Z.of_nat b) mod 2 ^ Z.of_N w = Z.of_nat e - Z.of_nat b)%Z) by (apply Z.mod_small; lia).
  rewrite K. destruct (w <? 32)%N; rewrite Z.mod_small by lia; lia.
Qed.
Lemma bucket_size_id m l k : VR A m l -> vv_small A w l = true -> k < length l -> nvv_bucket_size A w m k = vv_bucket_size A m k.
Proof.
  intros H S Hk. unfold nvv_bucket_size, vv_bucket_size.
  destruct (split_nth A l k Hk) as (a & b & E & La). set (x := nth k l []) in *. clearbody x. rewrite E in H, S. rewrite <- La.
  destruct (vv_ends A m a x b H) as (_ & _ & -> & ->). cbn [bind]. f_equal. apply sub_id; [lia|].
  apply andb_true_iff in S as (S & _). eapply few_le; [exact S|]. rewrite concat_mid, !app_length. fold (len A a). lia.
Qed.

Lemma stored_id r m' l' : r = Ok m' -> VR A m' l' -> vv_small A w l' = true -> vv_stored A w r = r.
Proof. intros -> H S. unfold vv_stored. cbn [bind]. now rewrite (narrow_id m' l'). Qed.
Lemma nvv_step_ok m l o l' x : VR A m l /\ vv_small A w l = true -> vv_spec_w A dflt w l o = Some (l', x) ->
  exists m', nvv_step A dflt w m o = Ok (m', x) /\ VR A m' l' /\ vv_small A w l' = true.
Proof.
  intros (H & S) E. unfold vv_spec_w in E. destruct (vv_spec A dflt l o) as [(l1, x1)|] eqn:E1; [|discriminate].
  apply guard_some in E as (S' & [= <- <-]). destruct (vv_step_ok A dflt m l o l1 x1 H E1) as (m' & E2 & H').
  exists m'. split; [|auto]. rewrite <- E2.
  destruct o; cbn [nvv_step vv_step] in *; auto.
  - injection E2 as E2 _. do 2 f_equal. apply (narrow_id _ l1); auto. now rewrite E2.
  - injection E2 as E2 _. do 2 f_equal. apply (narrow_id _ l1); auto. now rewrite E2.
  - injection E2 as E2 _. do 2 f_equal. apply (narrow_id _ l1); auto. now rewrite E2.
  - destruct (vv_push A m k x) as [m1| | |] eqn:Q; try discriminate; auto. cbn [become] in E2. injection E2 as -> _.
    now rewrite (stored_id (Ok m') m' l1).
  - cbn [vv_spec] in E1. apply guard_some in E1 as (Hk & _). apply Nat.ltb_lt in Hk.
    unfold nvv_grow, vv_grow in *. rewrite (bucket_size_id m l k H S Hk).
    destruct (vv_bucket_size A m k) as [s| | |]; try discriminate; auto. cbn [bind] in *.
    destruct (s <=? n) eqn:Q; cbn [verify bind] in *; auto.
    destruct (vv_insert_end A m k _) as [m1| | |] eqn:Q1; try discriminate; auto. cbn [become] in E2. injection E2 as -> _.
    now rewrite (stored_id (Ok m') m' l1).
  - cbn [vv_spec] in E1. apply guard_some in E1 as (Hk & _). apply Nat.ltb_lt in Hk.
    unfold nvv_bucket_at, vv_bucket_at. now rewrite (bucket_size_id m l k H S Hk).
  - cbn [vv_spec] in E1. apply guard_some in E1 as (Hk & _). apply Nat.ltb_lt in Hk.
    now rewrite (bucket_size_id m l k H S Hk).
  - unfold nvv_back, vv_back. now rewrite (size_id m l H S).
  - now rewrite (size_id m l H S).
  - unfold nvv_all, vv_all. now rewrite (size_id m l H S).
Qed.
Lemma few0 : few w 0 = true.
Proof. unfold few. apply N.ltb_lt. destruct Hw as [-> | [-> | [-> | ->]]]; vm_compute; reflexivity. Qed.
Theorem nvv_history ops l outs : shist A (vv_spec_w A dflt w) [] ops = Some (l, outs) ->
  exists m, hist A (nvv_step A dflt w) vv_new ops = Ok (m, outs) /\ nvv_all A w m = Ok l.
Proof.
  intros E. assert (H0 : VR A vv_new [] /\ vv_small A w [] = true).
  { split; [apply VR_new|]. unfold vv_small. cbn [concat length]. now rewrite few0. }
  destruct (hist_sim A (nvv_step A dflt w) (vv_spec_w A dflt w) (fun m l => VR A m l /\ vv_small A w l = true) nvv_step_ok ops _ _ _ _ H0 E) as (m & E1 & H & S).
  exists m. split; auto. unfold nvv_all. rewrite (size_id m l H S). now apply vv_all_ok.
Qed.

(* ---- fws_multimap ---- *)
Lemma nfw_step_ok m s o s' x : FR A m s /\ fw_small A w s = true -> fw_spec_w A w s o = Some (s', x) ->
  exists m', nfw_step A w m o = Ok (m', x) /\ FR A m' s' /\ fw_small A w s' = true.
Proof.
  intros (H & S) E. unfold fw_spec_w in E. destruct (fw_spec A s o) as [(s1, x1)|] eqn:E1; [|discriminate].
  apply guard_some in E as (S' & [= <- <-]). destruct (fw_step_ok A m s o s1 x1 H E1) as (m' & E2 & H').
  exists m'. split; [|auto]. rewrite <- E2.
  destruct s as ((ks, cur), fin). destruct H as (HD & HC & HI). cbn [fw_small] in S. apply andb_true_iff in S as (S1 & S2).
  assert (D : cut w (length (fw_data m)) = length (fw_data m)) by (apply cut_few; now rewrite HD).
  destruct o; cbn [nfw_step fw_step fw_spec] in *; auto.
  - unfold nfw_finish_key, fw_finish_key. now rewrite D.
  - unfold nfw_finish_map, fw_finish_map. now rewrite D.
  - apply guard_some in E1 as (G & _). destruct fin; [discriminate|]. destruct HI as (HI & _).
    rewrite cut_few; auto. rewrite HI, firstn_length, offs_length. eapply few_le; [exact S2|lia].
  - apply guard_some in E1 as (G & _). subst fin. rewrite G in HI. destruct HI as (_ & HI).
    unfold nfw_all, fw_all. rewrite cut_few; auto. rewrite HI, offs_length. eapply few_le; [exact S2|lia].
Qed.
Theorem nfw_history ops s outs : shist A (fw_spec_w A w) ([], [], false) ops = Some (s, outs) ->
  exists m, hist A (nfw_step A w) fw_new ops = Ok (m, outs).
Proof.
  intros E. assert (H0 : FR A fw_new ([], [], false) /\ fw_small A w ([], [], false) = true).
  { split; [cbn; auto|]. unfold fw_small. cbn [concat length app]. now rewrite few0. }
  destruct (hist_sim A (nfw_step A w) (fw_spec_w A w) (fun m s => FR A m s /\ fw_small A w s = true) nfw_step_ok ops _ _ _ _ H0 E) as (m & E1 & _).
  eauto.
Qed.

(* ---- nvec ---- *)
Notation nest := (nest A).
Definition has (m : nv A) (v : nat) : Prop := exists s, In s (nv_index m) /\ In v s.
Lemma in_upd {B} (l : list B) i x y : In y l -> i < length l -> In y (upd i x l) \/ nth_error l i = Some y.
Proof.
  revert i. induction l as [|z l IH]; intros [|i] H L; cbn in *; try lia; auto.
  - destruct H as [->|H]; auto.
  - destruct H as [->|H]; auto. destruct (IH i H ltac:(lia)); auto.
Qed.
Lemma push_has d d' ix L v i : push_at ix L v = Ok i -> (forall u, has (NV d ix) u -> has (NV d' i) u) /\ has (NV d' i) v.
Proof.
  unfold push_at, idx, put. destruct (nth_error ix L) as [s|] eqn:Q; [|discriminate]. cbn [bind].
  destruct (Nat.ltb_spec L (length ix)) as [HL|]; [|discriminate]. intros [= <-]. split.
  - intros u (s' & H1 & H2). cbn [nv_index] in *. destruct (in_upd _ L (s ++ [v]) _ H1 HL) as [H|H].
    + exists s'. auto.
    + rewrite Q in H. injection H as ->. exists (s' ++ [v]). split; [|apply in_or_app; auto]. cbn [nv_index].
      eapply nth_error_In. apply nth_error_upd_eq. auto.
  - exists (s ++ [v]). split; [|apply in_or_app; cbn; auto]. cbn [nv_index]. eapply nth_error_In. apply nth_error_upd_eq. auto.
Qed.
Lemma nnv_add_ok c : forall L m m', nv_add A L m c = Ok m' ->
  (forall v, has m v -> has m' v) /\ ((forall v, has m' v -> few w v = true) -> nnv_add A w L m c = Ok m').
Proof.
  induction c as [xs|ns IH] using (nest_rec' A); intros L m m' E; destruct L as [|L]; cbn [nv_add nnv_add] in *; try discriminate.
  - destruct (push_at (nv_index m) 0 _) as [i| | |] eqn:Q; try discriminate. cbn [bind] in E. injection E as <-.
    destruct m as (d, ix). cbn [nv_index nv_data] in *. destruct (push_has d (d ++ xs) _ _ _ _ Q) as (H1 & H2). split; auto.
    intros F. rewrite cut_few by (apply F; auto). rewrite Q. auto.
  - destruct (idx (nv_index m) L) as [low| | |]; try discriminate. cbn [bind] in *.
    destruct (push_at (nv_index m) (S L) _) as [i| | |] eqn:Q; try discriminate. cbn [bind] in E.
    destruct m as (d, ix). cbn [nv_index nv_data] in *. destruct (push_has d d _ _ _ _ Q) as (H1 & H2).
    assert (G : forall ns, Forall (fun c => forall L m m', nv_add A L m c = Ok m' ->
        (forall v, has m v -> has m' v) /\ ((forall v, has m' v -> few w v = true) -> nnv_add A w L m c = Ok m')) ns ->
      forall m1, (fix all (m : nv A) (ns : list nest) {struct ns} : res (nv A) :=
         match ns with [] => Ok m | n :: ns => let* m := nv_add A L m n in all m ns end) m1 ns = Ok m' ->
      (forall v, has m1 v -> has m' v) /\ ((forall v, has m' v -> few w v = true) ->
       (fix all (m : nv A) (ns : list nest) {struct ns} : res (nv A) :=
         match ns with [] => Ok m | n :: ns => let* m := nnv_add A w L m n in all m ns end) m1 ns = Ok m')).
    { clear. intros ns F. induction F as [|c ns Hc F IH]; intros m1 E. { injection E as ->. auto. }
      destruct (nv_add A L m1 c) as [m2| | |] eqn:Q; try discriminate. cbn [bind] in E.
      destruct (Hc _ _ _ Q) as (P1 & P2). destruct (IH _ E) as (R1 & R2). split; auto.
      intros Hf. rewrite P2 by auto. cbn [bind]. apply R2; auto. }
    destruct (G ns IH _ E) as (G1 & G2). split; [auto|]. intros F. rewrite cut_few by (apply F; auto). rewrite Q. cbn [bind]. apply G2; auto.
Qed.
Lemma emplace_has n m c m' : nv_emplace_back A n m c = Ok m' ->
  (forall v, has m v -> has m' v) /\ ((forall v, has m' v -> few w v = true) -> nnv_emplace_back A w n m c = Ok m').
Proof.
  unfold nv_emplace_back, nnv_emplace_back. destruct (idx (nv_index m) 0) as [low| | |]; try discriminate. cbn [bind].
  intros E. destruct (nnv_add_ok _ _ _ _ E) as (H1 & H2). split; auto. intros v (s & P1 & P2). apply H1.
  destruct (length low =? 0); [|exists s; auto]. exists (s ++ [0]). cbn [nv_index]. split; [|apply in_or_app; auto].
  apply in_map_iff. eauto.
Qed.
Lemma build_has n cs : forall m m', nv_build A n m cs = Ok m' ->
  (forall v, has m v -> has m' v) /\ ((forall v, has m' v -> few w v = true) -> nnv_build A w n m cs = Ok m').
Proof.
  induction cs as [|c cs IH]; intros m m' E; cbn [nv_build nnv_build] in *. { injection E as ->. auto. }
  destruct (nv_emplace_back A n m c) as [m1| | |] eqn:Q; try discriminate. cbn [bind] in E.
  destruct (emplace_has _ _ _ _ Q) as (P1 & P2). destruct (IH _ _ E) as (R1 & R2). split; auto.
  intros F. rewrite P2 by auto. cbn [bind]. auto.
Qed.
Lemma cum_le ws : forall s v, In v (cum s ws) -> v <= s + sum ws.
Proof. induction ws as [|x ws IH]; intros s v H; cbn in *. { lia. } destruct H as [<-|H]; [lia|]. apply IH in H. lia. Qed.
Lemma count_node (ns : list nest) : count A (Node ns) = all_count A ns.
Proof. reflexivity. Qed.
Lemma all_count_app a b : all_count A (a ++ b) = all_count A a + all_count A b.
Proof. unfold all_count. induction a; cbn; auto. lia. Qed.
Lemma all_count_kids n l : Forall (depth A (S (S n))) l -> all_count A (concat (map (kids A) l)) = all_count A l.
Proof.
  induction 1 as [|c l Hc F IH]; auto. cbn [map concat]. rewrite all_count_app, IH.
  apply depth_node in Hc as (ns & -> & _). reflexivity.
Qed.
Lemma all_count_down d : forall n l, Forall (depth A (S (d + n))) l -> all_count A (down A d l) = all_count A l.
Proof.
  induction d as [|d IH]; intros n l F; auto. cbn [down]. rewrite (IH n); [apply (all_count_kids (d + n)); auto|].
  apply Forall_forall. intros c Hc. apply in_concat in Hc as (k & Hk & Hc). apply in_map_iff in Hk as (e & <- & He).
  pose proof (proj1 (Forall_forall _ _) F e He) as De. apply depth_node in De as (ns & -> & Fn).
  exact (proj1 (Forall_forall _ _) Fn c Hc).
Qed.
Lemma widths_count l : Forall (depth A 1) l -> sum (map (FlatSpec.width A) l) = all_count A l.
Proof. induction 1 as [|c l Hc F IH]; auto. apply (depth_leaf A 0) in Hc as (xs & ->). cbn. rewrite IH. reflexivity. Qed.

Theorem nnvec_ok n cs : 0 < n -> Forall (depth A n) cs -> nv_small A w cs = true ->
  exists m, nv_build A n (nv_new n) cs = Ok m /\ nnv_build A w n (nv_new n) cs = Ok m /\ nnv_size A w n m = Ok (length cs).
Proof.
  intros P F S. apply andb_true_iff in S as (S1 & S2). destruct (nvec_ok A n cs P F) as (m & E & Hs & _). exists m. split; auto.
  destruct (nv_build_ok A n cs P F (nv_new n) []) as (m' & E' & H); [left; auto|].
  rewrite E in E'. injection E' as <-. cbn [app] in H. split.
  - apply (build_has _ _ _ _ E). intros v (s & Hs1 & Hv). destruct H as [(-> & ->)|(R & C)].
    + cbn in Hs1. apply repeat_spec in Hs1. subst. destruct Hv.
    + destruct R as (Hn & HD & HI & HF). apply In_nth_error in Hs1 as (j & Hj).
      assert (L : j < n) by (rewrite <- Hn; apply nth_error_Some; congruence).
      rewrite (HI j L) in Hj. injection Hj as <-. apply cum_le in Hv. cbn [Nat.add] in Hv.
      destruct j as [|j].
      * rewrite widths_count in Hv by (apply HF; auto). rewrite (all_count_down _ 0) in Hv.
        -- exact (few_le _ _ S1 Hv).
        -- replace (S (n - 1 - 0 + 0)) with n by lia. auto.
      * rewrite (widths_kids A j) in Hv by (apply HF; auto). rewrite <- down_S in Hv.
        pose proof (down_nodes A (S (n - 1 - S j)) cs). eapply few_le; [exact S2|]. lia.
  - unfold nnv_size. rewrite Hs. cbn [bind]. rewrite cut_few; auto. eapply few_le; [exact S2|].
    pose proof (down_nodes A 0 cs). auto.
Qed.
End P.
