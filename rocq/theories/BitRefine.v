(* Histories of bitset and bitvec operations refine the bit sequences of BitSpec. *)
From Verif Require Import Base ArithModel ArithProofs BitModel BitSpec BitProofs BitShift.

Section Sim.
Variables (A B : Type) (P : A -> Prop) (al : A -> B).
Lemma nth_error_al st r b : Forall P st -> nth_error (map al st) r = Some b ->
  exists a, nth_error st r = Some a /\ P a /\ al a = b.
Proof.
  intros F H. rewrite nth_error_map in H. destruct (nth_error st r) as [a|] eqn:E; [|discriminate].
  exists a. cbn in H. injection H as H. repeat split; auto.
  rewrite Forall_forall in F. apply F. eapply nth_error_In; eauto.
Qed.
Lemma map_upd (f : A -> B) : forall st r a, map f (upd r a st) = upd r (f a) (map f st).
Proof. induction st; intros [|r] x; cbn; auto. rewrite IHst. reflexivity. Qed.
Lemma with_sim st r g h sp out : Forall P st ->
  (forall a, nth_error st r = Some a -> P a -> exists a', g a = Ok a' /\ P a' /\ al a' = h (al a)) ->
  change (map al st) r h = Some (sp, out) ->
  exists st', with_obj st r g = Ok (st', out) /\ Forall P st' /\ map al st' = sp.
Proof.
  intros F G H. unfold change in H. destruct (nth_error (map al st) r) as [b|] eqn:E; [|discriminate].
  injection H as <- <-. destruct (nth_error_al _ _ _ F E) as (a & Ea & Pa & <-).
  unfold with_obj, robj. rewrite Ea. cbn [bind]. destruct (G a Ea Pa) as (a' & -> & Pa' & <-). cbn [bind].
  eexists. split; [reflexivity|]. split; [apply upd_Forall; auto|]. apply map_upd.
Qed.
Lemma see_sim {C} st r (g : A -> res C) k h sp out : Forall P st ->
  (forall a, nth_error st r = Some a -> P a -> exists x, g a = Ok x /\ k x = h (al a)) ->
  see (map al st) r h = Some (sp, out) ->
  exists st', observe st r g k = Ok (st', out) /\ Forall P st' /\ map al st' = sp.
Proof.
  intros F G H. unfold see in H. destruct (nth_error (map al st) r) as [b|] eqn:E; [|discriminate].
  injection H as <- <-. destruct (nth_error_al _ _ _ F E) as (a & Ea & Pa & <-).
  unfold observe, robj. rewrite Ea. cbn [bind]. destruct (G a Ea Pa) as (x & -> & <-). cbn [bind].
  eexists. split; [reflexivity|]. auto.
Qed.
End Sim.

Lemma set_abs n b i v : wf n b -> i < num_blocks n * 64 ->
  exists b', set_bit b i v = Ok b' /\ wf n b' /\ abs n b' = upd i v (abs n b).
Proof.
  intros [L W] H. destruct (set_bit_ok b i v) as (b' & E & L' & W' & B); auto.
  { rewrite L. apply Nat.div_lt_upper_bound; lia. }
  exists b'. split; auto. split; [split; auto; congruence|].
  apply abs_ext; [rewrite upd_length, abs_length; auto|]. intros j Hj. rewrite B.
  destruct (Nat.eqb_spec j i) as [->|D].
  - rewrite nth_upd_eq; auto. rewrite abs_length. auto.
  - rewrite nth_upd_neq, abs_nth by auto. destruct (Nat.ltb_spec j n); [reflexivity|lia].
Qed.
Lemma set_str_abs n b s : wf n b ->
  exists b', set_all b 0 (firstn n (rev s)) = Ok b' /\ wf n b' /\
    abs n b' = firstn n (rev s) ++ skipn (length s) (abs n b).
Proof.
  intros [L W]. pose proof (num_blocks_bound n).
  destruct (set_all_ok (firstn n (rev s)) b 0) as (b' & E & L' & W' & B); auto.
  { rewrite firstn_length. lia. }
  exists b'. split; auto. split; [split; auto; congruence|].
  apply abs_ext.
  - rewrite app_length, firstn_length, skipn_length, rev_length, abs_length. lia.
  - intros j Hj. rewrite B, Nat.sub_0_r. cbn [Nat.leb andb Nat.add].
    destruct (Nat.ltb_spec j (length (firstn n (rev s)))) as [H1|H1].
    + rewrite app_nth1 by auto. reflexivity.
    + rewrite app_nth2 by auto. rewrite firstn_length, rev_length in *.
      transitivity (nth j (abs n b) false).
      * rewrite abs_nth. destruct (Nat.ltb_spec j n); [reflexivity|lia].
      * rewrite <- (firstn_skipn (length s) (abs n b)) at 1.
        rewrite app_nth2; rewrite firstn_length, abs_length; [|lia]. f_equal. lia.
Qed.

Ltac inv_robj :=
  match goal with
  | H : match nth_error (map ?al ?st) ?r with _ => _ end = Some _, F : Forall ?P ?st |- _ =>
      let e := fresh "Eo" in
      destruct (nth_error (map al st) r) as [?o|] eqn:e; [|discriminate H];
      let a := fresh "a" in let Ea := fresh "Ea" in let Pa := fresh "Pa" in
      destruct (nth_error_al _ _ P al _ _ _ F e) as (a & Ea & Pa & <-)
  end.

Lemma bool_land x y j : tb (N.land x y) j = tb x j && tb y j.
Proof. apply tb_land. Qed.

Lemma sstep_sim n st o sp out : 0 < n -> Forall (wf n) st ->
  sspec n (map (abs n) st) o = Some (sp, out) ->
  exists st', sstep n st o = Ok (st', out) /\ Forall (wf n) st' /\ map (abs n) st' = sp.
Proof.
  intros P F H. destruct o; cbn [sspec sstep] in *.
  - destruct (Nat.ltb_spec i (num_blocks n * 64)); [|discriminate].
    eapply with_sim; eauto. intros. apply set_abs; auto.
  - eapply with_sim; eauto. intros. apply set_str_abs; auto.
  - eapply with_sim; eauto. intros. eexists. split; [reflexivity|].
    apply (repeat_ok n 0%N false word_0 ltac:(intros; apply tb_0)).
  - eapply with_sim; eauto. intros. eexists. split; [reflexivity|].
    apply (repeat_ok n u64_max true word_max). intros j Hj. rewrite tb_max. apply Nat.ltb_lt; auto.
  - inv_robj. unfold robj. rewrite Ea. cbn [bind]. eapply with_sim; eauto. intros.
    apply zip_ok; auto using word_land, tb_land.
  - inv_robj. unfold robj. rewrite Ea. cbn [bind]. eapply with_sim; eauto. intros.
    apply zip_ok; auto using word_lor, tb_lor.
  - inv_robj. unfold robj. rewrite Ea. cbn [bind]. eapply with_sim; eauto. intros.
    apply zip_ok; auto using word_lxor, tb_lxor.
  - inv_robj. unfold robj. rewrite Ea. cbn [bind]. eapply with_sim; eauto. intros.
    eexists. split; [reflexivity|]. apply flip_ok; auto.
  - eapply with_sim; eauto. intros b _ Wb. destruct (Nat.leb_spec n s).
    + eexists. split; [reflexivity|]. rewrite shift_up_all by (rewrite abs_length; auto). rewrite abs_length.
      apply (repeat_ok n 0%N false word_0 ltac:(intros; apply tb_0)).
    + apply shl_ok; auto.
  - eapply with_sim; eauto. intros b _ Wb. destruct (Nat.leb_spec n s).
    + eexists. split; [reflexivity|]. rewrite shift_down_all by (rewrite abs_length; auto). rewrite abs_length.
      apply (repeat_ok n 0%N false word_0 ltac:(intros; apply tb_0)).
    + apply shr_ok; auto.
  - eapply see_sim; eauto. intros. cbn beta. rewrite test_ok by auto. eauto.
  - eapply see_sim; eauto. intros. cbn beta. rewrite count_ok by auto. eauto.
  - eapply see_sim; eauto. intros. cbn beta. rewrite any_ok by auto. eauto.
  - eapply see_sim; eauto. intros. cbn beta. rewrite to_string_ok by auto. eauto.
  - eapply see_sim; eauto. intros. cbn beta. rewrite for_each_ok by auto. eauto.
  - inv_robj. unfold robj. rewrite Ea. cbn [bind]. eapply see_sim; eauto. intros. cbn beta.
    rewrite equal_ok by auto. eauto.
  - inv_robj. unfold robj. rewrite Ea. cbn [bind]. eapply see_sim; eauto. intros. cbn beta.
    rewrite less_ok by auto. eauto.
Qed.
Lemma srun_sim n ops : 0 < n -> forall st sp outs, Forall (wf n) st ->
  sspec_run n (map (abs n) st) ops = Some (sp, outs) ->
  exists st', srun n st ops = Ok (st', outs) /\ Forall (wf n) st' /\ map (abs n) st' = sp.
Proof.
  intros P. induction ops as [|o ops IH]; intros st sp outs F H; cbn [sspec_run srun] in *.
  - injection H as <- <-. eauto.
  - destruct (sspec n (map (abs n) st) o) as [[sp1 x]|] eqn:E; [|discriminate].
    destruct (sstep_sim n st o sp1 x P F E) as (st1 & E1 & F1 & <-). rewrite E1. cbn [bind].
    destruct (sspec_run n (map (abs n) st1) ops) as [[sp2 xs]|] eqn:E2; [|discriminate].
    injection H as <- <-. destruct (IH _ _ _ F1 E2) as (st2 & E3 & F2 & M). rewrite E3. cbn [bind]. eauto.
Qed.
Lemma map_repeat' {A B} (f : A -> B) x k : map f (repeat x k) = repeat (f x) k.
Proof. induction k; cbn; congruence. Qed.
Lemma bitset_refines n k ops sp outs : 0 < n ->
  sspec_run n (repeat (falses n) k) ops = Some (sp, outs) ->
  exists st, srun n (repeat (zero_blocks n) k) ops = Ok (st, outs).
Proof.
  intros P H. destruct (repeat_ok n 0%N false word_0) as [W A]; [intros; apply tb_0|].
  destruct (srun_sim n ops P (repeat (zero_blocks n) k) sp outs) as (st & E & _).
  - apply Forall_forall. intros x Hx. apply repeat_spec in Hx. subst. exact W.
  - rewrite map_repeat'. unfold zero_blocks. rewrite A. exact H.
  - eauto.
Qed.

(* ---------- bitvec ---------- *)
Lemma absv_length v : length (absv v) = v_size v.
Proof. apply abs_length. Qed.
Lemma absv_empty v : v_size v = 0 -> absv v = [].
Proof. intros H. unfold absv. rewrite H. reflexivity. Qed.
Lemma reset_empty v : wfv v -> v_size v = 0 -> wfv (bv_reset v) /\ absv (bv_reset v) = [].
Proof.
  intros H E. unfold wfv, absv, bv_reset. cbn [v_size v_blocks]. rewrite E. repeat split; constructor.
Qed.
Lemma on_blocks_ok v (r : res (list N)) l :
  (exists b, r = Ok b /\ wf (v_size v) b /\ abs (v_size v) b = l) ->
  exists v', on_blocks v r = Ok v' /\ wfv v' /\ absv v' = l.
Proof.
  intros (b & -> & W & A). unfold on_blocks. cbn [bind]. exists (BV (v_size v) b). auto.
Qed.

Lemma vstep_sim st o sp out : Forall wfv st ->
  vspec (map absv st) o = Some (sp, out) ->
  exists st', vstep st o = Ok (st', out) /\ Forall wfv st' /\ map absv st' = sp.
Proof.
  intros F H. destruct o; cbn [vspec vstep] in *.
  - eapply with_sim; eauto. intros. apply resize_ok; auto.
  - inv_robj. rewrite absv_length in H. destruct (Nat.ltb_spec i (v_size a)) as [Hi|]; [|discriminate].
    eapply with_sim; eauto. intros a' Ea' Wa. assert (a' = a) by congruence. subst a'.
    apply on_blocks_ok, set_abs; auto. pose proof (num_blocks_bound (v_size a)). lia.
  - eapply with_sim; eauto. intros. apply set_str_ok; auto.
  - eapply with_sim; eauto. intros. eexists. split; [reflexivity|]. rewrite absv_length.
    apply (const_ok (v_size a) (v_blocks a) 0%N false); auto using word_0, tb_0.
  - eapply with_sim; eauto. intros. eexists. split; [reflexivity|]. rewrite absv_length.
    apply (const_ok (v_size a) (v_blocks a) u64_max true); auto using word_max.
    intros j Hj. rewrite tb_max. apply Nat.ltb_lt; auto.
  - eapply with_sim; eauto. intros.
    destruct (resize_ok (BV 0 []) n) as (v & E & W & _). { repeat split; constructor. }
    rewrite E. cbn [bind]. eexists. split; [reflexivity|]. pose proof (resize_size _ _ _ E) as S.
    rewrite <- S.
    apply (const_ok (v_size v) (v_blocks v) u64_max true); auto using word_max.
    intros j Hj. rewrite tb_max. apply Nat.ltb_lt; auto.
  - destruct (_ && _) eqn:Q in H; [|discriminate]. apply andb_prop in Q as (Q & Q3). apply andb_prop in Q as (Q1 & Q2).
    apply Nat.leb_le in Q2. apply Nat.ltb_lt in Q3. eapply with_sim; eauto. intros. eexists. split; [reflexivity|]. split; [|reflexivity].
    split; cbn [v_size v_blocks].
    + unfold num_blocks, BPB. destruct (Nat.eqb_spec (n mod 64) 0); lia.
    + apply Forall_forall. intros x Hx. rewrite forallb_forall in Q1. apply N.ltb_lt, Q1. auto.
  - inv_robj. unfold robj. rewrite Ea. cbn [bind]. eapply with_sim; eauto. intros. cbn beta. eauto.
  - inv_robj. inv_robj. unfold robj. rewrite Ea0. cbn [bind]. rewrite !absv_length in H.
    destruct (Nat.eqb_spec (v_size a) (v_size a0)) as [S|]; [|discriminate].
    eapply with_sim; eauto. intros a' Ea' Wa. assert (a' = a) by congruence. subst a'.
    unfold absv at 2 3. rewrite <- S. unfold wfv in *. rewrite <- S in Pa0.
    apply on_blocks_ok, zip_ok; auto using word_land, tb_land.
  - inv_robj. inv_robj. unfold robj. rewrite Ea0. cbn [bind]. rewrite !absv_length in H.
    destruct (Nat.eqb_spec (v_size a) (v_size a0)) as [S|]; [|discriminate].
    eapply with_sim; eauto. intros a' Ea' Wa. assert (a' = a) by congruence. subst a'.
    unfold absv at 2 3. rewrite <- S. unfold wfv in *. rewrite <- S in Pa0.
    apply on_blocks_ok, zip_ok; auto using word_lor, tb_lor.
  - inv_robj. inv_robj. unfold robj. rewrite Ea0. cbn [bind]. rewrite !absv_length in H.
    destruct (Nat.eqb_spec (v_size a) (v_size a0)) as [S|]; [|discriminate].
    eapply with_sim; eauto. intros a' Ea' Wa. assert (a' = a) by congruence. subst a'.
    unfold absv at 2 3. rewrite <- S. unfold wfv in *. rewrite <- S in Pa0.
    apply on_blocks_ok, zip_ok; auto using word_lxor, tb_lxor.
  - inv_robj. unfold robj. rewrite Ea. cbn [bind]. eapply with_sim; eauto. intros.
    eexists. split; [reflexivity|]. apply flip_ok; auto.
  - inv_robj. rewrite absv_length in H.
    destruct (Nat.ltb_spec s (v_size a)), (Nat.eqb_spec (v_size a) 0); cbn [orb] in H; try discriminate.
    + lia.
    + eapply with_sim; eauto. intros a' Ea' Wa. assert (a' = a) by congruence. subst a'.
      unfold bv_shift. destruct (Nat.leb_spec (v_size a) s); [lia|]. apply on_blocks_ok, shl_ok; auto.
    + eapply with_sim; eauto. intros a' Ea' Wa. assert (a' = a) by congruence. subst a'.
      unfold bv_shift. destruct (Nat.leb_spec (v_size a) s); [|lia].
      eexists. split; [reflexivity|]. rewrite shift_up_all by (rewrite absv_length; auto).
      rewrite absv_length, e. apply reset_empty; auto.
  - inv_robj. rewrite absv_length in H.
    destruct (Nat.ltb_spec s (v_size a)), (Nat.eqb_spec (v_size a) 0); cbn [orb] in H; try discriminate.
    + lia.
    + eapply with_sim; eauto. intros a' Ea' Wa. assert (a' = a) by congruence. subst a'.
      unfold bv_shift. destruct (Nat.leb_spec (v_size a) s); [lia|]. apply on_blocks_ok, shr_ok; auto.
    + eapply with_sim; eauto. intros a' Ea' Wa. assert (a' = a) by congruence. subst a'.
      unfold bv_shift. destruct (Nat.leb_spec (v_size a) s); [|lia].
      eexists. split; [reflexivity|]. rewrite shift_down_all by (rewrite absv_length; auto).
      rewrite absv_length, e. apply reset_empty; auto.
  - eapply see_sim; eauto. intros. eexists. split; [reflexivity|]. rewrite absv_length. reflexivity.
  - eapply see_sim; eauto. intros. cbn beta. rewrite test_ok by auto. eauto.
  - eapply see_sim; eauto. intros. cbn beta. destruct (Nat.eqb_spec (v_size a) 0).
    + rewrite absv_empty by auto. eauto.
    + rewrite count_ok by (auto; lia). eauto.
  - eapply see_sim; eauto. intros. cbn beta. destruct (Nat.eqb_spec (v_size a) 0).
    + rewrite absv_empty by auto. eauto.
    + rewrite any_ok by (auto; lia). eauto.
  - eapply see_sim; eauto. intros. cbn beta. rewrite to_string_ok by auto. eauto.
  - eapply see_sim; eauto. intros. cbn beta. destruct (Nat.eqb_spec (v_size a) 0).
    + rewrite absv_empty by auto. eauto.
    + rewrite for_each_ok by (auto; lia). eauto.
  - inv_robj. rewrite absv_length in H. destruct (dirty_search (v_size a) i) eqn:D; [discriminate|]. cbn [negb] in H.
    eapply see_sim; eauto. intros a' Ea' Wa. assert (a' = a) by congruence. subst a'.
    cbn beta. destruct (next_set_bit_found a i Wa) as (o & E & Q & _). rewrite E.
    exists o. split; auto. rewrite Q; auto.
  - inv_robj. unfold robj. rewrite Ea. cbn [bind]. eapply see_sim; eauto. intros a' Ea' Wa. cbn beta.
    destruct (Nat.eqb_spec (v_size a') (v_size a)) as [S|S]; cbn [negb].
    + destruct (Nat.eqb_spec (v_size a') 0) as [Z|Z].
      * eexists. split; [reflexivity|]. rewrite !absv_empty by congruence. reflexivity.
      * rewrite equal_ok; auto; [|unfold wfv in Pa; rewrite S; auto|lia].
        eexists. split; [reflexivity|]. unfold absv. rewrite S. reflexivity.
    + eexists. split; [reflexivity|]. f_equal. unfold beqb.
      destruct (list_eq_dec bool_dec (absv a') (absv a)) as [X|]; auto.
      exfalso. apply S. rewrite <- !absv_length, X. reflexivity.
  - inv_robj. inv_robj. unfold robj. rewrite Ea0. cbn [bind]. rewrite !absv_length in H.
    destruct (Nat.eqb_spec (v_size a) (v_size a0)) as [S|]; [|discriminate].
    eapply see_sim; eauto. intros a' Ea' Wa. assert (a' = a) by congruence. subst a'. cbn beta.
    rewrite <- S. destruct (Nat.eqb_spec (v_size a) 0) as [Z|Z]; cbn [andb].
    + eexists. split; [reflexivity|]. rewrite !absv_empty by congruence. reflexivity.
    + rewrite less_ok; auto; [|unfold wfv in Pa0; rewrite S; auto|lia].
      eexists. split; [reflexivity|]. unfold absv. rewrite S. reflexivity.
Qed.
Lemma vrun_sim ops : forall st sp outs, Forall wfv st ->
  vspec_run (map absv st) ops = Some (sp, outs) ->
  exists st', vrun st ops = Ok (st', outs) /\ Forall wfv st' /\ map absv st' = sp.
Proof.
  induction ops as [|o ops IH]; intros st sp outs F H; cbn [vspec_run vrun] in *.
  - injection H as <- <-. eauto.
  - destruct (vspec (map absv st) o) as [[sp1 x]|] eqn:E; [|discriminate].
    destruct (vstep_sim st o sp1 x F E) as (st1 & E1 & F1 & <-). rewrite E1. cbn [bind].
    destruct (vspec_run (map absv st1) ops) as [[sp2 xs]|] eqn:E2; [|discriminate].
    injection H as <- <-. destruct (IH _ _ _ F1 E2) as (st2 & E3 & F2 & M). rewrite E3. cbn [bind]. eauto.
Qed.
Definition empty_vec : bitvec := BV 0 [].
Lemma empty_wf k : Forall wfv (repeat (BV 0 []) k).
Proof. apply Forall_forall. intros x Hx. apply repeat_spec in Hx. subst. repeat split; constructor. Qed.
Lemma bitvec_refines k ops sp outs :
  vspec_run (repeat [] k) ops = Some (sp, outs) ->
  exists st, vrun (repeat (BV 0 []) k) ops = Ok (st, outs).
Proof.
  intros H. destruct (vrun_sim ops (repeat (BV 0 []) k) sp outs) as (st & E & _).
  - apply empty_wf.
  - rewrite map_repeat'. exact H.
  - eauto.
Qed.

(* the searches left out of the histories: never a wrong index below the size *)
Lemma bitvec_next k ops sp outs st r v i :
  vspec_run (repeat [] k) ops = Some (sp, outs) ->
  vrun (repeat (BV 0 []) k) ops = Ok (st, outs) ->
  nth_error st r = Some v ->
  exists l o, nth_error sp r = Some l /\ next_set_bit v i = Ok o /\
    (o = next_index l i \/ (next_index l i = None /\ exists j, o = Some j /\ length l <= j)).
Proof.
  intros H R N. destruct (vrun_sim ops (repeat (BV 0 []) k) sp outs) as (st' & E & F & M).
  { apply empty_wf. } { rewrite map_repeat'. exact H. }
  rewrite R in E. injection E as <-. subst sp.
  assert (W : wfv v) by (rewrite Forall_forall in F; apply F; eapply nth_error_In; eauto).
  destruct (next_set_bit_found v i W) as (o & E & _ & Q). exists (absv v), o.
  rewrite nth_error_map, N. split; auto. split; auto. rewrite absv_length.
  destruct (next_index (absv v) i) as [a|] eqn:EN; destruct o as [b|]; auto.
  - destruct (Nat.eq_dec a b); [left; congruence|]. destruct Q; congruence.
  - destruct Q; congruence.
  - destruct Q as [_ Q]; [congruence|]. auto.
Qed.
