(* The operations of one vector in the memory. *)
From Verif Require Import Base ArithModel ArithProofs DmemModel DmemSpec DmemProofs.

Section Ops.
Variable w : N.
Hypothesis Hw : npo2_width w.
Notation rep := (rep w).
Notation only p := (fun q : place => q = p).

Definition becomes (t : dty) (h : heap) (p : place) (F : list nat) (r : res heap) (v : val) : Prop :=
  exists h' o' F', r = Ok h' /\ sl h' p = Some (Some o') /\ rep h' t o' v F' /\ NoDup F' /\ ~ In (fst p) F' /\ chg h h' (only p) F F'.

Definition becomes2 (tp ts : dty) (h : heap) (p : place) (F : list nat) (src : place) (os : obj) (Fs : list nat) (move : bool) (r : res heap) (v : val) : Prop :=
  exists h' o' F', r = Ok h' /\ sl h' p = Some (Some o') /\ rep h' tp o' v F' /\ NoDup F' /\ ~ In (fst p) F' /\ ~ In (fst src) F' /\
    (move = true -> sl h' src = Some (Some (mv ts os))) /\ chg h h' (fun q => q = p \/ (move = true /\ q = src)) (F ++ if move then Fs else []) F'.
Lemma place_ne (p src : place) : src <> p -> (fst p =? fst src) && (snd p =? snd src) = false.
Proof. intros N. apply andb_false_iff. destruct (Nat.eqb_spec (fst p) (fst src)), (Nat.eqb_spec (snd p) (snd src)); auto. destruct p, src. cbn in *. congruence. Qed.
Lemma e3_cut {A B C} (R : A -> B -> C -> Prop) k : forall a b c, each3 R a b c -> each3 R (firstn k a) (firstn k b) (firstn k c) /\ each3 R (skipn k a) (skipn k b) (skipn k c).
Proof. induction k; intros a b c E; [split; [constructor|exact E]|]. destruct E; cbn; [split; constructor|]. destruct (IHk _ _ _ E). split; [constructor|]; auto. Qed.
Lemma app_inj_length {A} : forall (a b c d : list A), a ++ b = c ++ d -> length a = length c -> a = c /\ b = d.
Proof. induction a as [|x a IH]; intros b [|y c] d E L; try discriminate L; cbn in E; [auto|]. injection E as -> E. destruct (IH _ _ _ E) as [-> ->]; auto. Qed.
Lemma set_used_ok h p el u c sf n : sl h p = Some (Some (Ve el u c sf)) -> exists h', set_used h p n = Ok h' /\ sl h' p = Some (Some (Ve el n c sf)) /\ length h' = length h /\
  (forall F, chg h h' (only p) F F) /\ (forall b, b <> fst p -> blk h' b = blk h b).
Proof.
  intros S. unfold set_used. rewrite (rdv_ok _ _ _ _ _ _ S). cbn [bind]. destruct (mod_ok h p _ (Ve el n c sf) S) as (h' & -> & S' & L' & C' & _ & K'). exists h'.
  split; [reflexivity|]. split; [exact S'|]. split; [exact L'|]. split; [|exact K']. intros F. eapply chg_weak; [exact C'| | | | |]; cbn; try tauto; intros; auto.
Qed.
Lemma swap_adj h b pre x y post : blk h b = Some (pre ++ Some x :: Some y :: post) -> exists h', swap h (b, length pre) (b, length pre + 1) = Ok h' /\
  blk h' b = Some (pre ++ Some y :: Some x :: post) /\ length h' = length h /\ (forall c, c <> b -> blk h' c = blk h c).
Proof.
  intros E. pose proof (sl_at _ _ _ _ _ E) as S1. assert (E' : blk h b = Some ((pre ++ [Some x]) ++ Some y :: post)) by (rewrite <- app_assoc; exact E).
  pose proof (sl_at _ _ _ _ _ E') as S2. rewrite app_length in S2. cbn [length] in S2. unfold swap. rewrite (proj2 (rd_sl _ _ _) S1), (proj2 (rd_sl _ _ _) S2). cbn [bind].
  destruct (mod_ok h (b, length pre) _ y S1) as (h1 & -> & _ & L1 & C1 & B1 & K1). cbn [bind fst snd] in *. specialize (B1 _ E). rewrite upd_app in B1.
  assert (B1' : blk h1 b = Some ((pre ++ [Some y]) ++ Some y :: post)) by (rewrite <- app_assoc; exact B1). pose proof (sl_at _ _ _ _ _ B1') as S3. rewrite app_length in S3. cbn [length] in S3.
  destruct (mod_ok h1 (b, length pre + 1) _ x S3) as (h2 & -> & _ & L2 & C2 & B2 & K2). cbn [fst snd] in *. specialize (B2 _ B1').
  replace (length pre + 1) with (length (pre ++ [Some y])) in B2 by (rewrite app_length; reflexivity). rewrite upd_app in B2.
  exists h2. split; [reflexivity|]. split; [rewrite B2, <- app_assoc; reflexivity|]. split; [lia|]. intros c Nc. rewrite K2, K1 by auto. reflexivity.
Qed.
Lemma sink_loop b x : forall ys h pre post, blk h b = Some (pre ++ Some x :: map Some ys ++ post) ->
  exists h', loop (length ys) (length pre) (fun i h => let* a := elem (Some b) i in let* c := elem (Some b) (i + 1) in swap h a c) h = Ok h' /\
  blk h' b = Some (pre ++ map Some ys ++ Some x :: post) /\ length h' = length h /\ (forall c, c <> b -> blk h' c = blk h c).
Proof.
  induction ys as [|y ys IH]; intros h pre post E; cbn [length loop map app] in *; [exists h; auto|]. cbn [elem bind].
  destruct (swap_adj h b pre x y _ E) as (h1 & -> & E1 & L1 & K1). cbn [bind]. destruct (IH h1 (pre ++ [Some y]) post) as (h2 & D2 & E2 & L2 & K2); [rewrite <- app_assoc; exact E1|].
  rewrite app_length in D2. cbn [length] in D2. rewrite Nat.add_1_r in D2. cbn [elem bind] in D2. exists h2. split; [exact D2|]. split; [rewrite E2, <- app_assoc; reflexivity|]. split; [lia|].
  intros c Nc. rewrite K2, K1 by auto. reflexivity.
Qed.
Lemma rise_loop b x u : forall ys h i pre post, blk h b = Some (pre ++ map Some ys ++ Some x :: post) -> length pre + length ys + i = u ->
  exists h', loop (length ys) i (fun i h => let* a := elem (Some b) (u - S i) in let* c := elem (Some b) (u - i) in swap h a c) h = Ok h' /\
  blk h' b = Some (pre ++ Some x :: map Some ys ++ post) /\ length h' = length h /\ (forall c, c <> b -> blk h' c = blk h c).
Proof.
  induction ys as [|y ys IH] using rev_ind; intros h i pre post E L; [exists h; auto|]. rewrite app_length in *. cbn [length] in *. rewrite Nat.add_1_r. cbn [loop elem bind].
  rewrite map_app in E. cbn [map] in E. rewrite <- !app_assoc in E. cbn [app] in E. rewrite app_assoc in E. destruct (swap_adj h b _ y x _ E) as (h1 & D1 & E1 & L1 & K1).
  rewrite app_length, map_length in D1. replace (u - S i) with (length pre + length ys) by lia. replace (u - i) with (length pre + length ys + 1) by lia. rewrite D1. cbn [bind].
  destruct (IH h1 (S i) pre (Some y :: post)) as (h2 & D2 & E2 & L2 & K2); [rewrite app_assoc; exact E1|lia|]. exists h2. split; [exact D2|].
  split; [rewrite E2, map_app, <- !app_assoc; reflexivity|]. split; [lia|]. intros c Nc. rewrite K2, K1 by auto. reflexivity.
Qed.
Lemma init_loop b z : forall n h pre sp, blk h b = Some (pre ++ sp) -> n <= length sp ->
  exists h', loop n (length pre) (fun i h => let* d := elem (Some b) i in init h d z) h = Ok h' /\
  blk h' b = Some (pre ++ repeat (Some z) n ++ skipn n sp) /\ length h' = length h /\ (forall c, c <> b -> blk h' c = blk h c).
Proof.
  induction n as [|n IH]; intros h pre sp E L; cbn [loop repeat skipn app]; [exists h; auto|]. destruct sp as [|s sp]; [cbn in L; lia|]. cbn [elem bind].
  unfold init at 1. destruct (wr_ok h (b, length pre) (Some z) s (sl_at _ _ _ _ _ E)) as (h1 & -> & _ & L1 & _ & B1 & K1). cbn [bind fst snd] in *. specialize (B1 _ E). rewrite upd_app in B1.
  destruct (IH h1 (pre ++ [Some z]) sp) as (h2 & D2 & E2 & L2 & K2); [rewrite <- app_assoc; exact B1|cbn in L; lia|]. rewrite app_length in D2. cbn [length] in D2. rewrite Nat.add_1_r in D2.
  exists h2. split; [exact D2|]. split; [rewrite E2, <- app_assoc; reflexivity|]. split; [lia|]. intros c Nc. rewrite K2, K1 by auto. reflexivity.
Qed.

(* rebuilding the vector with other elements of the same block *)
Lemma rebuild t (p : place) h' b u c os sp vs' Fs : sl h' p = Some (Some (Ve (Some b) u c true)) -> u = length vs' -> (N.of_nat u <= 2 ^ (w - 1))%N -> blk h' b = Some (map Some os ++ sp) -> c = length os + length sp ->
  Forall plain sp -> each3 (rep h' t) os vs' Fs -> rep h' (DV t) (Ve (Some b) u c true) (VL vs') (b :: concat Fs).
Proof. intros S U Su E C Pl Es. cbn [DmemSpec.rep]. repeat (split; [assumption || reflexivity|]). exists os, sp, Fs. auto. Qed.

Section One.
Variables (t : dty) (h : heap) (p : place) (o : obj) (vs : list val) (F : list nat).
Hypothesis S0 : sl h p = Some (Some o).
Hypothesis R0 : rep h (DV t) o (VL vs) F.
Hypothesis N0 : NoDup F.
Hypothesis P0 : ~ In (fst p) F.
Notation becomes := (becomes (DV t) h p F).
Lemma Lp : fst p < length h.
Proof. eapply sl_lt. exact S0. Qed.

Lemma clear_ok : becomes (clear t h p) (VL []).
Proof.
  pose proof Lp as Lp. destruct o as [x|el used cap self]; cbn [DmemSpec.rep] in R0; [contradiction|]. destruct R0 as (U & Su & R). unfold clear. rewrite (rdv_ok _ _ _ _ _ _ S0). cbn [bind].
  destruct el as [b|].
  - destruct R as (-> & os & sp & Fs & Eb & Ec & Pl & -> & Es). apply NoDup_cons_iff in N0 as [Nb Nd]. destruct (e3_len _ _ _ _ Es) as [Lo Lf].
    destruct (destroy_loop w t (destroy_ok w t) b os vs Fs h [] sp Es Eb Nd Nb) as (h1 & D1 & E1 & L1 & C1). cbn [elem bind]. rewrite U, <- Lo. cbn [length app] in *. rewrite D1. cbn [bind].
    assert (S1 : sl h1 p = Some (Some (Ve (Some b) used cap true))). { rewrite <- S0. eapply sl_keep; [exact C1|exact Lp|intros H; apply P0; now right|]. intros H. apply P0. left. auto. }
    destruct (set_used_ok h1 p _ _ _ _ 0 S1) as (h2 & E2 & S2 & L2 & C2 & K2). exists h2, (Ve (Some b) 0 cap true), [b]. split; [exact E2|]. split; [exact S2|]. split; [|split; [|split]].
    + apply (rebuild t p h2 b 0 cap [] (repeat None (length os) ++ sp) [] []); auto; [lia| | | |constructor].
      * rewrite K2; [exact E1|]. intros ->. apply P0. now left.
      * cbn. rewrite app_length, repeat_length. lia.
      * apply Forall_app. split; [apply plain_raw|exact Pl].
    + constructor; [intros []|constructor].
    + intros [H|[]]. apply P0. now left.
    + eapply chg_trans; [|apply C2]. eapply chg_weak; [exact C1| | | | |]; cbn; try tauto. intros c i ->. auto.
  - destruct R as (-> & -> & -> & ->). cbn [loop bind]. destruct (set_used_ok h p _ _ _ _ 0 S0) as (h2 & E2 & S2 & L2 & C2 & K2). exists h2, (Ve None 0 0 false), [].
    split; [exact E2|]. split; [exact S2|]. split; [cbn; repeat split; lia|]. split; [constructor|]. split; [intros []|apply C2].
Qed.
Lemma erase_ok k : k < length vs -> becomes (erase t h p k) (VL (firstn k vs ++ skipn (k + 1) vs)).
Proof.
  intros Hk. pose proof Lp as Lp. destruct o as [x|el used cap self]; cbn [DmemSpec.rep] in R0; [contradiction|]. destruct R0 as (U & Su & R). unfold erase. rewrite (rdv_ok _ _ _ _ _ _ S0). cbn [bind].
  destruct (Nat.leb_spec used k); [lia|]. destruct el as [b|]; [|destruct R as (R & _); lia].
  destruct R as (-> & os & sp & Fs & Eb & Ec & Pl & -> & Es). apply NoDup_cons_iff in N0 as [Nb Nd]. destruct (e3_len _ _ _ _ Es) as [Lo Lf].
  destruct (nth_error vs k) as [v|] eqn:Ev; [|apply nth_error_None in Ev; lia].
  destruct (e3_split _ k _ _ _ _ Es Ev) as (o1 & x & o2 & v1 & v2 & F1 & Fx & F2 & -> & -> & -> & K1 & K2 & K3 & Es1 & Rx & Es2). clear Ev.
  assert (Ev : firstn k (v1 ++ v :: v2) ++ skipn (k + 1) (v1 ++ v :: v2) = v1 ++ v2).
  { rewrite <- K2. rewrite firstn_app, Nat.sub_diag, firstn_all, firstn_O, app_nil_r. f_equal. rewrite skipn_app, skipn_all2 by lia. replace (length v1 + 1 - length v1) with 1 by lia. reflexivity. }
  rewrite Ev. rewrite !app_length in *. cbn [length] in *. rewrite map_app in Eb. cbn [map] in Eb. rewrite <- app_assoc in Eb. cbn [app] in Eb.
  rewrite concat_app in Nd, Nb. cbn [concat] in Nd, Nb. rewrite !nodup_app in Nd. rewrite !in_app_iff in Nb. destruct Nd as (Nd1 & (Nd2 & Nd3 & Nd4) & Nd5).
  assert (Nbp : fst p <> b) by (intros H1; apply P0; left; auto).
  assert (Np : ~ In (fst p) (concat F1) /\ ~ In (fst p) Fx /\ ~ In (fst p) (concat F2)).
  { rewrite concat_app in P0. cbn [concat In] in P0. rewrite !in_app_iff in P0. tauto. }
  destruct (e3_len _ _ _ _ Es2) as [Lo2 _].
  destruct (sink_loop b x o2 h (map Some o1) sp Eb) as (h1 & D1 & E1 & L1 & Kp1). rewrite map_length, K1 in D1. replace (used - 1 - k) with (length o2) by lia. rewrite D1. cbn [bind elem].
  assert (E1' : blk h1 b = Some ((map Some o1 ++ map Some o2) ++ Some x :: sp)) by (rewrite <- app_assoc; exact E1). pose proof (sl_at _ _ _ _ _ E1') as Sx.
  rewrite app_length, !map_length in Sx. replace (length o1 + length o2) with (used - 1) in Sx by lia.
  destruct (destroy_ok w t h1 (b, used - 1) x v Fx Sx) as (h2 & -> & S2 & L2 & C2); [|exact Nd2|cbn; tauto|].
  { eapply rep_agree; [exact Rx|]. intros c Hc. apply Kp1. intros ->. tauto. }
  cbn [bind]. assert (E2 : blk h2 b = Some (map Some (o1 ++ o2) ++ None :: sp)).
  { pose proof (chg_blk _ _ _ _ _ _ _ C2 ltac:(cbn; tauto) E1' S2) as K. cbn [fst snd] in K. replace (used - 1) with (length (map Some o1 ++ map Some o2)) in K by (rewrite app_length, !map_length; lia).
    rewrite upd_app in K. rewrite map_app. exact K. }
  assert (Sp : sl h2 p = Some (Some (Ve (Some b) used cap true))).
  { rewrite <- S0. transitivity (sl h1 p); [eapply sl_keep; [exact C2|lia|tauto|]|]. { intros H1. apply Nbp. rewrite H1. reflexivity. } unfold sl. rewrite Kp1 by auto. reflexivity. }
  destruct (set_used_ok h2 p _ _ _ _ (used - 1) Sp) as (h3 & E3 & S3 & L3 & C3 & K3'). exists h3, (Ve (Some b) (used - 1) cap true), (b :: concat (F1 ++ F2)).
  split; [exact E3|]. split; [exact S3|]. rewrite concat_app. split; [|split; [|split]].
  - rewrite <- concat_app. apply (rebuild t p h3 b (used - 1) cap (o1 ++ o2) (None :: sp) (v1 ++ v2)); auto.
    + rewrite app_length. lia.
    + lia.
    + rewrite K3' by auto. exact E2.
    + rewrite app_length. cbn. lia.
    + constructor; [exact I|exact Pl].
    + assert (Kc : forall c, In c (concat F1) \/ In c (concat F2) -> blk h3 c = blk h c).
      { intros c Hc. assert (Lc : c < length h) by (apply blk_lt; destruct Hc as [Hc|Hc]; [eapply rep_live_list; [exact Es1|exact Hc]|eapply rep_live_list; [exact Es2|exact Hc]]).
        assert (c <> b) by (intros ->; tauto). rewrite K3' by (intros ->; tauto). rewrite <- (Kp1 c) by auto. eapply chg_keep; [exact C2|lia| |].
        - intros Hx. destruct Hc as [Hc|Hc]; [apply (Nd5 c Hc); apply in_app_iff; auto|exact (Nd4 c Hx Hc)].
        - intros i [= -> _]. auto. }
      apply e3_app; eapply rep_agree_list; [exact Es1| |exact Es2|]; intros c Hc; apply Kc; auto.
  - constructor; [rewrite in_app_iff; tauto|]. apply nodup_app. split; [exact Nd1|]. split; [exact Nd3|]. intros c H1 H2. apply (Nd5 c H1). apply in_app_iff. auto.
  - cbn. rewrite in_app_iff. intros [H1|H1]; [auto|tauto].
  - eapply chg_trans; [|apply C3]. eapply chg_trans; [apply (chg_blocks h h1); [exact L1|intros c Hc; apply Kp1; intros ->; apply Hc; left; reflexivity]|].
    eapply chg_weak; [exact C2| | | | |]; rewrite ?concat_app; cbn [concat]; intros c; cbn; rewrite ?in_app_iff; try tauto.
    intros i [= -> _]. auto.
Qed.
Lemma pop_ok : vs <> [] -> becomes (pop_back t h p) (VL (removelast vs)).
Proof.
  intros Hv. pose proof Lp as Lp. destruct o as [x|el used cap self]; cbn [DmemSpec.rep] in R0; [contradiction|]. destruct R0 as (U & Su & R). unfold pop_back. rewrite (rdv_ok _ _ _ _ _ _ S0). cbn [bind].
  destruct (exists_last Hv) as (v1 & v & ->). rewrite app_length in U. cbn [length] in U. destruct used as [|n]; [lia|]. rewrite removelast_last.
  destruct el as [b|]; [|destruct R as (R & _); discriminate]. destruct R as (-> & os & sp & Fs & Eb & Ec & Pl & -> & Es). apply NoDup_cons_iff in N0 as [Nb Nd].
  assert (Ev : nth_error (v1 ++ [v]) (length v1) = Some v) by apply nth_app.
  destruct (e3_split _ _ _ _ _ _ Es Ev) as (o1 & x & o2 & v1' & v2 & F1 & Fx & F2 & -> & Ev1 & -> & K1 & K2 & K3 & Es1 & Rx & Es2). clear Ev.
  apply app_inj_length in Ev1 as [<- Ev2]; [|lia]. injection Ev2 as <-. inversion Es2; subst o2 F2. clear Es2.
  rewrite concat_app in *. cbn [concat] in *. rewrite app_nil_r in *. rewrite nodup_app in Nd. destruct Nd as (Nd1 & Nd2 & Nd3). rewrite in_app_iff in Nb. cbn [In] in P0. rewrite in_app_iff in P0.
  rewrite map_app in Eb. cbn [map] in Eb. rewrite <- app_assoc in Eb. cbn [app] in Eb. rewrite app_length in Ec. cbn [length] in Ec.
  destruct (set_used_ok h p _ _ _ _ n S0) as (h1 & -> & S1 & L1 & C1 & Kp1). cbn [bind elem]. assert (Nbp : fst p <> b) by (intros H1; symmetry in H1; tauto).
  assert (E1 : blk h1 b = Some (map Some o1 ++ Some x :: sp)) by (rewrite Kp1 by auto; exact Eb). pose proof (sl_at _ _ _ _ _ E1) as Sx. rewrite map_length in Sx. replace (length o1) with n in Sx by lia.
  destruct (destroy_ok w t h1 (b, n) x v Fx Sx) as (h2 & E2 & S2 & L2 & C2); [|exact Nd2|cbn; tauto|].
  { eapply rep_agree; [exact Rx|]. intros c Hc. apply Kp1. intros ->. tauto. }
  assert (B2 : blk h2 b = Some (map Some o1 ++ None :: sp)).
  { pose proof (chg_blk _ _ _ _ _ _ _ C2 ltac:(cbn; tauto) E1 S2) as K. cbn [fst snd] in K. replace n with (length (map Some o1)) in K by (rewrite map_length; lia). rewrite upd_app in K. exact K. }
  assert (Sp : sl h2 p = Some (Some (Ve (Some b) n cap true))). { rewrite <- S1. eapply sl_keep; [exact C2|lia|tauto|]. intros H1. apply Nbp. rewrite H1. reflexivity. }
  exists h2, (Ve (Some b) n cap true), (b :: concat F1). split; [exact E2|]. split; [exact Sp|]. split; [|split; [|split]].
  - apply (rebuild t p h2 b n cap o1 (None :: sp) v1); auto; [lia|lia|cbn; lia|constructor; [exact I|exact Pl]|]. eapply rep_agree_list; [exact Es1|]. intros c Hc.
    rewrite <- (Kp1 c) by (intros ->; tauto). eapply chg_keep; [exact C2| | |].
    + rewrite L1. apply blk_lt. eapply rep_live_list; [exact Es1|exact Hc].
    + intros H1. exact (Nd3 c Hc H1).
    + intros i [= -> _]. tauto.
  - constructor; [tauto|exact Nd1].
  - cbn. tauto.
  - eapply chg_trans; [apply C1|]. eapply chg_weak; [exact C2| | | | |]; intros c; cbn; rewrite ?in_app_iff; try tauto. intros i [= -> _]. auto.
Qed.

Lemma reserve_is n : (N.of_nat n <= 2 ^ (w - 1))%N -> becomes (reserve w t h p n) (VL vs).
Proof.
  intros Sn. destruct (reserve_ok w Hw t h p o vs F n S0 R0 N0 P0 Sn) as (h' & el & cap & self & F' & E & S & R & Nd & Np & C & _).
  exists h', (Ve el (length vs) cap self), F'. auto 10.
Qed.
Lemma scalar_plain h0 os vs0 Fs : each3 (rep h0 DS) os vs0 Fs -> Forall plain (map Some os) /\ concat Fs = [].
Proof.
  induction 1 as [|a b c la lb lc R E IH]; cbn; [auto|]. destruct IH as [P1 C1]. destruct a, b; cbn [DmemSpec.rep] in R; try contradiction. destruct R as (_ & ->). split; [constructor; [exact I|exact P1]|exact C1].
Qed.
Lemma resize_ok n : (N.of_nat n <= 2 ^ (w - 1))%N -> length vs <= n \/ t = DS -> becomes (resize w t h p n) (VL (firstn n vs ++ repeat (zero t) (n - length vs))).
Proof.
  intros Sn Hn. pose proof Lp as Lp. destruct (reserve_ok w Hw t h p o vs F n S0 R0 N0 P0 Sn) as (h1 & el & cap & self & F1 & E1 & S1 & R1 & Nd & Np & C1 & Lc).
  unfold resize. destruct o as [x|el0 used0 cap0 self0]; [destruct R0|]. rewrite (rdv_ok _ _ _ _ _ _ S0). cbn [bind]. rewrite E1. cbn [bind]. rewrite (rdv_ok _ _ _ _ _ _ S1). cbn [bind].
  cbn [DmemSpec.rep] in R1. destruct R1 as (_ & Su & R). destruct el as [b|].
  - destruct R as (-> & os & sp & Fs & Eb & Ec & Pl & -> & Es). destruct (e3_len _ _ _ _ Es) as [Lo Lf]. apply NoDup_cons_iff in Nd as [Nb Nd].
    assert (Nbp : fst p <> b) by (intros H1; apply Np; left; auto).
    destruct (init_loop b (match t with DS => Sc 0 | DV _ => empty_vec end) (n - length vs) h1 (map Some os) sp Eb) as (h2 & D2 & E2 & L2 & K2); [lia|].
    rewrite map_length, Lo in D2. rewrite D2. cbn [bind]. assert (S2 : sl h2 p = Some (Some (Ve (Some b) (length vs) cap true))) by (unfold sl; rewrite K2 by auto; exact S1).
    destruct (set_used_ok h2 p _ _ _ _ n S2) as (h3 & E3 & S3 & L3 & C3 & K3). set (z := match t with DS => Sc 0 | DV _ => empty_vec end) in *.
    assert (Kc : forall c, In c (concat Fs) -> blk h3 c = blk h1 c).
    { intros c Hc. rewrite K3, K2; auto; [intros ->; auto|]. intros ->. apply Np. now right. }
    assert (Ez : forall m, each3 (rep h3 t) (repeat z m) (repeat (zero t) m) (repeat [] m)).
    { induction m; cbn; constructor; auto. unfold z. destruct t; cbn; repeat split; auto. lia. }
    assert (Cz : forall m, concat (repeat (@nil nat) m) = []) by (induction m; auto).
    assert (C4 : chg h h3 (only p) F (b :: concat Fs)).
    { eapply chg_trans; [exact C1|]. eapply chg_trans; [|apply C3]. apply chg_blocks; [lia|]. intros c Hc. apply K2. intros ->. apply Hc. now left. }
    exists h3, (Ve (Some b) n cap true), (b :: concat Fs). split; [exact E3|]. split; [exact S3|]. split; [|split; [constructor; auto|split; [exact Np|exact C4]]].
    destruct (le_lt_dec (length vs) n) as [Le|Gt].
    + replace (concat Fs) with (concat (Fs ++ repeat [] (n - length vs))) by (rewrite concat_app, Cz, app_nil_r; reflexivity).
      apply (rebuild t p h3 b n cap (os ++ repeat z (n - length vs)) (skipn (n - length vs) sp)).
      * exact S3.
      * rewrite app_length, firstn_length, repeat_length. lia.
      * exact Sn.
      * rewrite K3 by auto. rewrite E2, map_app, <- app_assoc. do 3 f_equal. clear. induction (n - length vs); cbn; congruence.
      * rewrite app_length, repeat_length, skipn_length. lia.
      * rewrite <- (firstn_skipn (n - length vs) sp) in Pl. apply Forall_app in Pl. apply Pl.
      * rewrite firstn_all2 by lia. apply e3_app; [|apply Ez]. eapply rep_agree_list; [exact Es|exact Kc].
    + destruct Hn as [Hn| ->]; [lia|]. replace (n - length vs) with 0 in * by lia. cbn [repeat skipn app] in *. rewrite app_nil_r. destruct (scalar_plain _ _ _ _ Es) as [Po Cs].
      assert (Es3 : each3 (rep h3 DS) os vs Fs) by (eapply rep_agree_list; [exact Es|exact Kc]).
      assert (Esn : forall m os vs Fs, each3 (rep h3 DS) os vs Fs -> each3 (rep h3 DS) (firstn m os) (firstn m vs) (firstn m Fs)).
      { clear. induction m; intros os vs Fs E; [constructor|]. destruct E; cbn; constructor; auto. }
      specialize (Esn n _ _ _ Es3). assert (Cn : concat (firstn n Fs) = []) by (destruct (scalar_plain _ _ _ _ Esn); auto).
      rewrite Cs. rewrite <- Cn. apply (rebuild DS p h3 b n cap (firstn n os) (skipn n (map Some os) ++ sp)).
      * exact S3.
      * rewrite firstn_length. lia.
      * exact Sn.
      * rewrite K3 by auto. rewrite E2, app_assoc. do 2 f_equal. rewrite <- firstn_map. symmetry. apply firstn_skipn.
      * rewrite app_length, firstn_length, skipn_length, map_length. lia.
      * apply Forall_app. split; [|exact Pl]. rewrite <- (firstn_skipn n (map Some os)) in Po. apply Forall_app in Po. apply Po.
      * exact Esn.
  - destruct R as (U & -> & -> & ->). destruct vs; [|discriminate]. assert (n = 0) as -> by lia. cbn [length loop bind Nat.sub].
    destruct (set_used_ok h1 p _ _ _ _ 0 S1) as (h3 & E3 & S3 & L3 & C3 & K3). exists h3, (Ve None 0 0 false), []. split; [exact E3|]. split; [exact S3|]. split; [cbn; repeat split; lia|].
    split; [constructor|]. split; [intros []|]. eapply chg_trans; [exact C1|apply C3].
Qed.

Section Two.
Variables (src : place) (os : obj) (x : val) (Fs : list nat).
Hypothesis Ss : sl h src = Some (Some os).
Hypothesis Rs : rep h t os x Fs.
Hypothesis Ns : NoDup Fs.
Hypothesis Sp : src <> p.
Hypothesis Ps : ~ In (fst p) Fs.
Hypothesis Sf : ~ In (fst src) F.
Hypothesis Sg : ~ In (fst src) Fs.
Hypothesis Dj : forall c, In c F -> ~ In c Fs.
Notation becomes2 := (becomes2 (DV t) t h p F src os Fs).

Lemma push_ok move : (N.of_nat (length vs + 1) <= 2 ^ (w - 1))%N -> becomes2 move (push_back w t h p src move) (VL (vs ++ [x])).
Proof.
  intros Sn. pose proof Lp as Lp. destruct (reserve_ok w Hw t h p o vs F (length vs + 1) S0 R0 N0 P0 Sn) as (h1 & el & cap & self & F1 & E1 & S1 & R1 & Nd & Np & C1 & Lc).
  unfold push_back. destruct o as [y|el0 used0 cap0 self0]; [destruct R0|]. rewrite (rdv_ok _ _ _ _ _ _ S0). cbn [bind]. assert (used0 = length vs) as -> by (cbn [DmemSpec.rep] in R0; apply R0).
  rewrite E1. cbn [bind]. rewrite (rdv_ok _ _ _ _ _ _ S1). cbn [bind]. cbn [DmemSpec.rep] in R1. destruct R1 as (_ & Su & R). destruct el as [b|]; [|destruct R as (_ & -> & _); lia].
  destruct R as (-> & ov & sp & Fv & Eb & Ec & Pl & -> & Es). destruct (e3_len _ _ _ _ Es) as [Lo Lf]. destruct sp as [|s sp]; [cbn in Ec; lia|]. inversion Pl; subst x0 l. rename H1 into Ps1. rename H2 into Ps2.
  apply NoDup_cons_iff in Nd as [Nb Nd]. assert (Nbp : fst p <> b) by (intros H1; apply Np; left; auto). cbn [In] in Np.
  assert (Ls : fst src < length h) by (eapply sl_lt; exact Ss). assert (Lh : length h <= length h1) by apply (c_len _ _ _ _ _ C1).
  assert (LFs : forall c, In c Fs -> c < length h) by (intros c Hc; apply blk_lt; eapply rep_live; eassumption).
  assert (InF : forall c, In c (b :: concat Fv) -> In c F \/ length h <= c) by apply (c_in _ _ _ _ _ C1).
  assert (Ns1 : ~ In (fst src) (b :: concat Fv)) by (intros H1; destruct (InF _ H1) as [H2|H2]; [tauto|lia]).
  assert (Dj1 : forall c, In c Fs -> ~ In c (b :: concat Fv)) by (intros c Hc H1; destruct (InF _ H1) as [H2|H2]; [exact (Dj c H2 Hc)|apply LFs in Hc; lia]).
  cbn [In] in Ns1. assert (Ss1 : sl h1 src = Some (Some os)) by (rewrite <- Ss; eapply sl_keep; [exact C1|lia|exact Sf|exact Sp]).
  assert (Rs1 : rep h1 t os x Fs).
  { eapply rep_agree; [exact Rs|]. intros c Hc. eapply chg_keep; [exact C1|apply LFs; exact Hc|intros H1; exact (Dj c H1 Hc)|]. intros i H1. apply Ps. rewrite <- H1. exact Hc. }
  pose proof (sl_at _ _ _ _ _ Eb) as Sd. rewrite map_length, Lo in Sd. cbn [elem bind].
  assert (LFv : forall c, In c (concat Fv) -> c < length h1) by (intros c Hc; apply blk_lt; eapply rep_live_list; [exact Es|exact Hc]).
  assert (Nsd : src <> (b, length vs)) by (intros ->; apply Ns1; left; reflexivity).
  destruct move.
  - destruct (move_ok t h1 src (b, length vs) os s Ss1 Sd Nsd) as (h2 & -> & Q2 & S2 & L2 & C2).
    { destruct t, os; try exact I. destruct x; exact Rs1. }
    cbn [bind]. assert (B2 : blk h2 b = Some (map Some ov ++ Some os :: sp)).
    { assert (K : chg h1 h2 (fun q => q = (b, length vs)) [] [] \/ True) by auto. clear K. assert (Lb : b < length h1) by (apply blk_lt; congruence).
      destruct (c_frame _ _ _ _ _ C2 b Lb ltac:(intros [])) as [G1 G2]. unfold blen in G1. rewrite Eb in G1. destruct (blk h2 b) as [l|] eqn:E2; [|discriminate]. injection G1 as G1. f_equal.
      apply list_ext. intros i. destruct (Nat.eq_dec i (length vs)) as [->|Ni].
      - unfold sl in S2. cbn [fst snd] in S2. rewrite E2 in S2. rewrite S2. rewrite <- Lo, <- (map_length Some ov). symmetry. apply nth_app.
      - specialize (G2 i). unfold sl in G2. cbn [fst snd] in G2. rewrite E2, Eb in G2. rewrite G2.
        + destruct (lt_dec i (length ov)) as [Li|Li]; [rewrite !nth_error_app1 by (rewrite map_length; lia); reflexivity|]. rewrite !nth_error_app2 by (rewrite map_length; lia). rewrite map_length.
          destruct (i - length ov) eqn:Ei; [lia|reflexivity].
        + intros [H1|H1]; [apply Ns1; left; rewrite <- H1; reflexivity|congruence]. }
    assert (Sp2 : sl h2 p = Some (Some (Ve (Some b) (length vs) cap true))).
    { rewrite <- S1. eapply sl_keep; [exact C2|lia|intros []|]. intros [H1|H1]; [auto|]. apply Nbp. rewrite H1. reflexivity. }
    destruct (set_used_ok h2 p _ _ _ _ (length vs + 1) Sp2) as (h3 & E3 & S3 & L3 & C3 & K3). exists h3, (Ve (Some b) (length vs + 1) cap true), (b :: concat (Fv ++ [Fs])).
    assert (Kc : forall c, c < length h1 -> c <> b -> c <> fst src -> c <> fst p -> blk h3 c = blk h1 c).
    { intros c Hc H1 H2 H3. rewrite K3 by auto. eapply chg_keep; [exact C2|exact Hc|intros []|]. intros i [H4|H4]; [apply H2; rewrite <- H4; reflexivity|injection H4; auto]. }
    split; [exact E3|]. split; [exact S3|]. split; [|rewrite concat_app; cbn [concat]; rewrite app_nil_r; split; [|split; [|split; [|split]]]].
    + apply (rebuild t p h3 b (length vs + 1) cap (ov ++ [os]) sp); auto.
      * rewrite app_length. reflexivity.
      * rewrite K3 by auto. rewrite B2, map_app, <- app_assoc. reflexivity.
      * rewrite app_length. cbn in Ec |- *. lia.
      * apply e3_app; [|constructor; [|constructor]].
        -- eapply rep_agree_list; [exact Es|]. intros c Hc. apply Kc; [apply LFv; exact Hc|intros ->; auto|intros ->; tauto|intros ->; tauto].
        -- eapply rep_agree; [exact Rs1|]. intros c Hc. apply Kc; [apply LFs in Hc; lia|intros ->; exact (Dj1 b Hc (or_introl eq_refl))|intros ->; auto|intros ->; auto].
    + constructor; [|apply nodup_app; split; [exact Nd|split; [exact Ns|]]].
      * rewrite in_app_iff. intros [H1|H1]; [auto|exact (Dj1 b H1 (or_introl eq_refl))].
      * intros c H1 H2. exact (Dj1 c H2 (or_intror H1)).
    + cbn. rewrite in_app_iff. tauto.
    + cbn. rewrite in_app_iff. tauto.
    + intros _. rewrite <- Q2. eapply sl_keep; [apply (C3 [])|lia|intros []|exact Sp].
    + eapply chg_trans; [apply chg_more; eapply chg_mono; [|exact C1]; auto|]. eapply chg_trans; [|eapply chg_mono; [|apply C3]; auto].
      eapply chg_weak; [exact C2| | | | |]; intros c; cbn; rewrite ?in_app_iff; try tauto. intros i [H1|H1]; [auto|]. injection H1 as -> _. auto.
  - destruct (copy_ok w Hw t h1 src (b, length vs) os x Fs s Ss1 Rs1 Sd Nsd) as (h2 & o' & Fn & -> & S2 & R2 & Nn & C2); [cbn; intros H1; exact (Dj1 b H1 (or_introl eq_refl))|].
    cbn [bind]. pose proof (chg_blk _ _ _ _ _ _ _ C2 ltac:(intros []) Eb S2) as B2. cbn [fst snd] in B2. replace (length vs) with (length (map Some ov)) in B2 by (rewrite map_length; lia). rewrite upd_app in B2.
    assert (LFn : forall c, In c Fn -> length h1 <= c) by (intros c Hc; destruct (c_in _ _ _ _ _ C2 c Hc) as [[]|H1]; exact H1).
    assert (Sp2 : sl h2 p = Some (Some (Ve (Some b) (length vs) cap true))).
    { rewrite <- S1. eapply sl_keep; [exact C2|lia|intros []|]. intros H1. apply Nbp. rewrite H1. reflexivity. }
    destruct (set_used_ok h2 p _ _ _ _ (length vs + 1) Sp2) as (h3 & E3 & S3 & L3 & C3 & K3). exists h3, (Ve (Some b) (length vs + 1) cap true), (b :: concat (Fv ++ [Fn])).
    split; [exact E3|]. split; [exact S3|]. split; [|rewrite concat_app; cbn [concat]; rewrite app_nil_r; split; [|split; [|split; [|split]]]].
    + apply (rebuild t p h3 b (length vs + 1) cap (ov ++ [o']) sp); auto.
      * rewrite app_length. reflexivity.
      * rewrite K3 by auto. rewrite B2, map_app, <- app_assoc. reflexivity.
      * rewrite app_length. cbn in Ec |- *. lia.
      * apply e3_app; [|constructor; [|constructor]].
        -- eapply rep_agree_list; [exact Es|]. intros c Hc. rewrite K3 by (intros ->; tauto). eapply chg_keep; [exact C2|apply LFv; exact Hc|intros []|]. intros i [= -> _]. auto.
        -- eapply rep_agree; [exact R2|]. intros c Hc. apply K3. intros ->. apply LFn in Hc. lia.
    + assert (Lb : b < length h1) by (apply blk_lt; congruence). constructor; [|apply nodup_app; split; [exact Nd|split; [exact Nn|]]].
      * rewrite in_app_iff. intros [H1|H1]; [auto|]. apply LFn in H1. lia.
      * intros c H1 H2. apply LFn in H2. apply LFv in H1. lia.
    + cbn. rewrite in_app_iff. intros [H1|[H1|H1]]; [auto|tauto|]. apply LFn in H1. lia.
    + cbn. rewrite in_app_iff. intros [H1|[H1|H1]]; [tauto|tauto|]. apply LFn in H1. lia.
    + discriminate.
    + rewrite app_nil_r. eapply chg_trans; [eapply chg_mono; [|exact C1]; auto|]. eapply chg_trans; [|eapply chg_mono; [|apply C3]; auto].
      eapply chg_weak; [exact C2| | | | |]; intros c; cbn; rewrite ?in_app_iff; try tauto.
      * intros i [= -> _]. auto.
      * intros [H1|[H1|H1]]; auto.
Qed.
Lemma insert_ok move k : k <= length vs -> (N.of_nat (length vs + 1) <= 2 ^ (w - 1))%N -> becomes2 move (insert w t h p k src move) (VL (firstn k vs ++ x :: skipn k vs)).
Proof.
  intros Hk Sn. destruct (push_ok move Sn) as (h1 & o1 & F1 & E1 & S1 & R1 & N1 & Np1 & Ns1 & Q1 & C1). unfold insert.
  destruct o as [y|el0 used0 cap0 self0]; [destruct R0|]. rewrite (rdv_ok _ _ _ _ _ _ S0). cbn [bind]. assert (used0 = length vs) as -> by (cbn [DmemSpec.rep] in R0; apply R0).
  rewrite E1. cbn [bind]. destruct o1 as [y|el used cap self]; [destruct R1|]. rewrite (rdv_ok _ _ _ _ _ _ S1). cbn [bind]. cbn [DmemSpec.rep] in R1. destruct R1 as (U & Su & R).
  rewrite app_length in U. cbn [length] in U. destruct el as [b|]; [|destruct R as (R & _); lia]. destruct R as (-> & ov & sp & Fv & Eb & Ec & Pl & -> & Es).
  assert (Ev : nth_error (vs ++ [x]) (length vs) = Some x) by apply nth_app.
  destruct (e3_split _ _ _ _ _ _ Es Ev) as (oa & ox & ob & va & vb & Fa & Fx & Fb & -> & Ev1 & -> & K1 & K2 & K3 & Es1 & Rx & Es2). clear Ev.
  apply app_inj_length in Ev1 as [<- Ev2]; [|lia]. injection Ev2 as <-. inversion Es2; subst ob Fb. clear Es2.
  destruct (e3_cut _ k _ _ _ Es1) as [EA EB]. assert (Lp1 : fst p < length h1) by (eapply sl_lt; exact S1). assert (Nbp : fst p <> b) by (intros H1; apply Np1; left; auto).
  rewrite map_app in Eb. cbn [map] in Eb. rewrite <- (firstn_skipn k oa), map_app, <- !app_assoc in Eb. cbn [app] in Eb.
  destruct (rise_loop b ox (length vs) (skipn k oa) h1 0 (map Some (firstn k oa)) sp Eb) as (h2 & D2 & E2 & L2 & K2'); [rewrite map_length, firstn_length, skipn_length; lia|].
  rewrite skipn_length, K1 in D2. rewrite D2. set (Fn := b :: concat (firstn k Fa ++ Fx :: skipn k Fa)).
  assert (InF : forall c, In c Fn <-> In c (b :: concat (Fa ++ [Fx]))).
  { intros c. unfold Fn. cbn [In]. rewrite <- (firstn_skipn k Fa) at 3. rewrite !concat_app. cbn [concat]. rewrite !in_app_iff. cbn [In]. tauto. }
  exists h2, (Ve (Some b) used cap true), Fn. split; [reflexivity|]. assert (S2 : sl h2 p = Some (Some (Ve (Some b) used cap true))) by (unfold sl; rewrite K2' by auto; exact S1).
  split; [exact S2|]. apply NoDup_cons_iff in N1 as [Nb Nd].
  assert (Kc : forall c, In c (concat (Fa ++ [Fx])) -> blk h2 c = blk h1 c) by (intros c Hc; apply K2'; intros ->; auto).
  split; [|split; [|split; [|split; [|split]]]].
  - unfold Fn. apply (rebuild t p h2 b used cap (firstn k oa ++ ox :: skipn k oa) sp); auto.
    + rewrite app_length. cbn [length]. rewrite firstn_length, skipn_length. lia.
    + rewrite E2, map_app, <- app_assoc. reflexivity.
    + rewrite app_length in Ec |- *. cbn [length] in Ec |- *. rewrite firstn_length, skipn_length. lia.
    + apply e3_app; [|constructor].
      * eapply rep_agree_list; [exact EA|]. intros c Hc. apply Kc. rewrite concat_app, in_app_iff. left. rewrite <- (firstn_skipn k Fa), concat_app, in_app_iff. auto.
      * eapply rep_agree; [exact Rx|]. intros c Hc. apply Kc. rewrite concat_app, in_app_iff. right. cbn. rewrite app_nil_r. exact Hc.
      * eapply rep_agree_list; [exact EB|]. intros c Hc. apply Kc. rewrite concat_app, in_app_iff. left. rewrite <- (firstn_skipn k Fa), concat_app, in_app_iff. auto.
  - unfold Fn. rewrite concat_app in *. cbn [concat] in *. rewrite app_nil_r in *. rewrite <- (firstn_skipn k Fa), concat_app in Nd, Nb. constructor.
    + rewrite !in_app_iff in *. tauto.
    + rewrite !nodup_app in *. destruct Nd as ((A1 & A2 & A3) & A4 & A5). split; [exact A1|]. split; [split; [exact A4|split; [exact A2|]]|].
      * intros c H1 H2. apply (A5 c); [rewrite in_app_iff; auto|exact H1].
      * intros c H1. rewrite in_app_iff. intros [H2|H2]; [apply (A5 c); [rewrite in_app_iff; auto|exact H2]|exact (A3 c H1 H2)].
  - rewrite InF. exact Np1.
  - rewrite InF. exact Ns1.
  - intros Hm. rewrite <- (Q1 Hm). unfold sl. rewrite K2'; [reflexivity|]. intros H1. apply Ns1. left. auto.
  - eapply chg_trans; [exact C1|]. eapply chg_weak; [apply (chg_blocks h1 h2 (fun _ => False) [b] L2)| | | | |].
    + intros c Hc. apply K2'. intros ->. apply Hc. now left.
    + intros ? ? [].
    + intros c [<-|[]]. now left.
    + intros c [<-|[]]. apply InF. now left.
    + intros c H1 H2. exfalso. apply H2. apply InF. exact H1.
    + intros c Hc. left. apply InF. exact Hc.
Qed.
End Two.
End One.

(* ---- assignment of values of any type ---- *)
Lemma write_ok h p o v F y : sl h p = Some (Some o) -> rep h DS o v F -> becomes DS h p F (mod_ h p (Sc y)) (VS y).
Proof.
  intros S0 R0. destruct o, v; cbn [DmemSpec.rep] in R0; try contradiction. destruct R0 as (_ & ->). destruct (mod_ok h p _ (Sc y) S0) as (h1 & E1 & S1 & L1 & C1 & _).
  exists h1, (Sc y), []. split; [exact E1|]. split; [exact S1|]. split; [cbn; auto|]. split; [constructor|]. split; [intros []|exact C1].
Qed.
Section Assign.
Lemma copy_self_ok t h p o v F : sl h p = Some (Some o) -> rep h t o v F -> NoDup F -> ~ In (fst p) F -> becomes t h p F (copy_assign w t h p p) v.
Proof.
  intros S0 R0 N0 P0. destruct t as [|t']; cbn [copy_assign].
  - destruct o as [y|], v as [y'|]; cbn [DmemSpec.rep] in R0; try contradiction. destruct R0 as (-> & ->). rewrite (proj2 (rd_sl _ _ _) S0). cbn [bind].
    destruct (mod_ok h p _ (Sc y') S0) as (h1 & E1 & S1 & L1 & C1 & _). exists h1, (Sc y'), []. cbn. auto 10.
  - rewrite !Nat.eqb_refl. exists h, o, F. split; [reflexivity|]. do 4 (split; [assumption|]). apply chg_refl.
Qed.
Lemma move_self_ok t h p o v F : sl h p = Some (Some o) -> rep h t o v F -> NoDup F -> ~ In (fst p) F -> becomes t h p F (move_assign t h p p) (moved v).
Proof.
  intros S0 R0 N0 P0. pose proof (sl_lt _ _ _ S0) as Lp. destruct t as [|t']; cbn [move_assign].
  - destruct o as [y|], v as [y'|]; cbn [DmemSpec.rep] in R0; try contradiction. destruct R0 as (-> & ->). rewrite (proj2 (rd_sl _ _ _) S0). cbn [bind].
    destruct (mod_ok h p _ (Sc y') S0) as (h1 & E1 & S1 & L1 & C1 & _). exists h1, (Sc y'), []. cbn. auto 10.
  - destruct (destroy_ok w (DV t') h p o v F S0 R0 N0 P0) as (h1 & -> & S1 & L1 & C1). cbn [bind]. unfold init.
    destruct (wr_ok h1 p (Some empty_vec) None S1) as (h2 & -> & S2 & L2 & C2 & _). cbn [bind]. rewrite (proj2 (rd_sl _ _ _) S2). cbn [bind].
    destruct (mod_ok h2 p _ empty_vec S2) as (h3 & -> & S3 & L3 & C3 & _). cbn [bind]. destruct (mod_ok h3 p _ empty_vec S3) as (h4 & E4 & S4 & L4 & C4 & _). exists h4, empty_vec, []. split; [exact E4|]. split; [exact S4|].
    split; [destruct v as [|l]; [destruct o; destruct R0|]; cbn; repeat split; auto; lia|]. split; [constructor|]. split; [intros []|]. eapply chg_trans; [exact C1|]. eapply chg_trans; [exact C2|]. eapply chg_trans; [exact C3|exact C4].
Qed.
Variables (t : dty) (h : heap) (p : place) (o : obj) (v : val) (F : list nat).
Hypothesis S0 : sl h p = Some (Some o).
Hypothesis R0 : rep h t o v F.
Hypothesis N0 : NoDup F.
Hypothesis P0 : ~ In (fst p) F.
Variables (src : place) (os : obj) (x : val) (Fs : list nat).
Hypothesis Ss : sl h src = Some (Some os).
Hypothesis Rs : rep h t os x Fs.
Hypothesis Ns : NoDup Fs.
Hypothesis Sp : src <> p.
Hypothesis Ps : ~ In (fst p) Fs.
Hypothesis Sf : ~ In (fst src) F.
Hypothesis Sg : ~ In (fst src) Fs.
Hypothesis Dj : forall c, In c F -> ~ In c Fs.

Lemma move_assign_ok : becomes2 t t h p F src os Fs true (move_assign t h p src) x.
Proof.
  pose proof (sl_lt _ _ _ S0) as Lp. pose proof (sl_lt _ _ _ Ss) as Ls. destruct t as [|t']; cbn [move_assign].
  - destruct o as [y|], v as [y'|]; cbn [DmemSpec.rep] in R0; try contradiction. destruct R0 as (_ & ->). destruct os as [z|], x as [x0|]; cbn [DmemSpec.rep] in Rs; try contradiction. destruct Rs as (-> & ->).
    rewrite (proj2 (rd_sl _ _ _) Ss). cbn [bind]. destruct (mod_ok h p _ (Sc x0) S0) as (h1 & E1 & S1 & L1 & C1 & _). exists h1, (Sc x0), []. split; [exact E1|]. split; [exact S1|]. split; [cbn; auto|].
    split; [constructor|]. split; [intros []|]. split; [intros []|]. split; [|eapply chg_mono; [|exact C1]; auto].
    intros _. cbn [mv]. rewrite <- Ss. eapply sl_keep; [exact C1|exact Ls|intros []|exact Sp].
  - destruct (destroy_ok w (DV t') h p o v F S0 R0 N0 P0) as (h1 & -> & S1 & L1 & C1). cbn [bind]. unfold init.
    destruct (wr_ok h1 p (Some empty_vec) None S1) as (h2 & -> & S2 & L2 & C2 & _). cbn [bind].
    assert (Ss2 : sl h2 src = Some (Some os)).
    { rewrite <- Ss. transitivity (sl h1 src); [eapply sl_keep; [exact C2|lia|intros []|exact Sp]|]. eapply sl_keep; [exact C1|lia|exact Sf|exact Sp]. }
    rewrite (proj2 (rd_sl _ _ _) Ss2). cbn [bind]. destruct (mod_ok h2 p _ os S2) as (h3 & -> & S3 & L3 & C3 & _). cbn [bind].
    assert (Ss3 : sl h3 src = Some (Some os)) by (rewrite <- Ss2; eapply sl_keep; [exact C3|lia|intros []|exact Sp]).
    destruct (mod_ok h3 src _ empty_vec Ss3) as (h4 & E4 & S4 & L4 & C4 & _). exists h4, os, Fs. split; [exact E4|].
    assert (Lh : forall c, In c Fs -> c < length h) by (intros c Hc; apply blk_lt; eapply rep_live; eassumption).
    set (Q := fun q => q = p \/ (true = true /\ q = src)).
    assert (C : chg h h4 Q F []).
    { eapply chg_trans; [eapply chg_mono; [|exact C1]; unfold Q; auto|]. eapply chg_trans; [eapply chg_mono; [|exact C2]; unfold Q; auto|].
      eapply chg_trans; [eapply chg_mono; [|exact C3]; unfold Q; auto|]. eapply chg_mono; [|exact C4]; unfold Q; auto. }
    split; [rewrite <- S3; eapply sl_keep; [exact C4|lia|intros []|congruence]|]. split.
    + eapply rep_agree; [exact Rs|]. intros c Hc. eapply chg_keep; [exact C|apply Lh; exact Hc|intros H1; exact (Dj c H1 Hc)|].
      intros i [H1|[_ H1]]; [apply Ps|apply Sg]; rewrite <- H1; exact Hc.
    + split; [exact Ns|]. split; [exact Ps|]. split; [exact Sg|]. split; [intros _; exact S4|].
      eapply chg_weak; [apply (chg_more _ _ _ _ _ Fs C)| | | | |]; cbn [app]; try tauto. intros c Hc. rewrite in_app_iff. auto.
Qed.
Lemma copy_assign_ok : (match v with VL (_ :: _) => t = DV DS | _ => True end) -> becomes t h p F (copy_assign w t h p src) x.
Proof.
  intros Hv. pose proof (sl_lt _ _ _ S0) as Lp. pose proof (sl_lt _ _ _ Ss) as Ls. destruct t as [|t']; cbn [copy_assign].
  - destruct o as [y|], v as [y'|]; cbn [DmemSpec.rep] in R0; try contradiction. destruct R0 as (_ & ->). destruct os as [z|], x as [x0|]; cbn [DmemSpec.rep] in Rs; try contradiction. destruct Rs as (-> & ->).
    rewrite (proj2 (rd_sl _ _ _) Ss). cbn [bind]. destruct (mod_ok h p _ (Sc x0) S0) as (h1 & E1 & S1 & L1 & C1 & _). exists h1, (Sc x0), []. split; [exact E1|]. split; [exact S1|]. split; [cbn; auto|].
    split; [constructor|]. split; [intros []|exact C1].
  - assert (LFs : forall c, In c Fs -> c < length h) by (intros c Hc; apply blk_lt; eapply (rep_live w (DV t')); [exact Rs|exact Hc]).
    destruct v as [y|l]; [destruct o; destruct R0|]. destruct os as [y|sel sused scap sself], x as [z|xs]; cbn [DmemSpec.rep] in Rs; try contradiction. destruct Rs as (Us & Sus & Rs').
    rewrite (place_ne p src Sp). rewrite (rdv_ok _ _ _ _ _ _ Ss). cbn [bind]. rewrite Us in Sus |- *.
    destruct (reserve_ok w Hw t' h p o l F (length xs) S0 R0 N0 P0 Sus) as (h1 & el & cap & self & F1 & E1 & S1 & R1 & Nd & Np & C1 & Lc).
    rewrite E1. cbn [bind]. rewrite (rdv_ok _ _ _ _ _ _ S1). cbn [bind].
    assert (K1 : forall c, In c Fs -> blk h1 c = blk h c).
    { intros c Hc. eapply chg_keep; [exact C1|apply LFs; exact Hc|intros H1; exact (Dj c H1 Hc)|]. intros i H1. apply Ps. rewrite <- H1. exact Hc. }
    pose proof (c_len _ _ _ _ _ C1) as Lh. cbn [DmemSpec.rep] in R1. destruct R1 as (_ & _ & R1). destruct el as [b'|].
    + destruct R1 as (-> & ov & sp & Fv & Eb & Ec & Pl & -> & Es). destruct (e3_len _ _ _ _ Es) as [Lo Lf].
      assert (HP : Forall plain (map Some ov) /\ concat Fv = []).
      { destruct l as [|l0 l]; [inversion Es; subst; split; constructor|]. cbn in Hv. injection Hv as ->. exact (scalar_plain _ _ _ _ Es). }
      destruct HP as [Po Cv]. rewrite Cv in *. assert (Nbp : fst p <> b') by (intros H1; apply Np; left; auto).
      destruct xs as [|x1 xs].
      * cbn [length loop bind]. destruct (set_used_ok h1 p _ _ _ _ 0 S1) as (h2 & E2 & S2 & L2 & C2 & K2). exists h2, (Ve (Some b') 0 cap true), [b']. split; [exact E2|]. split; [exact S2|].
        split; [|split; [exact Nd|split; [exact Np|]]].
        -- apply (rebuild t' p h2 b' 0 cap [] (map Some ov ++ sp) [] []); auto; [rewrite K2 by auto; exact Eb|rewrite app_length, map_length; exact Ec|apply Forall_app; auto|constructor].
        -- eapply chg_trans; [exact C1|apply C2].
      * destruct sel as [b|]; [|destruct Rs' as (Rs' & _); cbn in Us; lia]. destruct Rs' as (-> & oo & ss & Fo & Ebo & Eco & Plo & -> & Eso). destruct (e3_len _ _ _ _ Eso) as [Loo Lfo].
        assert (Nbb : ~ In b' (b :: concat Fo)).
        { intros H1. destruct (c_in _ _ _ _ _ C1 b' (or_introl eq_refl)) as [H2|H2]; [exact (Dj b' H2 H1)|]. apply LFs in H1. lia. }
        assert (PW : forall sl0, In sl0 (skipn (length (x1 :: xs)) (map Some ov ++ sp)) -> plain sl0).
        { assert (A : Forall plain (map Some ov ++ sp)) by (apply Forall_app; auto). rewrite <- (firstn_skipn (length (x1 :: xs)) (map Some ov ++ sp)) in A. apply Forall_app in A. destruct A as [_ A].
          rewrite Forall_forall in A. exact A. }
        destruct (set_ok w t' (copy_ok w Hw t') h1 p oo (map Some ov ++ sp) (x1 :: xs) Fo b b' (length l) ss true cap) as (h2 & F2 & E2 & S2 & R2 & N2 & I2 & C2); auto.
        -- rewrite K1 by now left. exact Ebo.
        -- eapply rep_agree_list; [exact Eso|]. intros c Hc. apply K1. now right.
        -- rewrite app_length, map_length. lia.
        -- intros ->. apply Nbb. now left.
        -- intros H1. apply Nbb. now right.
        -- rewrite app_length, map_length. exact Ec.
        -- exists h2, (Ve (Some b') (length (x1 :: xs)) cap true), (b' :: F2). split; [exact E2|]. split; [exact S2|]. split; [exact R2|]. split; [exact N2|]. split.
           ++ intros [H1|H1]; [auto|]. apply I2 in H1. lia.
           ++ eapply chg_trans; [exact C1|exact C2].
    + destruct R1 as (U1 & -> & -> & ->). destruct xs; [|cbn in Lc; lia]. cbn [length loop bind]. destruct (set_used_ok h1 p _ _ _ _ 0 S1) as (h2 & E2 & S2 & L2 & C2 & K2).
      exists h2, (Ve None 0 0 false), []. split; [exact E2|]. split; [exact S2|]. split; [cbn; repeat split; auto; lia|]. split; [constructor|]. split; [intros []|]. eapply chg_trans; [exact C1|apply C2].
Qed.
End Assign.
End Ops.
