(* The converting reader on serialized buffers, and on native ones. *)
From Verif Require Import Base Bytes ArithModel HeaderModel HeaderSpec HeaderProofs HashModel HashBits HashInv
  SerialModel SerialSpec SerialMem SerialPost SerialSer SerialDeser SerialRead SerialFinal ConvModel ConvSpec ConvProofs.
Local Open Scope Z_scope.

Lemma at_base_bm B b : bytes_ok b -> bm (at_base B b).
Proof.
  intros Hb z x. unfold at_base. destruct (z <? B); [discriminate|]. intros H. apply nth_error_In in H.
  unfold bytes_ok in Hb. rewrite Forall_forall in Hb. now apply Hb.
Qed.

Lemma same_format_start m m' : same_format m m' -> data_start m' = data_start m.
Proof.
  unfold same_format. intros H. inversion_clear H as [|? ? H1 H2]. inversion_clear H2 as [|? ? H3 H4].
  inversion_clear H4 as [|? ? H5 H6]. inversion_clear H6 as [|? ? H7 H8]. inversion_clear H8 as [|? ? H9 _].
  unfold data_start, integrity_start. now rewrite H1, H3, H5, H7, H9.
Qed.
Lemma same_format_check m m' hb hb' th b : same_format m m' -> bytes_ok b -> check hb' m' th b = check hb m th b.
Proof.
  intros H Hb. rewrite !check_char by exact Hb. pose proof (same_format_start m m' H) as E. unfold val8.
  assert (Eo : is_mode_enabled m' SERIALIZE_BIG_ENDIAN = is_mode_enabled m SERIALIZE_BIG_ENDIAN).
  { unfold same_format in H. rewrite Forall_forall in H. apply H. cbn. tauto. }
  unfold same_format in H. inversion_clear H as [|? ? H1 H2]. inversion_clear H2 as [|? ? H3 H4].
  inversion_clear H4 as [|? ? H5 H6]. inversion_clear H6 as [|? ? H7 H8].
  rewrite E. unfold version_enabled. rewrite H1, H3, H5. unfold integrity_start. now rewrite Eo, H1, H3, H7.
Qed.
Lemma same_format_order m m' : same_format m m' ->
  is_mode_enabled m' SERIALIZE_BIG_ENDIAN = is_mode_enabled m SERIALIZE_BIG_ENDIAN.
Proof. unfold same_format. intros H. rewrite Forall_forall in H. apply H. cbn. tauto. Qed.


Section Top.
Variables (env : list ty) (A : Z) (t : ty).
Hypothesis Ht : types_ok A env t.
Hypothesis Hnc : no_cstring env t.
Variables (m th : N) (f : nat) (B : Z) (b : list N).
Hypothesis HB : 0 < B < 2 ^ 62.
Hypothesis Hlen : Z.of_nat (length b) < 2 ^ 62.
Hypothesis Hb : bytes_ok b.
Variable tab : N -> N -> N -> list N -> bool.
Hypothesis Htab : forall s c g l, tab s c g l = true -> ctrl_tab s c g l = true.
Let fb := is_mode_enabled m SERIALIZE_BIG_ENDIAN.
Let root := B + Z.of_nat (data_start m).
Let n := Z.of_nat (length b).

Lemma converts v tr hb0 : check hb0 m th b = Ok tt -> image_at env fb B b tab f t root v tr -> sep tr ->
  forall hb raw strict m', same_format m m' ->
  exists m1, convert env hb raw strict m' th f t B b = Ok (root, m1) /\
    host_image env hb raw B n m1 tab f t root v tr /\
    eff tr (at_base B b) m1.
Proof.
  intros Hck Hi Hs hb raw strict m' Hf. destruct Ht as (Hwf & _ & Hwt & Hsz). destruct Hnc as [Hc1 Hc2].
  inversion Hsz as [|? ? Hs1 Hs2]; subst.
  assert (Hfree : all_free env). { intros k. apply tyof_ok; [constructor|exact Hc2]. }
  assert (Hszn : forall k, size_of (tyof env k) < 2 ^ 62). { intros k. apply tyof_ok; [cbn; lia|exact Hs2]. }
  destruct (conv_good env A Hwf B (B + n) ltac:(lia) ltac:(unfold n; lia) hb fb raw (negb (is_mode_enabled m' UNCHECKED)) strict
              tab Htab Hszn Hfree f t Hwt Hc1 (at_base B b) root v tr (at_base_bm B b Hb) Hi Hs) as (m1 & E1 & E2 & E3).
  exists m1. split; [|split; [exact E3|exact E2]].
  unfold convert. rewrite (same_format_check m m' hb0 hb th b Hf Hb), Hck. cbn [bind].
  rewrite (same_format_start m m' Hf), (same_format_order m m' Hf). fold fb root n. now rewrite E1.
Qed.
End Top.

Lemma eff_outside env be B b tab f t a v tr m m1 :
  image_at env be B b tab f t a v tr -> eff tr m m1 -> outside_same B (Z.of_nat (length b)) m m1.
Proof.
  intros Hi [_ He] z Hz. apply He. intros (x & Hx & Hzx). apply Hz.
  apply dec_bounds in Hi. rewrite Forall_forall in Hi. unfold spans in Hx. apply in_flat_map in Hx as (e & He1 & He2).
  apply Hi in He1. destruct e; cbn in He2; try (destruct He2 as [<-|[]]); try (destruct He2; fail); cbn [in_buffer fst snd] in *; lia.
Qed.

(* any accepted buffer without sharing *)
Lemma converts_unshared env A t m th f B b v tr hb0 :
  types_ok A env t -> no_cstring env t -> bytes_ok b -> Z.of_nat (length b) < 2 ^ 62 -> 0 < B < 2 ^ 62 ->
  let root := B + Z.of_nat (data_start m) in
  check hb0 m th b = Ok tt ->
  image_at env (is_mode_enabled m SERIALIZE_BIG_ENDIAN) B b ctrl_tab f t root v tr -> unshared tr ->
  forall hb raw strict m', same_format m m' ->
  exists m1, convert env hb raw strict m' th f t B b = Ok (root, m1) /\
    host_image env hb raw B (Z.of_nat (length b)) m1 ctrl_tab f t root v tr /\
    outside_same B (Z.of_nat (length b)) (at_base B b) m1.
Proof.
  intros Ht Hn Hb Hl HB root Hc Hi Hs hb raw strict m' Hf.
  destruct (converts env A t Ht Hn m th f B b HB Hl Hb ctrl_tab ltac:(auto) v tr hb0 Hc Hi Hs hb raw strict m' Hf)
    as (m1 & E1 & E2 & E3).
  exists m1. split; [exact E1|]. split; [exact E2|]. eapply eff_outside; eassumption.
Qed.

Lemma converts_serialized env A t be_src rel src m th f a v tr out :
  types_ok A env t -> no_cstring env t -> total_mem src -> writer_mode m -> (th < W64)%N ->
  Z.of_nat (data_start m) mod align_of t = 0 ->
  graph_at env be_src rel src f t a v tr ->
  serialize env be_src rel m th src f t a = Ok out -> Z.of_nat (length out) < 2 ^ 62 ->
  forall B, 0 < B < 2 ^ 62 -> (A | B) ->
  forall hb raw strict m', same_format m m' ->
  let root := B + Z.of_nat (data_start m) in
  exists m1 tr', convert env hb raw strict m' th f t B out = Ok (root, m1) /\
    host_image env hb raw B (Z.of_nat (length out)) m1 clean_table f t root v tr' /\ mirrors tr tr' /\
    Forall (in_buffer B (B + Z.of_nat (length out))) tr' /\
    outside_same B (Z.of_nat (length out)) (at_base B out) m1.
Proof.
  intros Ht Hn Hs Hm Hth Hr Hg Ho Hl B HB HA hb raw strict m' Hf root.
  destruct (trip_apart env A t Ht be_src rel src Hs m th Hm Hth Hr f a v tr Hg out Ho Hl) as (Hb & Hc & H).
  destruct (H B HB HA) as ((tr' & Hi & Hmir & (Hsep & _) & _) & _).
  destruct (converts env A t Ht Hn m th f B out HB Hl Hb clean_table clean_accepted v tr' _ Hc Hi Hsep hb raw strict m' Hf)
    as (m1 & E1 & E2 & E3).
  exists m1, tr'. split; [exact E1|]. split; [exact E2|]. split; [exact Hmir|]. split; [|eapply eff_outside; eassumption].
  eapply dec_bounds. exact Hi.
Qed.

(* ---- a native file with offset pointers: nothing is written ---- *)
Lemma foldM_forM {I S} (g : I -> S -> res S) (h : I -> res unit) l s :
  (forall i, In i l -> g i s = (let* _ := h i in Ok s)) -> foldM g l s = (let* _ := forM h l in Ok s).
Proof.
  induction l as [|i l IH]; intros H; cbn [foldM forM bind]; [reflexivity|].
  rewrite (H i (or_introl eq_refl)). destruct (h i) as [[]| | |]; cbn [bind]; try reflexivity.
  apply IH. intros. apply H. now right.
Qed.
Lemma verify_cases c : verify c = if c then Ok tt else Throw.
Proof. now destruct c. Qed.

Section Native.
Variables (env : list ty) (be strict : bool) (from to : Z) (m : mem).
Notation CV f t a := (conv env be be false true strict from to f t m a).
Notation DS f t a := (deser env be strict m from to f t a).

Lemma swap_native m' a w : swap be be m' a w = Ok m'.
Proof. unfold swap. now rewrite Bool.eqb_reflx. Qed.
Lemma slot_native slot T : conv_slot be be false true strict from to m slot T = (let* _ := deser_optr be strict m from to slot T in Ok m).
Proof.
  unfold conv_slot, deser_optr, when, conv_ptr, check_slot. rewrite swap_native.
  destruct (check_raw from to slot 8 8) as [[]| | |]; reflexivity.
Qed.
Lemma hloop_native (g : nat -> mem -> res mem) (h : nat -> res unit) c cap ctrl :
  length ctrl = (cap + 9)%nat -> Forall ctrl_ok ctrl -> cb ctrl cap = END ->
  (forall i, (i < cap)%nat -> is_empty (cb ctrl i) || is_full (cb ctrl i) || is_deleted (cb ctrl i) = true) ->
  rdn m c (cap + 9) = Some ctrl ->
  (forall i, g i m = (let* _ := h i in Ok m)) ->
  forall k i, (i <= cap)%nat -> (cap - i < k)%nat -> (i = cap \/ is_full (cb ctrl i) = true) ->
  hloop g c cap k i m = (let* _ := forM h (filter (full_at ctrl) (seq i (cap - i))) in Ok m).
Proof.
  intros Hlen Hok Hend Hfront Hct Hg. induction k as [|k IH]; intros i Hi Hk Hc; [lia|]. cbn [hloop].
  destruct (Nat.eqb_spec i cap) as [->|Ne]; [now rewrite Nat.sub_diag|].
  destruct Hc as [Hc|Hc]; [lia|]. rewrite Hg. replace (cap - i)%nat with (S (cap - (i + 1)))%nat by lia. cbn [seq filter].
  rewrite (full_cb ctrl cap Hlen Hend Hfront i) by lia. rewrite Hc. cbn [forM]. destruct (h i) as [[]| | |]; cbn [bind]; try reflexivity.
  unfold ctrl_at, dbytes. rewrite Hct. cbn [bind]. unfold next_. cbn [t_cap].
  destruct (skip_ok ctrl cap Hlen Hok Hend Hfront (S cap) (i + 1)%nat ltac:(lia) ltac:(lia)) as (j & -> & Hj & P & R). cbn [bind].
  rewrite (IH j ltac:(lia) ltac:(lia) R). do 2 f_equal. replace (S i) with (i + 1)%nat by lia. symmetry.
  now rewrite (filter_jump ctrl cap Hlen Hend Hfront (i + 1)%nat j ltac:(lia) P).
Qed.

Lemma native f : forall t a, CV f t a = (let* _ := DS f t a in Ok m).
Proof.
  induction f as [|f IH]; intros t a; [reflexivity|]. cbn [conv deser]. unfold when at 1.
  destruct (check_raw from to a (size_of t) (align_of t)) as [[]| | |]; cbn [bind]; try reflexivity.
  destruct t.
  - apply swap_native.
  - reflexivity.
  - unfold conv_ptr. rewrite swap_native. cbn [bind]. reflexivity.
  - apply foldM_forM. intros i _. apply IH.
  - destruct (check_bool be m a) as [v| | |]; cbn [bind]; try reflexivity. destruct (v =? 0); [reflexivity|apply IH].
  - destruct (dint be m a 1) as [i| | |]; cbn [bind when]; try reflexivity.
    destruct (verify _) as [[]| | |]; cbn [bind]; try reflexivity. destruct (nth_error ts (Z.to_nat i)); [apply IH|reflexivity].
  - rewrite slot_native. destruct (deser_optr _ _ _ _ _ _ _) as [[]| | |]; cbn [bind]; try reflexivity.
    cbn [when]. unfold cptr. destruct (check_bool be m (a + 8)) as [b| | |]; cbn [bind]; try reflexivity.
    destruct (verify (b =? 0)) as [[]| | |]; cbn [bind]; try reflexivity.
    destruct (dptr be strict m a) as [[q|]| | |]; cbn [bind]; try reflexivity. apply IH.
  - rewrite slot_native. destruct (deser_optr _ _ _ _ _ _ _) as [[]| | |]; cbn [bind]; try reflexivity.
    rewrite !swap_native. cbn [bind]. rewrite swap_native. cbn [bind when]. unfold check_vec, check_slot, cptr.
    destruct (dint be m (a + 8 + Z.of_nat w) w) as [alloc| | |]; cbn [bind]; try reflexivity.
    destruct (checked_multiplication _ _ _) as [k| | |]; cbn [bind]; try reflexivity.
    destruct (check_optr _ _ _ _ _ _ k _) as [[]| | |]; cbn [bind]; try reflexivity.
    destruct (check_bool _ _ _) as [b| | |]; cbn [bind]; try reflexivity.
    destruct (verify (b =? 0)) as [[]| | |]; cbn [bind]; try reflexivity.
    destruct (dint be m (a + 8) w) as [used| | |]; cbn [bind]; try reflexivity.
    destruct (verify (alloc =? used)) as [[]| | |]; cbn [bind]; try reflexivity.
    destruct (dptr be strict m a) as [p| | |]; cbn [bind]; try reflexivity.
    rewrite verify_cases. destruct (Bool.eqb _ _) eqn:E; cbn [bind]; [|reflexivity].
    destruct p as [q|].
    + apply foldM_forM. intros i _. apply IH.
    + destruct (used =? 0); [reflexivity|discriminate].
  - destruct (dint be m a 1) as [b0| | |]; cbn [bind]; try reflexivity.
    assert (E : (let* m0 := if b0 =? 0 then let* m0 := conv_slot be be false true strict from to m (a + 8) (TInt 1) in swap be be m0 (a + 4) 4 else Ok m in
                 let* _ := when true (check_str be false strict from to m0 a) in Ok m0) =
                (let* _ := if b0 =? 0 then deser_optr be strict m from to (a + 8) (TInt 1) else Ok tt in
                 let* _ := check_str be false strict from to m a in Ok m)).
    { destruct (b0 =? 0); [|reflexivity]. rewrite slot_native.
      destruct (deser_optr _ _ _ _ _ _ _) as [[]| | |]; cbn [bind]; try reflexivity. rewrite swap_native. reflexivity. }
    rewrite E. destruct (b0 =? 0); [destruct (deser_optr be strict m from to (a + 8) (TInt 1)) as [[]| | |]; cbn [bind]; try reflexivity|cbn [bind]]; unfold check_str, check_slot, cptr; reflexivity.
  - reflexivity.
  - rewrite slot_native. destruct (deser_optr be strict m from to a _) as [[]| | |]; cbn [bind]; try reflexivity.
    rewrite slot_native. destruct (deser_optr be strict m from to (a + 8) _) as [[]| | |]; cbn [bind]; try reflexivity.
    rewrite swap_native. cbn [bind]. rewrite swap_native. cbn [bind]. rewrite swap_native. cbn [bind when].
    unfold check_hash, check_slot, cptr.
    destruct (dptr be strict m (a + 8)) as [pc| | |]; cbn [bind]; try reflexivity.
    destruct (verify match pc with None => false | _ => true end) as [[]| | |]; cbn [bind]; try reflexivity.
    destruct (dint be m (a + 24) 8) as [cap| | |] eqn:Ecap; cbn [bind]; try reflexivity.
    destruct (checked_multiplication _ _ _) as [bytes| | |]; cbn [bind]; try reflexivity.
    destruct (checked_addition ty_u64 cap _) as [c9| | |]; cbn [bind]; try reflexivity.
    destruct (checked_addition ty_u64 bytes _) as [tot| | |]; cbn [bind]; try reflexivity.
    destruct (check_optr be strict m from to a tot _) as [[]| | |]; cbn [bind]; try reflexivity.
    destruct (check_optr be strict m from to (a + 8) c9 1) as [[]| | |]; cbn [bind]; try reflexivity.
    destruct (dptr be strict m a) as [pe| | |]; cbn [bind]; try reflexivity.
    destruct (verify match pe, pc with Some e, Some c => _ | Some _, None => _ | None, _ => _ end) as [[]| | |]; cbn [bind]; try reflexivity.
    destruct (dint be m (a + 16) 8) as [size| | |]; cbn [bind]; try reflexivity.
    rewrite (verify_cases (Bool.eqb _ _)). destruct (Bool.eqb _ _) eqn:E6; cbn [bind]; [|reflexivity].
    destruct (check_bool be m (a + 40)) as [b| | |]; cbn [bind]; try reflexivity.
    destruct (verify (b =? 0)) as [[]| | |]; cbn [bind]; try reflexivity.
    destruct (dint be m (a + 32) 8) as [growth| | |]; cbn [bind]; try reflexivity.
    destruct pc as [c|]; [|reflexivity].
    destruct (dbytes m c (Z.to_nat (cap + 9))) as [ctrl| | |] eqn:Ect; cbn [bind]; try reflexivity.
    destruct (check_ctrl ctrl size cap growth) as [[]| | |] eqn:Ec; cbn [bind]; try reflexivity.
    assert (Hcap : 0 <= cap).
    { unfold dint in Ecap. destruct (dbytes m (a + 24) 8); cbn [bind] in Ecap; try discriminate. injection Ecap as <-. lia. }
    set (n0 := Z.to_nat cap) in *. replace (Z.to_nat (cap + 9)) with (n0 + 9)%nat in Ect by (unfold n0; lia).
    assert (Ect' : rdn m c (n0 + 9) = Some ctrl).
    { unfold dbytes in Ect. destruct (rdn m c (n0 + 9)); [congruence|discriminate]. }
    pose proof (rdn_length _ _ _ _ Ect') as Lct. replace cap with (Z.of_nat n0) in Ec by (unfold n0; lia).
    destruct (check_ctrl_facts ctrl n0 Lct size growth Ec) as (Q1 & Q2 & Q3).
    rewrite (slots_ok ctrl n0 Lct Q1 Q2 Q3). unfold ctrl_at. unfold dbytes at 1. rewrite Ect'. cbn [bind]. unfold begin_. cbn [t_cap].
    destruct (skip_ok ctrl n0 Lct Q1 Q2 Q3 (S n0) 0%nat ltac:(lia) ltac:(lia)) as (j & -> & Hj & P & R). cbn [bind].
    match goal with |- hloop ?g _ _ _ _ _ = _ => set (g0 := g) end.
    pose (h0 := fun i => match pe with None => UB | Some e => DS f (tyof env n) (e + Z.of_nat i * size_of (tyof env n)) end).
    assert (Hg : forall i, g0 i m = (let* _ := h0 i in Ok m)) by (intros i; unfold g0, h0; destruct pe; [apply IH|reflexivity]).
    rewrite (hloop_native g0 h0 c n0 ctrl Lct Q1 Q2 Q3 Ect' Hg) by (try lia; exact R). unfold h0.
    rewrite <- (filter_jump ctrl n0 Lct Q2 Q3 0 j ltac:(lia) P). rewrite Nat.sub_0_r. destruct pe as [e|]; [reflexivity|].
    destruct (Z.eqb_spec cap 0) as [->|]; [reflexivity|discriminate].
Qed.
End Native.

Lemma native_file env be strict m th f t B b : is_mode_enabled m SERIALIZE_BIG_ENDIAN = be -> is_mode_enabled m UNCHECKED = false ->
  convert env be false strict m th f t B b =
  (let* r := deserialize env be strict m th f t B b in Ok (r, at_base B b)).
Proof.
  intros E1 E2. unfold convert, deserialize. destruct (check be m th b) as [[]| | |]; cbn [bind]; try reflexivity.
  rewrite E1, E2. cbn [negb]. rewrite native.
  destruct (deser _ _ _ _ _ _ _ _ _) as [[]| | |]; reflexivity.
Qed.

(* the memory of a concrete run, without its normal form *)
Definition after (r : res (Z * mem)) : mem := match r with Ok (_, m) => m | _ => fun _ => None end.
Definition rooted (r : res (Z * mem)) : option Z := match r with Ok (a, _) => Some a | _ => None end.
Lemma after_ok r a : rooted r = Some a -> r = Ok (a, after r).
Proof. destruct r as [[x m]| | |]; cbn; try discriminate. intros H. now injection H as ->. Qed.
Definition out_of (r : res (list N)) : list N := match r with Ok l => l | _ => [] end.
Definition is_ok (r : res (list N)) : bool := match r with Ok _ => true | _ => false end.
Lemma out_ok r : is_ok r = true -> r = Ok (out_of r).
Proof. now destruct r. Qed.
