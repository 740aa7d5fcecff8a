(* Histories of assignments to a loaded object graph. *)
From Verif Require Import Base Bytes HeaderModel HeaderSpec HeaderProofs HashModel SerialModel SerialSpec SerialMem SerialPost SerialSer SerialRead SerialDeser SerialLimits SerialFinal
  ConvModel ConvSpec ConvProofs ConvTop MutModel MutSpec MutProofs.
Local Open Scope Z_scope.

Lemma retarget_app q : forall l s p sz al r, retarget (length (ptrs l)) q (l ++ PtrAt s p sz al :: r) = l ++ PtrAt s q sz al :: r.
Proof.
  induction l as [|e l IH]; intros s p sz al r; [reflexivity|].
  destruct e; cbn [ptrs flat_map app retarget length]; fold (ptrs l); f_equal; apply IH.
Qed.
Lemma spans_retarget : forall tr k q, spans (retarget k q tr) = spans tr.
Proof.
  induction tr as [|e tr IH]; intros k q; [reflexivity|].
  destruct e; cbn [retarget]; [|destruct k as [|k]| |]; try reflexivity;
    match goal with |- spans (?e :: ?a) = spans (?e :: ?b) => change (spans ([e] ++ a) = spans ([e] ++ b)) end; rewrite !spans_app, IH; reflexivity.
Qed.
Lemma touched_spans t t' z : spans t = spans t' -> touched t z -> touched t' z.
Proof. unfold touched. now intros ->. Qed.

Lemma of_int_bytes be w x : bytes_ok (of_int be w x).
Proof. unfold of_int. destruct be; [apply Forall_rev|]; apply le_enc_ok. Qed.

Section Step.
Variable env : list ty.
Variables (hb raw : bool) (B n : Z) (tab : N -> N -> N -> list N -> bool) (f : nat) (t : ty) (a : Z).
Notation R m := (plain hb m (negb raw) (Some (B, B + n)) tab).
Hypothesis HB : 0 < B.
Hypothesis Hn : B + n < 2 ^ 63.
Hypothesis Hsz : forall k, 0 <= size_of (tyof env k).

Lemma word_ok slot q : B <= slot <= B + n -> match q with None => True | Some q => B <= q <= B + n end ->
  ptr_of (negb raw) slot (to_int hb (of_int hb 8 (ptr_word raw slot q))) = q.
Proof.
  intros Hs Hq.
  assert (Hw : (ptr_word raw slot q < 256 ^ N.of_nat 8)%N).
  { change (256 ^ N.of_nat 8)%N with W64. unfold ptr_word. destruct q; [|destruct raw]; try apply u_of_z_bound. reflexivity. }
  rewrite to_of_int by exact Hw. unfold ptr_of, ptr_word. destruct q as [q|].
  - destruct raw; cbn [negb].
    + rewrite z_of_u_of_z by lia. destruct (Z.eqb_spec q 0); [lia|reflexivity].
    + rewrite z_of_u_of_z by lia. unfold NULLPTR_OFFSET. destruct (Z.eqb_spec (q - slot) (-9223372036854775808)); [lia|].
      unfold wrap_i64. rewrite z_of_u_of_z by lia. replace (slot + (q - slot)) with q by lia. destruct (Z.eqb_spec q 0); [lia|reflexivity].
  - destruct raw; cbn [negb]; [reflexivity|]. exact (ptr_word_null slot).
Qed.

Lemma assign_ok m v tr o v' tr' : dec env (R m) f t a = Some (v, tr) -> sep tr -> assigned env t B n (v, tr) o (v', tr') ->
  exists m', assign env hb raw m t a o = Ok m' /\ dec env (R m') f t a = Some (v', tr') /\ spans tr' = spans tr /\
    (forall z, ~ touched tr z -> m' z = m z) /\ (bm m -> bm m').
Proof.
  intros D S H. inversion H; subst; cbn [assign].
  - match goal with E : ty_at _ _ _ _ = _ |- _ => destruct (sub env hb raw (Some (B, B + n)) tab m p f t a v tr' _ D E) as (b & k & y & l & trx & r & P1 & P2 & P3 & P4 & P5) end.
    rewrite P1. cbn [bind]. eexists. split; [reflexivity|].
    destruct k as [|k]; [discriminate|]. cbn [dec] in P2. destruct (_ && _) eqn:G in P2; [|discriminate].
    destruct (rint _ b w) in P2; [|discriminate]. apply some_pair in P2 as [<- <-].
    subst tr'. pose proof (sep_app _ _ S) as (_ & S2 & S3). pose proof (sep_app _ _ S2) as (_ & _ & S4).
    assert (L : length (of_int hb w x) = w) by apply of_int_length.
    split; [|split; [reflexivity|]].
    + apply P5.
      * intros z [Hz|Hz]; apply put_mem_out; rewrite L; intros Hb.
        -- apply (S3 z Hz). apply touched_app. left. now apply touched_rd.
        -- refine (S4 z _ Hz). now apply touched_rd.
      * cbn [dec]. match goal with |- context [inside (R ?m') b ?n ?k] => change (inside (R m') b n k) with (inside (R m) b n k) end. rewrite G.
        unfold rint. cbn [plain r_mem r_be]. pose proof (put_mem_rdn m b (of_int hb w x)) as W. rewrite L in W. rewrite W.
        rewrite to_of_int by assumption. reflexivity.
    + split.
      * intros z Hz. apply put_mem_out. rewrite L. intros Hb. apply Hz. rewrite !touched_app. right; left. now apply touched_rd.
      * intros Hm. apply put_mem_bm; [exact Hm|apply of_int_bytes].
  - match goal with E : ty_at _ _ _ _ = _ |- _ => destruct (sub env hb raw (Some (B, B + n)) tab m p f t a v tr' _ D E) as (b & k & y & l0 & trx & r & P1 & P2 & P3 & P4 & P5) end.
    rewrite P1. cbn [bind]. rewrite Nat.eqb_refl. eexists. split; [reflexivity|].
    destruct k as [|k]; [discriminate|]. cbn [dec] in P2. destruct (_ && _) eqn:G in P2; [|discriminate].
    destruct (rdn _ b _) in P2; [|discriminate]. apply some_pair in P2 as [<- <-].
    subst tr'. pose proof (sep_app _ _ S) as (_ & S2 & S3). pose proof (sep_app _ _ S2) as (_ & _ & S4).
    split; [|split; [reflexivity|]].
    + apply P5.
      * intros z [Hz|Hz]; apply put_mem_out; intros Hb.
        -- apply (S3 z Hz). apply touched_app. left. now apply touched_rd.
        -- refine (S4 z _ Hz). now apply touched_rd.
      * cbn [dec]. match goal with |- context [inside (R ?m') b ?n ?k] => change (inside (R m') b n k) with (inside (R m) b n k) end. rewrite G.
        cbn [plain r_mem]. rewrite put_mem_rdn. reflexivity.
    + split.
      * intros z Hz. apply put_mem_out. intros Hb. apply Hz. rewrite !touched_app. right; left. now apply touched_rd.
      * intros Hm. now apply put_mem_bm.
  - match goal with E : ty_at _ _ _ _ = _ |- _ => destruct (sub env hb raw (Some (B, B + n)) tab m p f t a v' tr _ D E) as (b & j & y & l & trx & r & P1 & P2 & P3 & P4 & P5) end.
    rewrite P1. cbn [bind]. eexists. split; [reflexivity|].
    pose proof P2 as P2'. destruct j as [|j]; [discriminate|]. cbn [dec] in P2. destruct (_ && _) eqn:G in P2; [|discriminate].
    cbv zeta in P2. destruct (r_ptr _ b) as [p0|] in P2; [|discriminate]. destruct (match p0 with None => true | _ => _ end) in P2; [|discriminate].
    apply some_pair in P2 as [<- <-].
    assert (Ev : vset v' p VPtr = v').
    { specialize (P5 m VPtr _ ltac:(auto) P2'). rewrite <- P3, D in P5. congruence. }
    subst tr. pose proof (sep_app _ _ S) as (_ & S2 & S3). pose proof (sep_app _ _ S2) as (_ & _ & S4).
    set (w := of_int hb 8 (ptr_word raw b q)).
    assert (L : length w = 8%nat) by apply of_int_length.
    split; [|split; [apply spans_retarget|]].
    + rewrite <- P4. cbn [app]. rewrite retarget_app. rewrite <- Ev.
      match goal with |- _ = Some (_, _ ++ ?e :: _) => apply (P5 (put_mem m b w) VPtr [e]) end.
      * intros z [Hz|Hz]; apply put_mem_out; rewrite L; intros Hb.
        -- apply (S3 z Hz). apply touched_app. left. apply touched_ptr. lia.
        -- refine (S4 z _ Hz). apply touched_ptr. lia.
      * cbn [dec]. match goal with |- context [inside (R ?m') b ?n ?k] => change (inside (R m') b n k) with (inside (R m) b n k) end. rewrite G.
        cbv zeta. cbn [plain r_ptr]. pose proof (put_mem_rdn m b w) as W. rewrite L in W. rewrite W. unfold w.
        apply andb_prop in G as [_ G]. unfold inside in G. cbn [plain r_ck size_of align_of] in G.
        rewrite word_ok.
        -- replace (match q with None => true | Some q0 => inside _ q0 _ _ end) with true; [reflexivity|].
           destruct q as [q|]; [|reflexivity]. unfold inside. cbn [plain r_ck]. lia.
        -- lia.
        -- destruct q as [q|]; [|exact I]. specialize (Hsz k). lia.
    + split.
      * intros z Hz. apply put_mem_out. rewrite L. intros Hb. apply Hz. rewrite !touched_app. right; left. apply touched_ptr. lia.
      * intros Hm. apply put_mem_bm; [exact Hm|apply of_int_bytes].
Qed.
End Step.

Lemma vset_get : forall p v x y, vget v p = Some y -> vget (vset v p x) p = Some x.
Proof.
  induction p as [|s p IH]; intros v x y H; [reflexivity|].
  destruct s, v; cbn [vget vset] in *; try discriminate; try (eapply IH; eassumption).
  - destruct (nth_error l i) eqn:E; [|discriminate]. cbn [vget]. rewrite nth_error_upd_eq by (apply nth_error_Some; congruence). eapply IH; eassumption.
  - destruct (nth_error l i) eqn:E; [|discriminate]. cbn [vget]. rewrite nth_error_upd_eq by (apply nth_error_Some; congruence). eapply IH; eassumption.
  - destruct (nth_error l i) as [[z|]|] eqn:E; [|discriminate..]. cbn [vget]. rewrite nth_error_upd_eq by (apply nth_error_Some; congruence). eapply IH; eassumption.
Qed.
Lemma vset_other : forall p q, parted p q -> forall v x, vget (vset v p x) q = vget v q.
Proof.
  induction 1 as [s s' p q N|s p q _ IH]; intros v x.
  - destruct s, v; cbn [vset]; try reflexivity.
    all: try (destruct s'; cbn [vget]; try reflexivity; congruence).
    all: match goal with |- context [nth_error ?l ?i] => destruct (nth_error l i) as [[]|] eqn:E end; try reflexivity.
    all: destruct s'; cbn [vget]; try reflexivity; rewrite nth_error_upd_neq by congruence; reflexivity.
  - destruct s, v; cbn [vset vget]; try reflexivity; try apply IH.
    + destruct (nth_error l i) eqn:E; cbn [vget]; [|now rewrite E]. rewrite nth_error_upd_eq by (apply nth_error_Some; congruence). apply IH.
    + destruct (nth_error l i) eqn:E; cbn [vget]; [|now rewrite E]. rewrite nth_error_upd_eq by (apply nth_error_Some; congruence). apply IH.
    + destruct (nth_error l i) as [[z|]|] eqn:E; cbn [vget]; [|now rewrite E..]. rewrite nth_error_upd_eq by (apply nth_error_Some; congruence). apply IH.
Qed.

Lemma history env A t hb raw B n tab f a : types_ok A env t -> 0 < B -> B + n < 2 ^ 63 ->
  forall l m v tr v' tr', host_image env hb raw B n m tab f t a v tr -> unshared tr ->
  assignments env t B n (v, tr) l (v', tr') ->
  exists m', assign_all env hb raw m t a l = Ok m' /\ host_image env hb raw B n m' tab f t a v' tr' /\ places tr' = places tr /\
    (forall z, ~ member_byte tr z -> m' z = m z) /\ (bm m -> bm m').
Proof.
  intros Ht HB Hn. pose proof (types_pos A env t Ht) as Hp.
  induction l as [|o l IH]; intros m v tr v' tr' Hi Hs H.
  - inversion H; subst. exists m. cbn [assign_all]. auto.
  - inversion H as [|? ? [v1 tr1] ? ? Ho Hl]; subst.
    destruct (assign_ok env hb raw B n tab f t a HB Hn Hp m v tr o v1 tr1 Hi Hs Ho) as (m1 & E1 & E2 & E3 & E4 & E5).
    assert (Hs1 : unshared tr1). { unfold unshared. change (places tr1) with (spans tr1). rewrite E3. exact Hs. }
    destruct (IH m1 v1 tr1 v' tr' E2 Hs1 Hl) as (m' & F1 & F2 & F3 & F4 & F5).
    exists m'. cbn [assign_all]. rewrite E1. cbn [bind]. split; [exact F1|]. split; [exact F2|].
    split; [rewrite F3; exact E3|]. split; [|auto].
    intros z Hz. rewrite F4; [apply E4; exact Hz|]. intros (x & Hx & Hzx). apply Hz. exists x. split; [|exact Hzx].
    change (In x (spans tr1)) in Hx. rewrite E3 in Hx. exact Hx.
Qed.

Lemma members_inside env be B b tab f t a v tr : image_at env be B b tab f t a v tr -> forall z, member_byte tr z -> B <= z < B + Z.of_nat (length b).
Proof.
  intros Hi z (x & Hx & Hzx). apply dec_bounds in Hi. rewrite Forall_forall in Hi. unfold places in Hx. apply in_flat_map in Hx as (e & He1 & He2).
  apply Hi in He1. destruct e; cbn in He2; try (destruct He2 as [<-|[]]); try (destruct He2; fail); cbn [in_buffer fst snd] in *; lia.
Qed.

Lemma at_base_rdn m B k b : rdn m B k = Some b -> length b = k /\ forall z, B <= z < B + Z.of_nat k -> at_base B b z = m z.
Proof.
  intros H. pose proof (rdn_length _ _ _ _ H) as L. split; [exact L|]. intros z Hz. unfold at_base.
  replace (z <? B) with false by lia. rewrite <- (rdn_nth _ _ _ _ _ H) by lia. f_equal. lia.
Qed.
Lemma firstn_nth_eq : forall (l l' : list N) k, length l = length l' ->
  (forall i, (i < k)%nat -> (i < length l')%nat -> nth_error l i = nth_error l' i) -> firstn k l = firstn k l'.
Proof.
  induction l as [|x l IH]; intros [|y l'] [|k] L H; cbn in L; try discriminate; try reflexivity.
  cbn [firstn]. pose proof (H 0%nat ltac:(lia) ltac:(cbn; lia)) as H0. cbn in H0. injection H0 as <-. f_equal.
  apply IH; [lia|]. intros i Hi Hl. apply (H (S i)); cbn; lia.
Qed.

Lemma get_same (l l' : list N) k : length l = length l' -> firstn k l = firstn k l' -> (8 <= k)%nat -> get 0 8 l = get 0 8 l'.
Proof.
  intros L E H. unfold get. rewrite L. destruct (_ <=? _)%nat; [|reflexivity]. f_equal. unfold slice. cbn [skipn].
  replace 8%nat with (Nat.min 8 k) by lia. now rewrite <- !firstn_firstn, E.
Qed.
Lemma check_same hb m th l l' : is_mode_enabled m WITH_INTEGRITY = false -> length l = length l' ->
  firstn (data_start m) l = firstn (data_start m) l' -> check hb m th l = check hb m th l'.
Proof.
  intros Hi L E. unfold check. rewrite Hi, L.
  destruct (is_mode_enabled m WITH_VERSION || is_mode_enabled m WITH_STATIC_VERSION) eqn:V; [|reflexivity]. unfold hdr_read. rewrite (get_same l l' (data_start m) L E); [reflexivity|].
  unfold data_start, integrity_start. apply orb_prop in V as [V|V]; rewrite V; rewrite ?orb_true_r; cbn; lia.
Qed.

Section Saved.
Variables (env : list ty) (A : Z) (t : ty).
Hypothesis Ht : types_ok A env t.
Hypothesis Hnc : no_cstring env t.
Variables (be_src rel : bool) (src : mem).
Hypothesis Hsrc : total_mem src.
Variables (m th : N).
Hypothesis Hwm : writer_mode m.
Hypothesis Hth : (th < W64)%N.
Hypothesis Hroot : Z.of_nat (data_start m) mod align_of t = 0.
Variables (f : nat) (a : Z) (v : val) (tr : list ev).
Hypothesis Hg : graph_at env be_src rel src f t a v tr.
Variable out : list N.
Hypothesis Ho : serialize env be_src rel m th src f t a = Ok out.
Hypothesis Hl : Z.of_nat (length out) < 2 ^ 62.
Variable B : Z.
Hypothesis HB : 0 < B < 2 ^ 62.
Hypothesis HA : (A | B).
Let n := Z.of_nat (length out).
Let root := B + Z.of_nat (data_start m).
Let fb := is_mode_enabled m SERIALIZE_BIG_ENDIAN.

Lemma changed : exists tr', mirrors tr tr' /\ unshared tr' /\ (forall z, member_byte tr' z -> root <= z < B + n) /\
  forall hb raw strict m', same_format m m' -> exists m1,
  convert env hb raw strict m' th f t B out = Ok (root, m1) /\
  host_image env hb raw B n m1 clean_table f t root v tr' /\
  forall l v2 tr2, assignments env t B n (v, tr') l (v2, tr2) -> exists m2,
  assign_all env hb raw m1 t root l = Ok m2 /\
  host_image env hb raw B n m2 clean_table f t root v2 tr2 /\
  (forall z, ~ member_byte tr' z -> m2 z = at_base B out z) /\
  forall b, saved m2 B n b -> bytes_ok b /\ length b = length out /\ firstn (data_start m) b = firstn (data_start m) out /\
    (hb = fb -> raw = false -> image_at env fb B b clean_table f t root v2 tr2 /\ unshared tr2).
Proof.
  destruct (trip_apart env A t Ht be_src rel src Hsrc m th Hwm Hth Hroot f a v tr Hg out Ho Hl) as (Hb & Hc & H).
  destruct (H B HB HA) as ((tr' & Hi & Hmir & (Hsep & _) & Hst) & _). clear H.
  exists tr'. split; [exact Hmir|]. split; [exact Hsep|].
  assert (Hin : forall z, member_byte tr' z -> root <= z < B + n).
  { intros z Hz. pose proof (members_inside _ _ _ _ _ _ _ _ _ _ Hi z Hz) as K. split; [|apply K].
    destruct Hz as (x & Hx & Hzx). unfold starts in Hst. rewrite Forall_forall in Hst. specialize (Hst x Hx). unfold root. lia. }
  split; [exact Hin|]. intros hb raw strict m' Hf.
  destruct (converts env A t Ht Hnc m th f B out HB Hl Hb clean_table clean_accepted v tr' _ Hc Hi Hsep hb raw strict m' Hf)
    as (m1 & E1 & E2 & Ebm & E3).
  exists m1. split; [exact E1|]. split; [exact E2|]. intros l v2 tr2 Has.
  destruct (history env A t hb raw B n clean_table f root Ht ltac:(lia) ltac:(unfold n; lia) l m1 v tr' v2 tr2 E2 Hsep Has) as (m2 & F1 & F2 & F3 & F4 & F5).
  exists m2. split; [exact F1|]. split; [exact F2|].
  assert (Hsame : forall z, ~ member_byte tr' z -> m2 z = at_base B out z).
  { intros z Hz. rewrite F4 by exact Hz. apply E3. exact Hz. }
  split; [exact Hsame|].
  intros b Eb. unfold saved, n in Eb. rewrite Nat2Z.id in Eb.
  destruct (at_base_rdn m2 B (length out) b Eb) as (Elb & Ebz).
  split. { eapply rdn_bm; [|exact Eb]. auto. }
  split; [exact Elb|]. split.
  { apply firstn_nth_eq; [exact Elb|]. intros i Hlt Hlo.
    specialize (Ebz (B + Z.of_nat i) ltac:(lia)). rewrite Hsame in Ebz.
    - unfold at_base in Ebz. replace (B + Z.of_nat i <? B) with false in Ebz by lia.
      replace (Z.to_nat (B + Z.of_nat i - B)) with i in Ebz by lia. exact Ebz.
    - intros Hm. apply Hin in Hm. unfold root in Hm. lia. }
  intros -> ->. split; [|unfold unshared; rewrite F3; exact Hsep].
  unfold image_at. rewrite Elb. eapply dec_frame_plain; [exact F2|].
  intros z Hz. apply Ebz. enough (root <= z < B + n) by (unfold root, n in *; lia).
  apply Hin. destruct Hz as (x & Hx & Hzx). exists x. split; [|exact Hzx]. rewrite <- F3. exact Hx.
Qed.
End Saved.

(* saved again and loaded elsewhere *)
Lemma reloaded env A t m th f B n b v2 tr2 out hb0 :
  types_ok A env t -> no_cstring env t -> n = Z.of_nat (length out) -> n < 2 ^ 62 -> 0 < B < 2 ^ 62 ->
  is_mode_enabled m WITH_INTEGRITY = false -> check hb0 m th out = Ok tt -> bytes_ok b -> length b = length out -> firstn (data_start m) b = firstn (data_start m) out ->
  image_at env (is_mode_enabled m SERIALIZE_BIG_ENDIAN) B b clean_table f t (B + Z.of_nat (data_start m)) v2 tr2 -> unshared tr2 ->
  forall hb raw strict m', same_format m m' -> exists m3,
  convert env hb raw strict m' th f t B b = Ok (B + Z.of_nat (data_start m), m3) /\
  host_image env hb raw B n m3 clean_table f t (B + Z.of_nat (data_start m)) v2 tr2.
Proof.
  intros Ht Hn -> Hl HB Hi Hc Hb Lb Eb Hg Hs hb raw strict m' Hf.
  rewrite <- (check_same hb0 m th b out Hi Lb Eb) in Hc.
  destruct (converts env A t Ht Hn m th f B b HB ltac:(lia) Hb clean_table clean_accepted v2 tr2 hb0 Hc Hg Hs hb raw strict m' Hf)
    as (m3 & E1 & E2 & _).
  exists m3. split; [exact E1|]. rewrite Lb in E2. exact E2.
Qed.
