(* The converting reader on buffers without aliasing: it succeeds and leaves the same object graph
   in the host's own representation. *)
From Verif Require Import Base Bytes FnvProofs ArithModel ArithSpec ArithProofs HeaderModel HashModel HashBits HashInv
  SerialModel SerialSpec SerialMem SerialPost SerialSer SerialDeser ConvModel.
Local Open Scope Z_scope.

Definition bm (m : mem) : Prop := forall z x, m z = Some x -> (x < 256)%N.
Definition touched (tr : list ev) (z : Z) : Prop := exists x, In x (spans tr) /\ fst x <= z < fst x + snd x.
Definition sep (tr : list ev) : Prop := ForallOrdPairs apart2 (spans tr).
Definition eff (tr : list ev) (m m1 : mem) : Prop := bm m1 /\ forall z, ~ touched tr z -> m1 z = m z.

Lemma touched_app t t' z : touched (t ++ t') z <-> touched t z \/ touched t' z.
Proof.
  unfold touched. rewrite spans_app. split.
  - intros (x & Hi & Hz). apply in_app_or in Hi. destruct Hi; [left|right]; eauto.
  - intros [(x & Hi & Hz)|(x & Hi & Hz)]; exists x; split; auto; apply in_or_app; auto.
Qed.
Lemma touched_cons e t z : touched (e :: t) z <-> touched [e] z \/ touched t z.
Proof. exact (touched_app [e] t z). Qed.
Lemma touched_cons2 e e' t z : touched (e :: e' :: t) z <-> touched [e] z \/ touched (e' :: t) z.
Proof. apply touched_cons. Qed.
Lemma touched_nil z : ~ touched [] z.
Proof. intros (x & [] & _). Qed.
Lemma touched_rd a n z : touched [Rd a n] z <-> a <= z < a + n.
Proof.
  split.
  - intros (x & [<-|[]] & Hz). exact Hz.
  - intros H. exists (a, n). split; [now left|exact H].
Qed.
Lemma touched_ptr s p sz al z : touched [PtrAt s p sz al] z <-> s <= z < s + 8.
Proof.
  split.
  - intros (x & [<-|[]] & Hz). exact Hz.
  - intros H. exists (s, 8). split; [now left|exact H].
Qed.
Lemma touched_blk ix a n al z : ~ touched [Blk ix a n al] z.
Proof. intros (x & [] & _). Qed.
Lemma sep_app t t' : sep (t ++ t') -> sep t /\ sep t' /\ forall z, touched t z -> touched t' z -> False.
Proof.
  unfold sep. rewrite spans_app. intros H.
  assert (K : ForallOrdPairs apart2 (spans t) /\ ForallOrdPairs apart2 (spans t') /\
              forall x y, In x (spans t) -> In y (spans t') -> apart2 x y).
  { induction (spans t) as [|x l IH]; cbn [app] in H.
    - split; [constructor|]. split; [exact H|]. intros x y [].
    - inversion H as [|? ? F G]; subst. destruct (IH G) as (I1 & I2 & I3). apply Forall_app in F as [F1 F2].
      split; [now constructor|]. split; [exact I2|]. intros x' y [<-|Hx] Hy; [|now apply I3].
      rewrite Forall_forall in F2. now apply F2. }
  destruct K as (K1 & K2 & K3). split; [exact K1|]. split; [exact K2|].
  intros z (x & Hx & Hz) (y & Hy & Hz'). specialize (K3 x y Hx Hy). unfold apart2, apart in K3. lia.
Qed.
Lemma sep_cons e t : sep (e :: t) -> sep t /\ forall z, touched [e] z -> touched t z -> False.
Proof. intros H. apply (sep_app [e] t) in H. tauto. Qed.

Lemma eff_refl tr m : bm m -> eff tr m m.
Proof. intros H. split; auto. Qed.
Lemma eff_trans t1 t2 tr m m1 m2 : eff t1 m m1 -> eff t2 m1 m2 ->
  (forall z, touched t1 z \/ touched t2 z -> touched tr z) -> eff tr m m2.
Proof.
  intros [H1 H2] [H3 H4] H. split; [exact H3|]. intros z Hz. rewrite H4, H2; auto.
Qed.

(* reading objects depends only on the bytes touched *)
Lemma dec_frame_plain env be rel ck tab m m' f t a v tr :
  dec env (plain be m rel ck tab) f t a = Some (v, tr) -> (forall z, touched tr z -> m' z = m z) ->
  dec env (plain be m' rel ck tab) f t a = Some (v, tr).
Proof.
  intros H Ht.
  set (pv := fun s => let? l := rdn m s 8 in Some (ptr_of rel s (to_int be l))).
  set (pv' := fun s => let? l := rdn m' s 8 in Some (ptr_of rel s (to_int be l))).
  assert (H1 : dec env (Reader be m' pv rel ck tab) f t a = Some (v, tr)).
  { eapply (dec_frame env (plain be m rel ck tab)); [|exact H|].
    - unfold wider, plain. cbn. repeat split; auto. destruct ck as [[lo hi]|]; [|exact I]. lia.
    - intros x n Hi z Hz. cbn [r_mem plain]. symmetry. apply Ht. exists (x, n). split; [|exact Hz].
      unfold spans. apply in_flat_map. eexists. split; [exact Hi|now left]. }
  set (g := fun s => match pv s with Some p => p | None => None end).
  assert (Hslot : forall s p sz al, In (PtrAt s p sz al) tr -> pv' s = pv s).
  { intros s p sz al Hi. unfold pv, pv'. replace (rdn m' s 8) with (rdn m s 8); [reflexivity|].
    apply rdn_ext. intros z Hz. symmetry. apply Ht. exists (s, 8). split; [|cbn; lia].
    unfold spans. apply in_flat_map. eexists. split; [exact Hi|now left]. }
  assert (Hp : forall f t a v tr, dec env (plain be m rel ck tab) f t a = Some (v, tr) ->
             forall s p sz al, In (PtrAt s p sz al) tr ->
             pv s = Some p /\ match p with None => True | Some q => inside (plain be m rel ck tab) q sz al = true end).
  { clear. set (R := plain be m rel ck tab).
    assert (Hm : forall (I X : Type) (h : I -> option (X * list ev)) (P : ev -> Prop) l xs tr,
              (forall i x t, h i = Some (x, t) -> forall e, In e t -> P e) -> mapM h l = Some (xs, tr) -> forall e, In e tr -> P e).
    { intros I X h P l. induction l as [|i l IH]; intros xs tr Hh H e He; cbn [mapM] in H.
      - apply some_pair in H as [<- <-]. destruct He.
      - destruct (h i) as [[x t]|] eqn:E; [|discriminate]. destruct (mapM h l) as [[xs' ts]|] eqn:E'; [|discriminate].
        apply some_pair in H as [<- <-]. apply in_app_or in He as [He|He]; [eapply Hh; eauto|eapply IH; eauto]. }
    set (P := fun e => match e with PtrAt s p sz al => pv s = Some p /\ match p with None => True | Some q => inside R q sz al = true end | _ => True end).
    assert (Hz : forall x z, zero_at R x = Some z -> forall e, In e z -> P e).
    { intros x z Hz e He. unfold zero_at in Hz. destruct (r_ck R); dec_inv Hz; [|destruct He].
      destruct He as [<-|[]]. exact I. }
    enough (K : forall f t a v tr, dec env R f t a = Some (v, tr) -> forall e, In e tr -> P e).
    { intros f t a v tr H s p sz al Hi. exact (K f t a v tr H _ Hi). }
    induction f as [|f IH]; intros t a v tr H e He; [discriminate H|]. cbn [dec] in H.
    destruct (_ && _); [|discriminate H].
    destruct t.
    - dec_inv H. destruct He as [<-|[]]. exact I.
    - dec_inv H. destruct He as [<-|[]]. exact I.
    - cbv zeta in H. destruct (r_ptr R a) as [p|] eqn:Ep; [|discriminate].
      destruct (match p with None => true | _ => _ end) eqn:Ei; [|discriminate]. apply some_pair in H as [<- <-].
      destruct He as [<-|[]]. split; [exact Ep|]. now destruct p.
    - dec_inv H. eapply Hm; [|eassumption|exact He]. cbn. intros; eapply IH; eauto.
    - dec_inv H; destruct He as [<-|He]; try exact I; [destruct He|]. eapply IH; eauto.
    - dec_inv H; destruct He as [<-|He]; try exact I. eapply IH; eauto.
    - cbv zeta in H. destruct (rptr R (r_rel R) a) as [p|]; [|discriminate].
      destruct (zero_at R (a + 8)) as [z|] eqn:Ez; [|discriminate].
      dec_inv H; destruct He as [<-|He]; try exact I.
      + apply in_app_or in He as [He|[<-|He]]; [eapply Hz; eauto|exact I|eapply IH; eauto].
      + eapply Hz; eauto.
    - cbv zeta in H. destruct (rptr R (r_rel R) a) as [p|] eqn:Ep; [|discriminate].
      destruct (rint R (a + 8) w) as [used|] eqn:Eu; [|discriminate].
      destruct (match r_ck R with None => _ | _ => _ end) as [alloc|] eqn:Ea; [|discriminate].
      destruct (alloc =? used)%N eqn:Eau; [|discriminate].
      destruct (zero_at R (a + 8 + 2 * Z.of_nat w)) as [z|] eqn:Ez; [|discriminate].
      assert (Ho : forall e, In e (Rd a 8 :: Rd (a + 8) (Z.of_nat w) ::
                match r_ck R with None => [] | _ => [Rd (a + 8 + Z.of_nat w) (Z.of_nat w)] end ++ z) -> P e).
      { intros e' [<-|[<-|He']]; [exact I|exact I|]. apply in_app_or in He' as [He'|He']; [|eapply Hz; eauto].
        destruct (r_ck R); [destruct He' as [<-|[]]; exact I|destruct He']. }
      remember (Rd a 8 :: Rd (a + 8) (Z.of_nat w) :: match r_ck R with None => [] | _ => [Rd (a + 8 + Z.of_nat w) (Z.of_nat w)] end ++ z) as own eqn:Hown.
      clear Hown. destruct (used =? 0)%N.
      + destruct (strict R _); [|discriminate]. dec_inv H. apply in_app_or in He as [He|He]; [now apply Ho|].
        destruct p; [|destruct He]. destruct ix; [destruct He as [<-|[]]; exact I|destruct He].
      + dec_inv H. apply in_app_or in He as [He|He]; [now apply Ho|]. apply in_app_or in He as [He|He].
        * destruct ix; [destruct He as [<-|[]]; exact I|destruct He].
        * eapply Hm; [|eassumption|exact He]. cbn. intros; eapply IH; eauto.
    - cbv zeta in H. destruct (rint R a 1) as [b|]; [|discriminate].
      destruct (negb (b =? 0)%N); [dec_inv H; destruct He as [<-|[<-|[]]]; exact I|].
      destruct (rptr R (r_rel R) (a + 8)) as [p|] eqn:Ep; [|discriminate].
      destruct (rint R (a + 4) 4) as [size|] eqn:Eu; [|discriminate].
      destruct (zero_at R (a + 1)) as [z|] eqn:Ez; [|discriminate].
      dec_inv H; destruct He as [<-|[<-|[<-|He]]]; try exact I.
      + apply in_app_or in He as [He|[<-|[]]]; [eapply Hz; eauto|exact I].
      + eapply Hz; eauto.
    - dec_inv H; repeat (destruct He as [<-|He]; [exact I|]); destruct He.
    - cbv zeta in H.
      destruct (rptr R (r_rel R) a) as [pe|] eqn:Ee; [|discriminate].
      destruct (rptr R (r_rel R) (a + 8)) as [pc|] eqn:Ec; [|discriminate].
      destruct (rint R (a + 16) 8) as [size|] eqn:Es; [|discriminate].
      destruct (rint R (a + 24) 8) as [cap|] eqn:Ecap; [|discriminate].
      destruct (rint R (a + 32) 8) as [growth|] eqn:Eg; [|discriminate].
      destruct (zero_at R (a + 40)) as [z|] eqn:Ez; [|discriminate].
      destruct pc as [c|]; [|discriminate].
      destruct (_ && _); [|discriminate].
      destruct (rdn (r_mem R) c (N.to_nat cap + 9)) as [ctrl|] eqn:Ect; [|discriminate].
      destruct (r_tab R size cap growth ctrl) eqn:Et; [|discriminate].
      assert (Ho : forall e, In e (Rd a 8 :: Rd (a + 8) 8 :: Rd (a + 16) 8 :: Rd (a + 24) 8 :: Rd (a + 32) 8 ::
                  z ++ [Rd c (Z.of_N cap + 9)]) -> P e).
      { intros e' He'. repeat (destruct He' as [<-|He']; [exact I|]). apply in_app_or in He' as [He'|[<-|[]]]; [eapply Hz; eauto|exact I]. }
      remember (Rd a 8 :: Rd (a + 8) 8 :: Rd (a + 16) 8 :: Rd (a + 24) 8 :: Rd (a + 32) 8 ::
                  z ++ [Rd c (Z.of_N cap + 9)]) as own eqn:Hown. clear Hown.
      destruct pe as [e0|].
      + dec_inv H. apply in_app_or in He as [He|He]; [now apply Ho|].
        eapply Hm; [|eassumption|exact He]. cbn. intros i x t Hx e' He'. destruct (is_full (nth i ctrl EMPTY)).
        * dec_inv Hx. eapply IH; eauto.
        * dec_inv Hx. destruct He'.
      + dec_inv H. now apply Ho. }
  specialize (Hp f t a v tr H).
  assert (Em : map (setp g) tr = tr).
  { rewrite <- (map_id tr) at 2. apply map_ext_in. intros e He. destruct e; try reflexivity. cbn [setp].
    destruct (Hp _ _ _ _ He) as [E _]. unfold g. now rewrite E. }
  rewrite <- Em.
  apply (dec_ptr env be m' pv pv' rel ck tab g f t a v tr H1).
  intros s p sz al Hi. destruct (Hp _ _ _ _ Hi) as [E1 E2]. unfold g. rewrite E1. split; [now rewrite (Hslot _ _ _ _ Hi)|].
  destruct p; [exact E2|exact I].
Qed.

(* ---- single conversions ---- *)
Lemma put_mem_out m a l z : ~ (a <= z < a + Z.of_nat (length l)) -> put_mem m a l z = m z.
Proof. intros H. unfold put_mem. now replace ((a <=? z) && (z <? a + Z.of_nat (length l))) with false by lia. Qed.
Lemma put_mem_rdn m a l : rdn (put_mem m a l) a (length l) = Some l.
Proof.
  apply rdn_intro. intros i b Hi. unfold put_mem.
  assert (i < length l)%nat by (apply nth_error_Some; congruence).
  replace ((a <=? a + Z.of_nat i) && (a + Z.of_nat i <? a + Z.of_nat (length l))) with true by lia.
  now replace (Z.to_nat (a + Z.of_nat i - a)) with i by lia.
Qed.
Lemma put_mem_bm m a l : bm m -> bytes_ok l -> bm (put_mem m a l).
Proof.
  intros Hm Hl z x. unfold put_mem. destruct (_ && _); [|apply Hm].
  intros H. apply nth_error_In in H. unfold bytes_ok in Hl. rewrite Forall_forall in Hl. now apply Hl.
Qed.
Lemma rdn_bm m a n l : bm m -> rdn m a n = Some l -> bytes_ok l.
Proof.
  intros Hm. revert a l; induction n as [|n IH]; intros a l H; cbn [rdn] in H; [injection H as <-; constructor|].
  destruct (m a) eqn:E; [|discriminate]. destruct (rdn m (a + 1) n) eqn:E'; [|discriminate]. injection H as <-.
  constructor; [eapply Hm; eauto|eapply IH; eauto].
Qed.
Lemma to_int_rev be l : to_int (negb be) (rev l) = to_int be l.
Proof. unfold to_int. destruct be; cbn [negb]; [reflexivity|]. now rewrite rev_involutive. Qed.

Section C.
Variables (env : list ty) (A : Z).
Hypothesis Hwf : wf_env A env.
Variables B hi : Z.
Hypothesis HB : 0 < B.
Hypothesis Hhi : hi < 2 ^ 63.
Variables hb fb raw chk strict_i64 : bool.
Variable tab : N -> N -> N -> list N -> bool.
Hypothesis Htab : forall s c g l, tab s c g l = true -> ctrl_tab s c g l = true.
Hypothesis Hsz : forall n, size_of (tyof env n) < 2 ^ 62.
Notation FR m := (plain fb m true (Some (B, hi)) tab).
Notation HR m := (plain hb m (negb raw) (Some (B, hi)) tab).
Notation same_on a n m m' := (forall z, a <= z < a + n -> m' z = m z).
Definition ins (q n al : Z) : Prop := B <= q /\ q + n <= hi /\ q mod al = 0.

Lemma ins_inside be m rel q n al : inside (plain be m rel (Some (B, hi)) tab) q n al = true <-> ins q n al.
Proof. unfold inside, ins. cbn [plain r_ck]. lia. Qed.

Lemma swap_ok m a w x : bm m -> rint (FR m) a w = Some x ->
  exists m1, swap hb fb m a w = Ok m1 /\ bm m1 /\ (forall z, ~ (a <= z < a + Z.of_nat w) -> m1 z = m z) /\
    forall m', same_on a (Z.of_nat w) m1 m' -> rint (HR m') a w = Some x /\ dint hb m' a w = Ok (Z.of_N x).
Proof.
  intros Hm H. unfold rint in H. cbn [plain r_mem r_be] in H.
  destruct (rdn m a w) as [l|] eqn:El; [|discriminate]. injection H as <-.
  pose proof (rdn_length _ _ _ _ El) as Ll. unfold swap, dbytes.
  destruct (Bool.eqb hb fb) eqn:Eb.
  - apply Bool.eqb_prop in Eb. subst fb. exists m. split; [reflexivity|]. split; [exact Hm|]. split; [auto|].
    intros m' Hs. assert (E : rdn m' a w = Some l) by (rewrite <- El; apply rdn_ext; exact Hs).
    unfold rint, dint, dbytes. cbn [plain r_mem r_be]. now rewrite E.
  - rewrite El. cbn [bind]. eexists. split; [reflexivity|].
    assert (Ef : fb = negb hb) by (destruct hb, fb; try discriminate; reflexivity).
    assert (Lr : length (rev l) = w) by now rewrite rev_length.
    split. { apply put_mem_bm; [exact Hm|]. apply Forall_rev. eapply rdn_bm; eauto. }
    split. { intros z Hz. apply put_mem_out. now rewrite Lr. }
    intros m' Hs. assert (E : rdn m' a w = Some (rev l)).
    { rewrite <- (put_mem_rdn m a (rev l)). rewrite Lr. apply rdn_ext. exact Hs. }
    unfold rint, dint, dbytes. cbn [plain r_mem r_be]. rewrite E. cbn [bind].
    assert (Ei : to_int hb (rev l) = to_int fb l).
    { rewrite Ef. rewrite <- (to_int_rev (negb hb)). now rewrite negb_involutive. }
    now rewrite Ei.
Qed.
Lemma byte_ok m m' a x : rint (FR m) a 1 = Some x -> m' a = m a ->
  rint (HR m') a 1 = Some x /\ dint hb m' a 1 = Ok (Z.of_N x).
Proof.
  unfold rint, dint, dbytes. cbn [plain r_mem r_be rdn]. intros H E. rewrite E.
  destruct (m a) as [y|]; [|discriminate]. rewrite !to_int_1 in *. injection H as ->. cbn [bind]. now rewrite to_int_1.
Qed.
Lemma zero_ok m m' a z : zero_at (FR m) a = Some z -> m' a = m a ->
  zero_at (HR m') a = Some z /\ z = [Rd a 1] /\ dint hb m' a 1 = Ok 0.
Proof.
  unfold zero_at. cbn [plain r_ck]. intros H E. dec_inv H.
  destruct (byte_ok m m' a n Heqo E) as [E1 E2]. rewrite E1. rewrite Heqb. split; [reflexivity|]. split; [reflexivity|].
  rewrite E2. f_equal. lia.
Qed.
Lemma check_raw_in p size al : ins p size al -> 0 <= size -> check_raw B hi p size al = Ok tt.
Proof.
  intros (H1 & H2 & H3) H4. unfold check_raw. replace (p =? 0) with false by lia. replace (hi =? 0) with false by lia.
  cbn [orb]. replace (B <=? p) with true by lia. cbn [verify bind].
  assert (Hz : z_of_u (Z.to_N size) = size).
  { unfold z_of_u, Z64. match goal with |- (if ?c then _ else _) = _ => destruct c eqn:E2 end; lia. }
  rewrite Hz. cbn [checked_addition].
  destruct (add_if_ok_spec ty_i64 p size) as [[-> Hi]|[-> Hi]].
  - apply in_i64. lia.
  - apply in_i64. lia.
  - cbn [bind]. replace (p + size <=? hi) with true by lia. cbn [verify bind].
    replace (size <? 9223372036854775807) with true by lia. cbn [verify bind]. now replace (p mod al =? 0) with true by lia.
  - exfalso. apply Hi. apply in_i64. lia.
Qed.

Lemma wrap_small z : - 2 ^ 63 <= z < 2 ^ 64 -> wrap_i64 z = if z <? 2 ^ 63 then z else z - 2 ^ 64.
Proof.
  intros Hz. unfold wrap_i64, z_of_u, u_of_z, Z64.
  assert (Em : z mod 18446744073709551616 = if z <? 0 then z + 18446744073709551616 else z).
  { destruct (z <? 0) eqn:E0.
    - symmetry. apply Z.mod_unique_pos with (q := -1); lia.
    - apply Z.mod_small. lia. }
  rewrite Em. destruct (z <? 0) eqn:E0; destruct (z <? 2 ^ 63) eqn:E1; try lia;
    match goal with |- (if ?c then _ else _) = _ => destruct c eqn:E2 end; lia.
Qed.
Lemma wrap_id z : - 2 ^ 63 <= z < 2 ^ 63 -> z_of_u (u_of_z z) = z.
Proof. intros H. change (wrap_i64 z = z). rewrite wrap_small by lia. now replace (z <? 2 ^ 63) with true by lia. Qed.
Lemma u_small z : (u_of_z z < 256 ^ 8)%N.
Proof.
  unfold u_of_z, Z64. change (256 ^ 8)%N with 18446744073709551616%N.
  pose proof (Z.mod_pos_bound z 18446744073709551616 ltac:(lia)). lia.
Qed.

Lemma conv_ptr_ok m slot p : bm m -> B <= slot -> slot + 8 <= hi -> rptr (FR m) true slot = Some p ->
  (forall q, p = Some q -> B <= q <= hi) ->
  exists m1, conv_ptr hb fb raw m slot = Ok m1 /\ bm m1 /\ (forall z, ~ (slot <= z < slot + 8) -> m1 z = m z) /\
    forall m', same_on slot 8 m1 m' ->
      rptr (HR m') (negb raw) slot = Some p /\ r_ptr (HR m') slot = Some p /\ cptr hb raw strict_i64 m' slot = Ok p /\
      forall size al, 0 <= size -> (forall q, p = Some q -> ins q size al) ->
        check_slot hb raw strict_i64 B hi m' slot size al = Ok tt.
Proof.
  intros Hm H1 H2 H Hq. unfold rptr, rint in H. cbn [plain r_mem r_be] in H.
  destruct (rdn m slot 8) as [l|] eqn:El; [|discriminate]. injection H as H.
  pose proof (rdn_length _ _ _ _ El) as Ll. pose proof (rdn_bm _ _ _ _ Hm El) as Bl.
  pose proof (to_int_bound fb l Bl) as Hx. rewrite Ll in Hx. change (256 ^ N.of_nat 8)%N with 18446744073709551616%N in Hx.
  set (x := to_int fb l) in *.
  assert (Hoff : - 2 ^ 63 <= z_of_u x < 2 ^ 63) by (apply z_of_u_range; exact Hx).
  (* what the offset means *)
  assert (Hp : (z_of_u x = NULLPTR_OFFSET /\ p = None) \/
               (z_of_u x <> NULLPTR_OFFSET /\ - 2 ^ 63 <= slot + z_of_u x < 2 ^ 63 /\
                p = if slot + z_of_u x =? 0 then None else Some (slot + z_of_u x))).
  { unfold ptr_of in H. destruct (Z.eqb_spec (z_of_u x) NULLPTR_OFFSET) as [E|E]; [left; cbn in H; auto|right].
    split; [exact E|]. rewrite wrap_small in H by lia.
    destruct (slot + z_of_u x <? 2 ^ 63) eqn:E1.
    - split; [lia|]. symmetry. exact H.
    - exfalso. replace (slot + z_of_u x - 2 ^ 64 =? 0) with false in H by lia. specialize (Hq _ (eq_sym H)). lia. }
  unfold conv_ptr, check_slot, cptr. destruct raw eqn:Er; cbn [negb].
  - (* raw pointer *)
    unfold dbytes at 1. rewrite El. cbn [bind]. fold x.
    set (v := if z_of_u x =? NULLPTR_OFFSET then 0 else slot + z_of_u x).
    assert (Ev : (if z_of_u x =? NULLPTR_OFFSET then Ok 0 else checked_addition ty_i64 slot [z_of_u x]) = Ok v).
    { unfold v. destruct (Z.eqb_spec (z_of_u x) NULLPTR_OFFSET) as [E|E]; [reflexivity|].
      destruct Hp as [[? _]|(_ & Hr & _)]; [contradiction|]. cbn [checked_addition].
      destruct (add_if_ok_spec ty_i64 slot (z_of_u x)) as [[-> _]|[_ Hi]]; [apply in_i64; lia|apply in_i64; lia|reflexivity|].
      exfalso. apply Hi. apply in_i64. lia. }
    rewrite Ev. cbn [bind]. eexists. split; [reflexivity|].
    set (d := of_int hb 8 (u_of_z v)). assert (Ld : length d = 8%nat) by apply of_int_length.
    split. { apply put_mem_bm; [exact Hm|]. unfold d, of_int. destruct hb; [apply Forall_rev|]; apply le_enc_ok. }
    split. { intros z Hz. apply put_mem_out. rewrite Ld. exact Hz. }
    intros m' Hs. assert (E : rdn m' slot 8 = Some d).
    { rewrite <- (put_mem_rdn m slot d). rewrite Ld. apply rdn_ext. exact Hs. }
    assert (Evr : - 2 ^ 63 <= v < 2 ^ 63).
    { unfold v. destruct (Z.eqb_spec (z_of_u x) NULLPTR_OFFSET); [lia|]. destruct Hp as [[? _]|(_ & Hr & _)]; [contradiction|lia]. }
    assert (Epv : ptr_of false slot (to_int hb d) = p).
    { unfold d. rewrite to_of_int by apply u_small. unfold ptr_of. rewrite wrap_id by exact Evr. unfold v.
      destruct (Z.eqb_spec (z_of_u x) NULLPTR_OFFSET) as [E0|E0].
      - destruct Hp as [[_ ->]|(? & _)]; [reflexivity|contradiction].
      - destruct Hp as [[? _]|(_ & _ & ->)]; [contradiction|reflexivity]. }
    unfold rptr, rint, dbytes. cbn [plain r_mem r_be r_ptr]. rewrite E. cbn [bind]. rewrite Epv.
    split; [reflexivity|]. split; [reflexivity|]. split; [reflexivity|].
    intros size al Hs0 Hi. destruct p as [q|]; [|reflexivity]. apply check_raw_in; [now apply Hi|exact Hs0].
  - (* offset_ptr *)
    destruct (swap_ok m slot 8 x Hm ltac:(unfold rint; cbn [plain r_mem r_be]; now rewrite El)) as (m1 & E1 & E2 & E3 & E4).
    exists m1. split; [exact E1|]. split; [exact E2|]. split; [exact E3|]. intros m' Hs.
    destruct (E4 m' Hs) as [E5 E6]. unfold rint in E5. cbn [plain r_mem r_be] in E5.
    destruct (rdn m' slot 8) as [l'|] eqn:El'; [|discriminate]. injection E5 as E5.
    unfold rptr, rint, check_optr, dptr, dbytes. cbn [plain r_mem r_be r_ptr]. rewrite El'. cbn [bind]. rewrite E5.
    rewrite H. split; [reflexivity|]. split; [reflexivity|].
    assert (Es : strict_i64 && negb (z_of_u x =? NULLPTR_OFFSET) &&
                 negb ((NULLPTR_OFFSET <=? slot + z_of_u x) && (slot + z_of_u x <? - NULLPTR_OFFSET)) = false).
    { destruct Hp as [[-> _]|(_ & Hr & _)]; [now rewrite Z.eqb_refl, andb_false_r|].
      replace ((NULLPTR_OFFSET <=? slot + z_of_u x) && (slot + z_of_u x <? - NULLPTR_OFFSET)) with true by (unfold NULLPTR_OFFSET; lia).
      now rewrite andb_false_r. }
    rewrite Es. split; [reflexivity|]. intros size al Hs0 Hi. cbn [bind].
    destruct p as [q|]; [|reflexivity]. cbn [checked_addition].
    assert (Hr : - 2 ^ 63 <= slot + z_of_u x < 2 ^ 63) by (destruct Hp as [[_ ?]|(_ & ? & _)]; [discriminate|assumption]).
    destruct (add_if_ok_spec ty_i64 (z_of_u x) slot) as [[-> _]|[_ Hn]]; [apply in_i64; lia|apply in_i64; lia| |].
    + cbn [bind]. apply check_raw_in; [now apply Hi|exact Hs0].
    + exfalso. apply Hn. apply in_i64. lia.
Qed.

(* ---- steps of the converting reader ---- *)
Lemma when_ok (r : res unit) : r = Ok tt -> when chk r = Ok tt.
Proof. intros ->. unfold when. now destruct chk. Qed.
Lemma eff_same tr m m1 a n : eff tr m m1 -> (forall z, a <= z < a + n -> touched tr z -> False) -> same_on a n m m1.
Proof. intros [_ H] Hd z Hz. apply H. intros Ht. now apply (Hd z). Qed.
Lemma rint_same R R' a w : r_be R' = r_be R -> same_on a (Z.of_nat w) (r_mem R) (r_mem R') -> rint R' a w = rint R a w.
Proof.
  intros E H. unfold rint. rewrite E. now rewrite (rdn_ext (r_mem R') (r_mem R) a w H).
Qed.
Lemma ins_sub q n al q' n' al' : ins q n al -> q <= q' -> q' + n' <= q + n -> q' mod al' = 0 -> ins q' n' al'.
Proof. unfold ins. lia. Qed.

Lemma conv_slot_ok m slot T p : bm m -> ins slot 8 8 -> rptr (FR m) true slot = Some p -> 0 <= size_of T ->
  (forall q, p = Some q -> ins q (size_of T) (align_of T)) ->
  exists m1, conv_slot hb fb raw chk strict_i64 B hi m slot T = Ok m1 /\ eff [Rd slot 8] m m1 /\
    forall m', same_on slot 8 m1 m' ->
      rptr (HR m') (negb raw) slot = Some p /\ cptr hb raw strict_i64 m' slot = Ok p /\
      forall size al, 0 <= size -> (forall q, p = Some q -> ins q size al) ->
        check_slot hb raw strict_i64 B hi m' slot size al = Ok tt.
Proof.
  intros Hm Hi Hp Hs Hq. pose proof Hi as (I1 & I2 & _).
  destruct (conv_ptr_ok m slot p Hm I1 I2 Hp) as (m1 & E1 & E2 & E3 & E4).
  { intros q Eq. destruct (Hq q Eq). lia. }
  exists m1. unfold conv_slot. rewrite when_ok by (apply check_raw_in; [exact Hi|lia]). cbn [bind]. rewrite E1. cbn [bind].
  destruct (E4 m1 ltac:(auto)) as (_ & _ & _ & K). rewrite when_ok by (apply K; assumption). split; [reflexivity|].
  split.
  - split; [exact E2|]. intros z Hz. apply E3. intros Hz'. apply Hz. now apply touched_rd.
  - intros m' Hm'. destruct (E4 m' Hm') as (K1 & _ & K3 & K4). auto.
Qed.
Lemma swap_eff m a w x : bm m -> rint (FR m) a w = Some x ->
  exists m1, swap hb fb m a w = Ok m1 /\ eff [Rd a (Z.of_nat w)] m m1 /\
    forall m', same_on a (Z.of_nat w) m1 m' -> rint (HR m') a w = Some x /\ dint hb m' a w = Ok (Z.of_N x).
Proof.
  intros Hm H. destruct (swap_ok m a w x Hm H) as (m1 & E1 & E2 & E3 & E4). exists m1. split; [exact E1|]. split; [|exact E4].
  split; [exact E2|]. intros z Hz. apply E3. intros Hz'. apply Hz. now apply touched_rd.
Qed.

Lemma list_ok {I X} (g : I -> mem -> res mem) (hF hH : mem -> I -> option (X * list ev)) l :
  (forall i m m' x t, hF m i = Some (x, t) -> (forall z, touched t z -> m' z = m z) -> hF m' i = Some (x, t)) ->
  (forall i m m' x t, hH m i = Some (x, t) -> (forall z, touched t z -> m' z = m z) -> hH m' i = Some (x, t)) ->
  forall (good_i : forall i m x t, In i l -> bm m -> hF m i = Some (x, t) -> sep t ->
    exists m1, g i m = Ok m1 /\ eff t m m1 /\ hH m1 i = Some (x, t)) m xs tr,
  bm m -> mapM (hF m) l = Some (xs, tr) -> sep tr ->
  exists m1, foldM g l m = Ok m1 /\ eff tr m m1 /\ mapM (hH m1) l = Some (xs, tr).
Proof.
  intros HfF HfH. induction l as [|i l IH]; intros Hg m xs tr Hm H Hs; cbn [mapM] in H.
  - apply some_pair in H as [<- <-]. exists m. split; [reflexivity|]. split; [now apply eff_refl|reflexivity].
  - destruct (hF m i) as [[x t]|] eqn:E1; [|discriminate]. destruct (mapM (hF m) l) as [[ys ts]|] eqn:E2; [|discriminate].
    apply some_pair in H as [<- <-]. apply sep_app in Hs as (S1 & S2 & S3).
    destruct (Hg i m x t (or_introl eq_refl) Hm E1 S1) as (m1 & G1 & G2 & G3).
    assert (E2' : mapM (hF m1) l = Some (ys, ts)).
    { assert (K : forall ys ts, mapM (hF m) l = Some (ys, ts) -> (forall z, touched ts z -> m1 z = m z) -> mapM (hF m1) l = Some (ys, ts)).
      { clear -HfF. induction l as [|j l IHl]; intros ys ts H Ht; cbn [mapM] in *; [exact H|].
        destruct (hF m j) as [[y t]|] eqn:E; [|discriminate]. destruct (mapM (hF m) l) as [[zs us]|] eqn:E2; [|discriminate].
        apply some_pair in H as [<- <-]. rewrite (HfF _ _ m1 _ _ E); [|intros; apply Ht, touched_app; auto].
        rewrite (IHl _ _ eq_refl); [reflexivity|]. intros; apply Ht, touched_app; auto. }
      apply K; [exact E2|]. intros z Hz. apply G2. intros Hz'. now apply (S3 z). }
    destruct (IH (fun j m x t Hj => Hg j m x t (or_intror Hj)) m1 ys ts (proj1 G2) E2' S2) as (m2 & F1 & F2 & F3).
    exists m2. cbn [foldM]. rewrite G1. cbn [bind]. split; [exact F1|]. split.
    + eapply eff_trans; [exact G2|exact F2|]. intros z [?|?]; apply touched_app; auto.
    + cbn [mapM]. rewrite (HfH i m1 m2 _ _ G3).
      * now rewrite F3.
      * intros z Hz. apply F2. intros Hz'. now apply (S3 z).
Qed.

(* the loop over a hash table; the control bytes are not touched by the entries *)
Lemma hloop_ok {X} (g : nat -> mem -> res mem) (hF hH : mem -> nat -> option (X * list ev)) c cap ctrl :
  length ctrl = (cap + 9)%nat -> Forall ctrl_ok ctrl -> cb ctrl cap = END ->
  (forall i, (i < cap)%nat -> is_empty (cb ctrl i) || is_full (cb ctrl i) || is_deleted (cb ctrl i) = true) ->
  (forall i m m' x t, hF m i = Some (x, t) -> (forall z, touched t z -> m' z = m z) -> hF m' i = Some (x, t)) ->
  (forall i m m' x t, hH m i = Some (x, t) -> (forall z, touched t z -> m' z = m z) -> hH m' i = Some (x, t)) ->
  forall (Hg : forall i m x t, (i < cap)%nat -> bm m -> hF m i = Some (x, t) -> sep t ->
    exists m1, g i m = Ok m1 /\ eff t m m1 /\ hH m1 i = Some (x, t)),
  let G h m i := if is_full (nth i ctrl EMPTY) then let? (v, tr) := h m i in Some (Some v, tr) else Some (None, []) in
  forall k i m xs tr, (i <= cap)%nat -> (cap - i < k)%nat -> (i = cap \/ is_full (cb ctrl i) = true) ->
  bm m -> rdn m c (cap + 9) = Some ctrl ->
  mapM (G hF m) (seq i (cap - i)) = Some (xs, tr) -> sep tr ->
  (forall z, touched tr z -> c <= z < c + Z.of_nat (cap + 9) -> False) ->
  exists m1, hloop g c cap k i m = Ok m1 /\ eff tr m m1 /\ mapM (G hH m1) (seq i (cap - i)) = Some (xs, tr).
Proof.
  intros Hlen Hok Hend Hfront HfF HfH Hg G.
  assert (GfF : forall i m m' x t, G hF m i = Some (x, t) -> (forall z, touched t z -> m' z = m z) -> G hF m' i = Some (x, t)).
  { intros i m m' x t. unfold G. destruct (is_full (nth i ctrl EMPTY)); [|auto]. destruct (hF m i) as [[y u]|] eqn:E; [|discriminate].
    intros H Ht. apply some_pair in H as [<- <-]. now rewrite (HfF _ _ m' _ _ E). }
  assert (GfH : forall i m m' x t, G hH m i = Some (x, t) -> (forall z, touched t z -> m' z = m z) -> G hH m' i = Some (x, t)).
  { intros i m m' x t. unfold G. destruct (is_full (nth i ctrl EMPTY)); [|auto]. destruct (hH m i) as [[y u]|] eqn:E; [|discriminate].
    intros H Ht. apply some_pair in H as [<- <-]. now rewrite (HfH _ _ m' _ _ E). }
  induction k as [|k IH]; intros i m xs tr Hi Hk Hc Hm Hct HM Hs Hd; [lia|]. cbn [hloop].
  destruct (Nat.eqb_spec i cap) as [->|Ne].
  - rewrite Nat.sub_diag in *. cbn [seq mapM] in *. apply some_pair in HM as [<- <-]. exists m. split; [reflexivity|]. split; [now apply eff_refl|reflexivity].
  - destruct Hc as [Hc|Hc]; [lia|]. replace (cap - i)%nat with (S (cap - (i + 1)))%nat in * by lia. cbn [seq mapM] in HM |- *.
    assert (Ef : is_full (nth i ctrl EMPTY) = true).
    { rewrite <- Hc. unfold cb. f_equal. apply nth_indep. lia. }
    unfold G at 1 in HM. rewrite Ef in HM. destruct (hF m i) as [[x t]|] eqn:E1; [|discriminate].
    destruct (mapM (G hF m) (seq (S i) (cap - (i + 1)))) as [[ys ts]|] eqn:E2; [|discriminate].
    apply some_pair in HM as [<- <-]. apply sep_app in Hs as (S1 & S2 & S3).
    destruct (Hg i m x t ltac:(lia) Hm E1 S1) as (m1 & G1 & G2 & G3). rewrite G1. cbn [bind].
    assert (Hct1 : rdn m1 c (cap + 9) = Some ctrl).
    { rewrite <- Hct. apply rdn_ext. intros z Hz. apply G2. intros Hz'. apply (Hd z); [apply touched_app; auto|exact Hz]. }
    unfold ctrl_at, dbytes. rewrite Hct1. cbn [bind]. unfold next_. cbn [t_cap].
    destruct (skip_ok ctrl cap Hlen Hok Hend Hfront (S cap) (i + 1)%nat ltac:(lia) ltac:(lia)) as (j & -> & Hj & P & R). cbn [bind].
    (* the part up to j is skipped *)
    assert (Hskip : forall h mm, mapM (G h mm) (seq (S i) (cap - (i + 1))) =
                      match mapM (G h mm) (seq j (cap - j)) with
                      | Some (zs, us) => Some (repeat None (j - S i) ++ zs, us) | None => None end).
    { intros h mm. replace (cap - (i + 1))%nat with ((j - S i) + (cap - j))%nat by lia. rewrite seq_app.
      replace (S i + (j - S i))%nat with j by lia.
      assert (Pn : forall s, (S i <= s < j)%nat -> is_full (nth s ctrl EMPTY) = false).
      { intros s Hs'. rewrite <- (P s) by lia. unfold cb. f_equal. apply nth_indep. lia. }
      clear -Pn. remember (seq j (cap - j)) as rest. clear Heqrest.
      assert (K : forall n s, (forall u, (s <= u < s + n)%nat -> is_full (nth u ctrl EMPTY) = false) ->
                mapM (G h mm) (seq s n ++ rest) = match mapM (G h mm) rest with
                  | Some (zs, us) => Some (repeat None n ++ zs, us) | None => None end).
      { induction n as [|n IHn]; intros s Hn; cbn [seq app mapM repeat].
        - now destruct (mapM (G h mm) rest) as [[? ?]|].
        - unfold G at 1. rewrite (Hn s) by lia. rewrite IHn by (intros; apply Hn; lia).
          now destruct (mapM (G h mm) rest) as [[? ?]|]. }
      apply K. intros u Hu. apply Pn. lia. }
    rewrite Hskip in E2. destruct (mapM (G hF m) (seq j (cap - j))) as [[zs us]|] eqn:E3; [|discriminate].
    apply some_pair in E2 as [<- <-].
    assert (E3' : mapM (G hF m1) (seq j (cap - j)) = Some (zs, us)).
    { assert (K : forall l ys ts, mapM (G hF m) l = Some (ys, ts) -> (forall z, touched ts z -> m1 z = m z) -> mapM (G hF m1) l = Some (ys, ts)).
      { clear -GfF. induction l as [|o l IHl]; intros ys ts H Ht; cbn [mapM] in *; [exact H|].
        destruct (G hF m o) as [[y t]|] eqn:E; [|discriminate]. destruct (mapM (G hF m) l) as [[zs us]|] eqn:E2; [|discriminate].
        apply some_pair in H as [<- <-]. rewrite (GfF _ _ m1 _ _ E); [|intros; apply Ht, touched_app; auto].
        rewrite (IHl _ _ eq_refl); [reflexivity|]. intros; apply Ht, touched_app; auto. }
      apply K; [exact E3|]. intros z Hz. apply G2. intros Hz'. now apply (S3 z). }
    destruct (IH j m1 zs us ltac:(lia) ltac:(lia) R (proj1 G2) Hct1 E3' S2) as (m2 & F1 & F2 & F3).
    { intros z Hz. apply Hd. apply touched_app. auto. }
    exists m2. split; [exact F1|]. split.
    + eapply eff_trans; [exact G2|exact F2|]. intros z [?|?]; apply touched_app; auto.
    + rewrite Hskip, F3. unfold G at 1. rewrite Ef. rewrite (HfH i m1 m2 _ _ G3); [reflexivity|].
      intros z Hz. apply F2. intros Hz'. now apply (S3 z).
Qed.

Notation CV f t m a := (conv env hb fb raw chk strict_i64 B hi f t m a).
Definition good f t : Prop := forall m a v tr, bm m -> dec env (FR m) f t a = Some (v, tr) -> sep tr ->
  exists m1, CV f t m a = Ok m1 /\ eff tr m m1 /\ dec env (HR m1) f t a = Some (v, tr).

Lemma dec_in f m t a v tr : dec env (FR m) f t a = Some (v, tr) -> ins a (size_of t) (align_of t).
Proof.
  destruct f as [|f']; [discriminate|]. cbn [dec]. destruct ((a mod align_of t =? 0) && _) eqn:E; [|discriminate].
  intros _. apply andb_prop in E as [_ E]. now apply ins_inside in E.
Qed.
Section Step.
Variable f : nat.
Hypothesis IH : forall t, wf A t -> cstr_free t -> good f t.
Hypothesis Hfree : all_free env.

Lemma IHn n : good f (tyof env n).
Proof. apply IH; [exact (tyof_wf env A Hwf n)|apply Hfree]. Qed.
Lemma szn n : 0 <= size_of (tyof env n) /\ 0 < align_of (tyof env n).
Proof. pose proof (wf_basic env A Hwf _ (tyof_wf env A Hwf n)) as (? & ? & _). lia. Qed.

Definition case t : Prop := forall m a v tr, bm m -> dec env (FR m) (S f) t a = Some (v, tr) -> sep tr ->
  ins a (size_of t) (align_of t) -> (forall m', (a mod align_of t =? 0) && inside (HR m') a (size_of t) (align_of t) = true) ->
  when chk (check_raw B hi a (size_of t) (align_of t)) = Ok tt ->
  exists m1, CV (S f) t m a = Ok m1 /\ eff tr m m1 /\ dec env (HR m1) (S f) t a = Some (v, tr).

Ltac start1 t Hm H Hs Hi Hg Hw := cbn [conv]; rewrite Hw; cbn [bind]; clear Hw;
  cbn [dec] in H;
  match type of H with (if ?c then _ else _) = _ => destruct c; [|discriminate H] end.
Tactic Notation "start" constr(t) := let m := fresh "m" in let a := fresh "a" in let v := fresh "v" in let tr := fresh "tr" in
  let Hm := fresh "Hm" in let H := fresh "H" in let Hs := fresh "Hs" in let Hi := fresh "Hi" in let Hg := fresh "Hg" in
  let Hw := fresh "Hw" in
  intros m a v tr Hm H Hs Hi Hg Hw; start1 t Hm H Hs Hi Hg Hw.
Ltac finish := split; [|cbn [dec];
  match goal with Hg : forall m', (_ =? 0) && _ = true |- _ => rewrite Hg end].

Lemma c_int w : case (TInt w).
Proof.
  start (TInt w). destruct (rint (FR m) a w) as [x|] eqn:E; [|discriminate]. apply some_pair in H as [<- <-].
  destruct (swap_eff m a w x Hm E) as (m1 & E1 & E2 & E3). exists m1. split; [exact E1|]. finish; [exact E2|].
  now rewrite (proj1 (E3 m1 ltac:(auto))).
Qed.
Lemma c_raw w : case (TRaw w).
Proof.
  start (TRaw w). cbn [plain r_mem] in H. destruct (rdn m a w) as [l|] eqn:E; [|discriminate]. apply some_pair in H as [<- <-].
  exists m. split; [reflexivity|]. finish; [now apply eff_refl|]. cbn [plain r_mem]. now rewrite E.
Qed.
Lemma c_ptr n : case (TPtr n).
Proof.
  start (TPtr n). cbv zeta in H. destruct (r_ptr (FR m) a) as [p|] eqn:Ep; [|discriminate].
  destruct (match p with None => true | _ => _ end) eqn:Ei; [|discriminate]. apply some_pair in H as [<- <-].
  assert (Ep' : rptr (FR m) true a = Some p).
  { rewrite <- Ep. unfold rptr, rint. cbn [plain r_ptr r_mem r_be]. now destruct (rdn m a 8). }
  assert (Hq : forall q, p = Some q -> ins q (size_of (tyof env n)) (align_of (tyof env n))).
  { intros q ->. now apply ins_inside in Ei. }
  pose proof (szn n) as [Hs0 _]. destruct Hi as (I1 & I2 & I3). cbn [size_of] in I2.
  destruct (conv_ptr_ok m a p Hm I1 I2 Ep') as (m1 & E1 & E2 & E3 & E4).
  { intros q Eq. destruct (Hq q Eq). lia. }
  exists m1. rewrite E1. cbn [bind]. destruct (E4 m1 ltac:(auto)) as (_ & K1 & _ & K2).
  rewrite when_ok by (apply K2; assumption). split; [reflexivity|]. finish.
  - split; [exact E2|]. intros z Hz. apply E3. intros Hz'. apply Hz. now apply touched_ptr.
  - rewrite K1. change (inside (HR m1)) with (inside (FR m)). now rewrite Ei.
Qed.
Lemma dec_frames R m m' t a v tr be rel : dec env (plain be m rel R tab) f t a = Some (v, tr) ->
  (forall z, touched tr z -> m' z = m z) -> dec env (plain be m' rel R tab) f t a = Some (v, tr).
Proof. apply dec_frame_plain. Qed.

Lemma c_agg fs sz al : wf A (TAgg fs sz al) -> cstr_free (TAgg fs sz al) -> case (TAgg fs sz al).
Proof.
  intros Hwt Hcf. start (TAgg fs sz al).
  destruct (mapM _ fs) as [[vs tr']|] eqn:E; [|discriminate]. apply some_pair in H as [<- <-].
  destruct (list_ok (fun ft m => CV f (snd ft) m (a + fst ft))
              (fun m ft => dec env (FR m) f (snd ft) (a + fst ft)) (fun m ft => dec env (HR m) f (snd ft) (a + fst ft)) fs) with (m := m) (xs := vs) (tr := tr')
    as (m1 & E1 & E2 & E3); try assumption.
  - intros; eapply dec_frames; eauto.
  - intros; eapply dec_frames; eauto.
  - intros [o t] m0 x t0 Hin Hm0 E0 Hs0. cbn [fst snd] in *.
    inversion Hwt as [| | |? ? ? Hal Hsp Hdv Hf Hap| | | | | | | ]; subst. destruct (Hf o t Hin) as (Hw & _).
    inversion Hcf as [| | |? ? ? Hc| | | | | | ]; subst. rewrite Forall_forall in Hc.
    exact (IH t Hw (Hc (o, t) Hin) m0 _ x t0 Hm0 E0 Hs0).
  - exists m1. split; [exact E1|]. finish; [exact E2|]. rewrite E3. reflexivity.
Qed.
Lemma c_opt t off sz al : wf A (TOpt t off sz al) -> cstr_free (TOpt t off sz al) -> case (TOpt t off sz al).
Proof.
  intros Hwt Hcf. start (TOpt t off sz al). destruct (rint (FR m) a 1) as [b|] eqn:E; [|discriminate].
  destruct (byte_ok m m a b E eq_refl) as [Eh Ed].
  assert (Ec : (b <= 1)%N -> (if chk then check_bool hb m a else dint hb m a 1) = Ok (Z.of_N b)).
  { intros Hb. unfold check_bool. rewrite Ed. cbn [bind]. replace (Z.of_N b <=? 1) with true by lia. now destruct chk. }
  destruct (b =? 0)%N eqn:E0.
  - apply some_pair in H as [<- <-]. rewrite Ec by lia. cbn [bind]. replace (Z.of_N b =? 0) with true by lia.
    exists m. split; [reflexivity|]. finish; [now apply eff_refl|]. now rewrite Eh, E0.
  - destruct (b =? 1)%N eqn:E1; [|discriminate]. rewrite Ec by lia. cbn [bind]. replace (Z.of_N b =? 0) with false by lia.
    destruct (dec env (FR m) f t (a + off)) as [[v' tr']|] eqn:E2; [|discriminate]. apply some_pair in H as [<- <-].
    apply sep_cons in Hs as [S1 S2]. inversion Hwt; subst. inversion Hcf; subst.
    destruct (IH t ltac:(assumption) ltac:(assumption) m _ _ _ Hm E2 S1) as (m1 & F1 & F2 & F3).
    exists m1. split; [exact F1|]. finish.
    + eapply eff_trans; [apply (eff_refl []); exact Hm|exact F2|]. intros z [Hz|Hz]; [destruct (touched_nil _ Hz)|apply touched_cons; auto].
    + destruct (byte_ok m m1 a b E) as [-> _].
      * apply F2. intros Hz. apply (S2 a); [apply touched_rd; lia|exact Hz].
      * now rewrite E0, E1, F3.
Qed.
Lemma c_var ts off sz al : wf A (TVar ts off sz al) -> cstr_free (TVar ts off sz al) -> case (TVar ts off sz al).
Proof.
  intros Hwt Hcf. start (TVar ts off sz al). destruct (rint (FR m) a 1) as [i|] eqn:E; [|discriminate].
  destruct (byte_ok m m a i E eq_refl) as [Eh Ed].
  destruct (nth_error ts (N.to_nat i)) as [t|] eqn:Et; [|discriminate].
  destruct (dec env (FR m) f t (a + off)) as [[v' tr']|] eqn:E2; [|discriminate]. apply some_pair in H as [<- <-].
  rewrite Ed. cbn [bind]. assert (N.to_nat i < length ts)%nat by (apply nth_error_Some; congruence).
  rewrite when_ok by (now replace (Z.of_N i <? Z.of_nat (length ts)) with true by lia). cbn [bind].
  replace (Z.to_nat (Z.of_N i)) with (N.to_nat i) by lia. rewrite Et.
  apply sep_cons in Hs as [S1 S2]. pose proof (nth_error_In _ _ Et) as Hin.
  inversion Hwt as [| | | | |? ? ? ? Hal Hdv Hoff Hsp Hlts Hf| | | | | ]; subst. destruct (Hf t Hin) as (Hw & _).
  inversion Hcf as [| | | | |? ? ? ? Hc| | | | ]; subst. rewrite Forall_forall in Hc.
  destruct (IH t Hw (Hc t Hin) m _ _ _ Hm E2 S1) as (m1 & F1 & F2 & F3).
  exists m1. split; [exact F1|]. finish.
  + eapply eff_trans; [apply (eff_refl []); exact Hm|exact F2|]. intros z [Hz|Hz]; [destruct (touched_nil _ Hz)|apply touched_cons; auto].
  + destruct (byte_ok m m1 a i E) as [-> _].
    * apply F2. intros Hz. apply (S2 a); [apply touched_rd; lia|exact Hz].
    * now rewrite Et, F3.
Qed.
Lemma c_uniq n : case (TUniq n).
Proof.
  start (TUniq n). cbv zeta in H. cbn [plain r_rel] in H.
  destruct (rptr (FR m) true a) as [p|] eqn:Ep; [|discriminate].
  destruct (zero_at (FR m) (a + 8)) as [z|] eqn:Ez; [|discriminate].
  destruct (zero_ok m m (a + 8) z Ez eq_refl) as (_ & -> & _).
  destruct Hi as (I1 & I2 & I3). cbn [size_of align_of] in I2, I3. pose proof (szn n) as [Hs0 _].
  assert (Hq : forall q, p = Some q -> ins q (size_of (tyof env n)) (align_of (tyof env n))).
  { intros q ->. destruct (dec env (FR m) f (tyof env n) q) as [[v' tr']|] eqn:E; [|discriminate]. eapply dec_in; exact E. }
  destruct (conv_slot_ok m a (tyof env n) p Hm ltac:(split; lia) Ep Hs0 Hq) as (m1 & E1 & E2 & E3).
  rewrite E1. cbn [bind]. destruct (E3 m1 ltac:(auto)) as (_ & Kc & _).
  assert (Eb : m1 (a + 8) = m (a + 8)). { apply E2. rewrite touched_rd. lia. }
  destruct (zero_ok m m1 (a + 8) _ Ez Eb) as (_ & _ & Ed).
  rewrite when_ok by (unfold check_bool; rewrite Ed; reflexivity). cbn [bind]. rewrite Kc. cbn [bind].
  destruct p as [q|].
  - destruct (dec env (FR m) f (tyof env n) q) as [[v' tr']|] eqn:E; [|discriminate]. apply some_pair in H as [<- <-].
    change (sep ([Rd a 8; Rd (a + 8) 1; Blk false q (size_of (tyof env n)) (align_of (tyof env n))] ++ tr')) in Hs.
    apply sep_app in Hs as (_ & S2 & S3).
    assert (Town : forall z, a <= z < a + 9 -> touched tr' z -> False).
    { intros z Hz Hz'. apply (S3 z); [|exact Hz']. rewrite touched_cons, touched_rd, touched_cons, touched_rd. lia. }
    assert (E' : dec env (FR m1) f (tyof env n) q = Some (v', tr')).
    { eapply dec_frames; [exact E|]. intros z Hz. apply E2. rewrite touched_rd. intros Hz'. apply (Town z); [lia|exact Hz]. }
    destruct (IHn n m1 q v' tr' (proj1 E2) E' S2) as (m2 & F1 & F2 & F3).
    exists m2. split; [exact F1|]. finish.
    + eapply eff_trans; [exact E2|exact F2|]. intros z [Hz|Hz].
      * apply touched_cons. now left.
      * cbn [app]. apply touched_cons. right. apply touched_cons. right. apply touched_cons. now right.
    + cbv zeta. change (r_rel (HR m2)) with (negb raw).
      assert (K8 : same_on a 8 m1 m2). { eapply eff_same; [exact F2|]. intros z Hz. apply Town. lia. }
      destruct (E3 m2 K8) as (-> & _). destruct (zero_ok m m2 (a + 8) _ Ez) as (-> & _).
      { rewrite <- Eb. apply F2. intros Hz. apply (Town (a + 8)); [lia|exact Hz]. }
      now rewrite F3.
  - apply some_pair in H as [<- <-]. exists m1. split; [reflexivity|]. finish.
    + eapply eff_trans; [exact E2|apply (eff_refl []); exact (proj1 E2)|]. intros z [Hz|Hz]; [|destruct (touched_nil _ Hz)].
      apply touched_cons. now left.
    + cbv zeta. change (r_rel (HR m1)) with (negb raw). destruct (E3 m1 ltac:(auto)) as (-> & _).
      destruct (zero_ok m m1 (a + 8) _ Ez Eb) as (-> & _). reflexivity.
Qed.
Lemma eff_nil tr m m1 : eff [] m m1 -> eff tr m m1.
Proof. intros H. eapply eff_trans; [exact H|apply (eff_refl []); exact (proj1 H)|]. intros z [Hz|Hz]; destruct (touched_nil _ Hz). Qed.
Lemma mul_ok x y : 0 <= x -> 0 <= y < 2 ^ 64 -> 0 <= x * y < 2 ^ 64 -> x < 2 ^ 64 -> checked_multiplication ty_u64 x [y] = Ok (x * y).
Proof.
  intros H1 H2 H3 H4. cbn [checked_multiplication].
  destruct (multiply_if_ok_spec ty_u64 x y) as [[-> _]|[_ Hn]];
    [reflexivity|unfold ity_ok; cbn; lia|unfold in_ity; cbn; lia|unfold in_ity; cbn; lia|reflexivity|].
  exfalso. apply Hn. unfold in_ity. cbn. lia.
Qed.
Lemma add_ok x y : 0 <= x -> 0 <= y -> x + y < 2 ^ 64 -> add_if_ok ty_u64 x y = Ok (x + y).
Proof.
  intros H1 H2 H3. destruct (add_if_ok_spec ty_u64 x y) as [[-> _]|[_ Hn]];
    [unfold in_ity; cbn; lia|unfold in_ity; cbn; lia|reflexivity|].
  exfalso. apply Hn. unfold in_ity. cbn. lia.
Qed.

Lemma c_vec w ix n : In w [4; 8]%nat -> case (TVec w ix n).
Proof.
  intros Hw0. assert (Hw : (w = 4 \/ w = 8)%nat) by (destruct Hw0 as [<-|[<-|[]]]; auto). clear Hw0.
  start (TVec w ix n). cbv zeta in H. set (T := tyof env n) in *. change (r_rel (FR m)) with true in H.
  change (r_ck (FR m)) with (Some (B, hi)) in H. cbv iota in H.
  destruct (rptr (FR m) true a) as [p|] eqn:Ep; [|discriminate].
  destruct (rint (FR m) (a + 8) w) as [used|] eqn:Eu; [|discriminate].
  destruct (rint (FR m) (a + 8 + Z.of_nat w) w) as [alloc|] eqn:Ea; [|discriminate].
  destruct (alloc =? used)%N eqn:Eau; [|discriminate]. apply N.eqb_eq in Eau. subst alloc.
  destruct (zero_at (FR m) (a + 8 + 2 * Z.of_nat w)) as [z|] eqn:Ez; [|discriminate].
  destruct (zero_ok m m _ z Ez eq_refl) as (_ & -> & _).
  assert (Estrict : forall c, strict (FR m) c = c) by reflexivity. rewrite Estrict in H. clear Estrict.
  destruct Hi as (I1 & I2 & I3). cbn [size_of align_of] in I2, I3. pose proof (szn n) as [Hs0 _]. fold T in Hs0.
  pose proof (Hsz n) as Hs2. fold T in Hs2.
  assert (Hub : 0 <= Z.of_N used < 2 ^ 64).
  { unfold rint in Eu. destruct (rdn (r_mem (FR m)) (a + 8) w) as [l|] eqn:El; [|discriminate].
    injection Eu as <-. pose proof (to_int_bound fb l (rdn_bm _ _ _ _ Hm El)) as Hx. rewrite (rdn_length _ _ _ _ El) in Hx.
    cbn [plain r_be]. assert (256 ^ N.of_nat w <= 256 ^ 8)%N by (apply N.pow_le_mono_r; lia).
    change (256 ^ 8)%N with 18446744073709551616%N in *. lia. }
  assert (Hpu : (used = 0%N /\ p = None) \/ (exists q, used <> 0%N /\ p = Some q /\ ins q (size_of T * Z.of_N used) (align_of T))).
  { destruct (used =? 0)%N eqn:Eu0.
    - left. destruct p; [discriminate|]. split; [lia|reflexivity].
    - right. destruct p as [q|]; [|discriminate].
      destruct (inside (FR m) q (size_of T * Z.of_N used) (align_of T)) eqn:Ei; [|discriminate].
      exists q. split; [lia|]. split; [reflexivity|]. now apply ins_inside in Ei. }
  assert (Hq : forall q, p = Some q -> ins q (size_of T) (align_of T)).
  { intros q ->. destruct Hpu as [[_ ?]|(q' & Hu & E & Hi)]; [discriminate|]. injection E as <-.
    destruct Hi as (J1 & J2 & J3). assert (size_of T * 1 <= size_of T * Z.of_N used) by (apply Z.mul_le_mono_nonneg_l; lia).
    split; [lia|]. split; [lia|exact J3]. }
  (* the three conversions *)
  destruct (conv_slot_ok m a T p Hm ltac:(split; lia) Ep Hs0 Hq) as (m1 & E1 & E2 & E3). rewrite E1. cbn [bind].
  assert (Ea1 : rint (FR m1) (a + 8 + Z.of_nat w) w = Some used).
  { rewrite <- Ea. apply rint_same; [reflexivity|]. eapply eff_same; [exact E2|]. intros z Hz. rewrite touched_rd. lia. }
  destruct (swap_eff m1 _ w used (proj1 E2) Ea1) as (m2 & F1 & F2 & F3). rewrite F1. cbn [bind].
  assert (Eu1 : rint (FR m2) (a + 8) w = Some used).
  { rewrite <- Eu. apply rint_same; [reflexivity|]. cbn [plain r_mem]. intros z Hz.
    transitivity (m1 z); [apply F2|apply E2]; rewrite touched_rd; lia. }
  destruct (swap_eff m2 _ w used (proj1 F2) Eu1) as (m3 & G1 & G2 & G3). rewrite G1. cbn [bind].
  (* what the memory holds afterwards, and in any later memory that keeps the members *)
  assert (Keep : forall m', same_on a (9 + 2 * Z.of_nat w) m3 m' ->
    rptr (HR m') (negb raw) a = Some p /\ cptr hb raw strict_i64 m' a = Ok p /\
    (forall size al, 0 <= size -> (forall q, p = Some q -> ins q size al) -> check_slot hb raw strict_i64 B hi m' a size al = Ok tt) /\
    rint (HR m') (a + 8) w = Some used /\ dint hb m' (a + 8) w = Ok (Z.of_N used) /\
    rint (HR m') (a + 8 + Z.of_nat w) w = Some used /\ dint hb m' (a + 8 + Z.of_nat w) w = Ok (Z.of_N used) /\
    zero_at (HR m') (a + 8 + 2 * Z.of_nat w) = Some [Rd (a + 8 + 2 * Z.of_nat w) 1] /\ dint hb m' (a + 8 + 2 * Z.of_nat w) 1 = Ok 0).
  { intros m' Hk.
    destruct (E3 m') as (X1 & X2 & X3).
    { intros z Hz. rewrite Hk by lia. transitivity (m2 z); [apply G2|apply F2]; rewrite touched_rd; lia. }
    destruct (F3 m') as (X4 & X5).
    { intros z Hz. rewrite Hk by lia. apply G2; rewrite touched_rd; lia. }
    destruct (G3 m') as (X6 & X7). { intros z Hz. apply Hk. lia. }
    destruct (zero_ok m m' _ _ Ez) as (X8 & _ & X9).
    { rewrite Hk by lia. transitivity (m2 (a + 8 + 2 * Z.of_nat w)); [apply G2; rewrite touched_rd; lia|].
      transitivity (m1 (a + 8 + 2 * Z.of_nat w)); [apply F2; rewrite touched_rd; lia|apply E2; rewrite touched_rd; lia]. }
    auto 12. }
  destruct (Keep m3 ltac:(auto)) as (_ & Y2 & Y3 & _ & Y5 & _ & Y7 & _ & Y9).
  assert (Em : eff [Rd a 8; Rd (a + 8) (Z.of_nat w); Rd (a + 8 + Z.of_nat w) (Z.of_nat w); Rd (a + 8 + 2 * Z.of_nat w) 1] m m3).
  { eapply eff_trans; [exact E2| |].
    - eapply (eff_trans _ _ ([_] ++ [_])); [exact F2|exact G2|]. intros z Hz. apply touched_app. exact Hz.
    - cbn [app]. intros z. rewrite !touched_cons2, !touched_rd. tauto. }
  rewrite when_ok.
  2:{ unfold check_vec. rewrite Y7. cbn [bind].
      assert (Hk : 0 <= Z.of_N used * size_of T < 2 ^ 64).
      { destruct Hpu as [[-> _]|(q & _ & _ & (J1 & J2 & _))]; [cbn; lia|]. rewrite Z.mul_comm.
        assert (0 <= size_of T * Z.of_N used) by (apply Z.mul_nonneg_nonneg; lia). lia. }
      rewrite mul_ok by lia. cbn [bind]. rewrite Y3.
      2:{ lia. }
      2:{ intros q Eq. destruct Hpu as [[_ ?]|(q' & _ & E & Hi)]; [congruence|]. rewrite Z.mul_comm. congruence. }
      cbn [bind]. unfold check_bool. rewrite Y9. cbn [bind Z.leb Z.compare verify Z.eqb]. rewrite Y5. cbn [bind].
      rewrite Z.eqb_refl. cbn [verify bind]. rewrite Y2. cbn [bind].
      destruct Hpu as [[-> ->]|(q & Hu & -> & _)]; [reflexivity|]. now replace (Z.of_N used =? 0) with false by lia. }
  cbn [bind]. rewrite Y5. cbn [bind]. rewrite Y2. cbn [bind].
  destruct (used =? 0)%N eqn:Eu0.
  - destruct p as [q|]; [discriminate|]. apply some_pair in H as [<- <-]. replace (Z.of_N used =? 0) with true by lia.
    exists m3. split; [reflexivity|]. finish.
    + rewrite app_nil_r. exact Em.
    + cbv zeta. change (r_rel (HR m3)) with (negb raw). change (r_ck (HR m3)) with (Some (B, hi)). cbv iota.
      destruct (Keep m3 ltac:(auto)) as (-> & _ & _ & -> & _ & -> & _ & -> & _). rewrite N.eqb_refl, Eu0. reflexivity.
  - destruct p as [q|]; [|discriminate].
    destruct (inside (FR m) q (size_of T * Z.of_N used) (align_of T)) eqn:Ei; [|discriminate].
    destruct (mapM _ (seq 0 (N.to_nat used))) as [[vs tr']|] eqn:Em0; [|discriminate]. apply some_pair in H as [<- <-].
    replace (Z.to_nat (Z.of_N used)) with (N.to_nat used) by lia.
    set (own := [Rd a 8; Rd (a + 8) (Z.of_nat w); Rd (a + 8 + Z.of_nat w) (Z.of_nat w); Rd (a + 8 + 2 * Z.of_nat w) 1]) in *.
    change (Rd a 8 :: Rd (a + 8) (Z.of_nat w) :: [Rd (a + 8 + Z.of_nat w) (Z.of_nat w)] ++ [Rd (a + 8 + 2 * Z.of_nat w) 1]) with own in *.
    apply sep_app in Hs as (_ & Hs & S3). apply sep_app in Hs as (_ & S2 & _).
    assert (Town : forall z, a <= z < a + (9 + 2 * Z.of_nat w) -> touched tr' z -> False).
    { intros z Hz Hz'. apply (S3 z); [|apply touched_app; now right]. unfold own. rewrite !touched_cons2, !touched_rd. lia. }
    assert (Em3 : mapM (fun i => dec env (FR m3) f T (q + Z.of_nat i * size_of T)) (seq 0 (N.to_nat used)) = Some (vs, tr')).
    { assert (K : forall l ys ts, mapM (fun i => dec env (FR m) f T (q + Z.of_nat i * size_of T)) l = Some (ys, ts) -> (forall z, touched ts z -> m3 z = m z) ->
                  mapM (fun i => dec env (FR m3) f T (q + Z.of_nat i * size_of T)) l = Some (ys, ts)).
      { clear. induction l as [|o l IHl]; intros ys ts H Ht; cbn [mapM] in *; [exact H|].
        destruct (dec env (FR m) f T (q + Z.of_nat o * size_of T)) as [[y t]|] eqn:E; [|discriminate].
        destruct (mapM _ l) as [[zs us]|] eqn:E2; [|discriminate].
        apply some_pair in H as [<- <-]. erewrite (dec_frame_plain _ _ _ _ _ _ _ _ _ _ _ _ E); [|intros; apply Ht, touched_app; auto].
        rewrite (IHl _ _ eq_refl); [reflexivity|]. intros; apply Ht, touched_app; auto. }
      apply K; [exact Em0|]. intros z Hz. apply Em. intros Hz'. apply (S3 z Hz'). apply touched_app. now right. }
    destruct (list_ok (fun i m => CV f T m (q + Z.of_nat i * size_of T))
              (fun m i => dec env (FR m) f T (q + Z.of_nat i * size_of T)) (fun m i => dec env (HR m) f T (q + Z.of_nat i * size_of T)) (seq 0 (N.to_nat used)))
      with (m := m3) (xs := vs) (tr := tr') as (m4 & L1 & L2 & L3); try assumption.
    + intros; eapply dec_frames; eauto.
    + intros; eapply dec_frames; eauto.
    + intros i m0 x t0 _ Hm0 E0 Hs1. exact (IHn n m0 _ x t0 Hm0 E0 Hs1).
    + exact (proj1 Em).
    + exists m4. split; [exact L1|]. finish.
      * eapply eff_trans; [exact Em|exact L2|]. intros z [Hz|Hz]; apply touched_app; [now left|right]. apply touched_app. now right.
      * cbv zeta. change (r_rel (HR m4)) with (negb raw). change (r_ck (HR m4)) with (Some (B, hi)). cbv iota.
        destruct (Keep m4) as (-> & _ & _ & -> & _ & -> & _ & -> & _). { eapply eff_same; [exact L2|]. exact Town. }
        rewrite N.eqb_refl, Eu0. fold T. change (inside (HR m4)) with (inside (FR m)). rewrite Ei. rewrite L3. reflexivity.
Qed.

Lemma c_str : case TStr.
Proof.
  start TStr. destruct (rint (FR m) a 1) as [b|] eqn:E; [|discriminate].
  destruct (byte_ok m m a b E eq_refl) as [Eh Ed]. rewrite Ed. cbn [bind].
  destruct Hi as (I1 & I2 & I3). cbn [size_of align_of] in I2, I3.
  destruct (negb (b =? 0)%N) eqn:Eb.
  - (* inline *)
    destruct (b =? 1)%N eqn:E1; [|discriminate]. change (r_mem (FR m)) with m in H.
    destruct (rdn m (a + 1) 15) as [l|] eqn:El; [|discriminate].
    apply some_pair in H as [<- <-]. replace (Z.of_N b =? 0) with false by lia. cbn [bind].
    rewrite when_ok.
    2:{ unfold check_str, check_bool. rewrite Ed. cbn [bind]. replace (Z.of_N b <=? 1) with true by lia. cbn [verify bind].
        now replace (Z.of_N b =? 0) with false by lia. }
    exists m. split; [reflexivity|]. finish; [now apply eff_refl|]. rewrite Eh, Eb, E1. change (r_mem (HR m)) with m. now rewrite El.
  - (* on the heap *)
    assert (b = 0%N) by (destruct (N.eqb_spec b 0); [assumption|discriminate]). subst b. cbn [Z.of_N Z.eqb].
    change (r_rel (FR m)) with true in H.
    destruct (rptr (FR m) true (a + 8)) as [p|] eqn:Ep; [|discriminate].
    destruct (rint (FR m) (a + 4) 4) as [size|] eqn:Es; [|discriminate].
    destruct (zero_at (FR m) (a + 1)) as [z|] eqn:Ez; [|discriminate].
    destruct (zero_ok m m _ z Ez eq_refl) as (_ & -> & _).
    assert (Hpu : (size = 0%N /\ p = None) \/ (exists q l, size <> 0%N /\ p = Some q /\ ins q (Z.of_N size) 1 /\
               rdn m q (N.to_nat size) = Some l /\
               v = VStr l /\ tr = [Rd a 1; Rd (a + 8) 8; Rd (a + 4) 4; Rd (a + 1) 1] ++ [Rd q (Z.of_N size)])).
    { destruct p as [q|].
      - right. destruct (negb (size =? 0)%N && _) eqn:Ei; [|discriminate]. apply andb_prop in Ei as [J1 J2].
        change (r_mem (FR m)) with m in H. destruct (rdn m q (N.to_nat size)) as [l|] eqn:El; [|discriminate].
        apply some_pair in H as [<- <-]. exists q, l. apply ins_inside in J2. split; [lia|]. auto.
      - left. destruct (size =? 0)%N eqn:E0; [|discriminate]. split; [lia|reflexivity]. }
    assert (Hq : forall q, p = Some q -> ins q (size_of (TInt 1)) (align_of (TInt 1))).
    { intros q ->. destruct Hpu as [[_ ?]|(q' & l & Hu & Eq & (J1 & J2 & _) & _)]; [discriminate|]. injection Eq as <-.
      split; [exact J1|]. cbn [size_of align_of]. split; [lia|apply Z.mod_1_r]. }
    assert (I8 : ins (a + 8) 8 8). { split; [lia|]. split; [lia|]. rewrite Z.add_mod, I3 by lia. reflexivity. }
    destruct (conv_slot_ok m (a + 8) (TInt 1) p Hm I8 Ep ltac:(cbn; lia) Hq) as (m1 & E1 & E2 & E3).
    rewrite E1. cbn [bind].
    assert (Es1 : rint (FR m1) (a + 4) 4 = Some size).
    { rewrite <- Es. apply rint_same; [reflexivity|]. eapply eff_same; [exact E2|]. intros z Hz. rewrite touched_rd. lia. }
    destruct (swap_eff m1 _ 4 size (proj1 E2) Es1) as (m2 & F1 & F2 & F3). rewrite F1. cbn [bind].
    assert (Em : eff [Rd a 1; Rd (a + 8) 8; Rd (a + 4) 4; Rd (a + 1) 1] m m2).
    { eapply eff_trans; [exact E2|exact F2|]. intros z. rewrite !touched_cons2, !touched_rd. tauto. }
    assert (Ob : forall z, ~ (a + 4 <= z < a + 16) -> m2 z = m z).
    { intros z Hz. transitivity (m1 z); [apply F2|apply E2]; rewrite touched_rd; lia. }
    destruct (byte_ok m m2 a 0 E ltac:(apply Ob; lia)) as [X1 X2].
    destruct (zero_ok m m2 (a + 1) _ Ez ltac:(apply Ob; lia)) as (X3 & _ & X4).
    destruct (E3 m2) as (X5 & X6 & X7). { eapply eff_same; [exact F2|]. intros z Hz. rewrite touched_rd. lia. }
    destruct (F3 m2 ltac:(auto)) as (X8 & X9). cbn [Z.of_nat] in *.
    rewrite when_ok.
    2:{ unfold check_str, check_bool. rewrite X2. cbn [bind Z.of_N Z.leb Z.compare verify Z.eqb negb]. rewrite X9. cbn [bind].
        rewrite X7; [|lia|].
        2:{ intros q Eq. destruct Hpu as [[_ ?]|(q' & l & Hu & Eq' & Hi' & _)]; congruence. }
        cbn [bind]. rewrite X4. cbn [bind Z.leb Z.compare verify Z.eqb]. rewrite X6. cbn [bind].
        destruct Hpu as [[-> ->]|(q & l & Hu & -> & _)]; [reflexivity|]. now replace (Z.of_N size =? 0) with false by lia. }
    exists m2. split; [reflexivity|]. destruct Hpu as [[-> ->]|(q & l & Hu & -> & Hi' & El & -> & ->)].
    + apply some_pair in H as [<- <-]. finish; [exact Em|]. rewrite X1. cbn [N.eqb negb]. change (r_rel (HR m2)) with (negb raw).
      rewrite X5, X8, X3. reflexivity.
    + finish.
      * eapply eff_trans; [exact Em|apply (eff_refl []); exact (proj1 Em)|].
        intros z [Hz|Hz]; [apply touched_app; now left|destruct (touched_nil _ Hz)].
      * apply sep_app in Hs as (_ & _ & S3). rewrite X1. cbn [N.eqb negb]. change (r_rel (HR m2)) with (negb raw).
        rewrite X5, X8, X3. replace (size =? 0)%N with false by lia. cbn [negb andb].
        replace (inside (HR m2) q (Z.of_N size) 1) with true by (symmetry; now apply ins_inside).
        change (r_mem (HR m2)) with m2. replace (rdn m2 q (N.to_nat size)) with (Some l); [reflexivity|].
        rewrite <- El. apply rdn_ext. intros z Hz. symmetry. apply Em. intros Hz'. apply (S3 z Hz'). apply touched_rd. lia.
Qed.

Lemma c_hash n : case (THash n).
Proof.
  start (THash n). cbv zeta in H. set (T := tyof env n) in *. change (r_rel (FR m)) with true in H.
  change (r_mem (FR m)) with m in H. change (r_tab (FR m)) with tab in H.
  destruct (rptr (FR m) true a) as [pe|] eqn:Epe; [|discriminate].
  destruct (rptr (FR m) true (a + 8)) as [pc|] eqn:Epc; [|discriminate].
  destruct (rint (FR m) (a + 16) 8) as [size|] eqn:Es; [|discriminate].
  destruct (rint (FR m) (a + 24) 8) as [cap|] eqn:Ecap; [|discriminate].
  destruct (rint (FR m) (a + 32) 8) as [growth|] eqn:Eg; [|discriminate].
  destruct (zero_at (FR m) (a + 40)) as [z|] eqn:Ez; [|discriminate].
  destruct (zero_ok m m _ z Ez eq_refl) as (_ & -> & _).
  destruct pc as [c|]; [|discriminate].
  destruct (_ && inside (FR m) c _ _) eqn:Ei; [|discriminate]. apply andb_prop in Ei as [Hcap Hc]. apply ins_inside in Hc.
  destruct (rdn m c (N.to_nat cap + 9)) as [ctrl|] eqn:Ect; [|discriminate].
  destruct (tab size cap growth ctrl) eqn:Et; [|discriminate].
  destruct Hi as (I1 & I2 & I3). cbn [size_of align_of] in I2, I3. pose proof (szn n) as [Hs0 Hal]. fold T in Hs0, Hal.
  pose proof (Hsz n) as Hs2. fold T in Hs2.
  assert (Hbig : 0 <= Z.of_N cap * size_of T) by (apply Z.mul_nonneg_nonneg; lia).
  set (own := [Rd a 8; Rd (a + 8) 8; Rd (a + 16) 8; Rd (a + 24) 8; Rd (a + 32) 8; Rd (a + 40) 1; Rd c (Z.of_N cap + 9)]).
  change (Rd a 8 :: Rd (a + 8) 8 :: Rd (a + 16) 8 :: Rd (a + 24) 8 :: Rd (a + 32) 8 :: [Rd (a + 40) 1] ++ [Rd c (Z.of_N cap + 9)]) with own in H.
  pose proof (rdn_length _ _ _ _ Ect) as Lct.
  assert (Hctl : check_ctrl ctrl (Z.of_N size) (Z.of_nat (N.to_nat cap)) (Z.of_N growth) = Ok tt).
  { apply Htab in Et. unfold ctrl_tab in Et. replace (Z.of_nat (N.to_nat cap)) with (Z.of_N cap) by lia.
    destruct (check_ctrl ctrl (Z.of_N size) (Z.of_N cap) (Z.of_N growth)) as [[]| | |]; try discriminate. reflexivity. }
  destruct (check_ctrl_facts ctrl (N.to_nat cap) Lct (Z.of_N size) (Z.of_N growth) Hctl) as (Q1 & Q2 & Q3).
  assert (Hpe : (pe = None /\ cap = 0%N /\ size = 0%N /\ v = VTab size growth ctrl [] /\ tr = own) \/
          (exists e vs tr', pe = Some e /\ c = e + Z.of_N cap * size_of T /\ cap <> 0%N /\
             ins e (Z.of_N cap * size_of T + (Z.of_N cap + 9)) (align_of T) /\
             mapM (fun i => if is_full (nth i ctrl EMPTY)
                            then let? (v, tr) := dec env (FR m) f T (e + Z.of_nat i * size_of T) in Some (Some v, tr)
                            else Some (None, [])) (seq 0 (N.to_nat cap)) = Some (vs, tr') /\
             v = VTab size growth ctrl vs /\ tr = own ++ tr' /\
             (c =? e + Z.of_N cap * size_of T) && negb ((cap =? 0)%N && (size =? 0)%N) &&
                    inside (FR m) e (Z.of_N cap * size_of T + (Z.of_N cap + 9)) (align_of T) = true)).
  { destruct pe as [e|].
    - right. destruct (_ && inside (FR m) e _ _) eqn:Ei; [|discriminate].
      destruct (mapM _ _) as [[vs tr']|] eqn:Em; [|discriminate]. apply some_pair in H as [<- <-].
      exists e, vs, tr'. pose proof Ei as Ei'. apply andb_prop in Ei' as [Ei' J3]. apply andb_prop in Ei' as [J1 J2].
      apply ins_inside in J3. split; [reflexivity|]. split; [lia|]. split.
      { intros ->. pose proof (check_ctrl_size ctrl 0 Lct (Z.of_N size) (Z.of_N growth) Hctl) as K. cbn in K. assert (size = 0%N) by lia. subst size. discriminate J2. }
      auto 8.
    - left. destruct ((cap =? 0)%N && (size =? 0)%N) eqn:E0; [|discriminate]. apply some_pair in H as [<- <-].
      split; [reflexivity|]. split; [lia|]. split; [lia|]. auto. }
  clear H.
  assert (Hq : forall q, pe = Some q -> ins q (size_of T) (align_of T)).
  { intros q ->. destruct Hpe as [[? _]|(e & vs & tr' & Eq & _ & Hc0 & (J1 & J2 & J3) & _)]; [discriminate|]. injection Eq as <-.
    assert (1 * size_of T <= Z.of_N cap * size_of T) by (apply Z.mul_le_mono_nonneg_r; lia).
    split; [exact J1|]. split; [lia|exact J3]. }
  assert (Hqc : forall q, Some c = Some q -> ins q (size_of (TInt 1)) (align_of (TInt 1))).
  { intros q [= <-]. destruct Hc as (J1 & J2 & J3). split; [exact J1|]. cbn [size_of align_of]. split; [lia|apply Z.mod_1_r]. }
  assert (I8 : ins (a + 8) 8 8). { split; [lia|]. split; [lia|]. rewrite Z.add_mod, I3 by lia. reflexivity. }
  destruct (conv_slot_ok m a T pe Hm ltac:(split; lia) Epe Hs0 Hq) as (m1 & E1 & E2 & E3). rewrite E1. cbn [bind].
  assert (Epc1 : rptr (FR m1) true (a + 8) = Some (Some c)).
  { rewrite <- Epc. unfold rptr. rewrite (rint_same (FR m) (FR m1) (a + 8) 8); [reflexivity|reflexivity|].
    eapply eff_same; [exact E2|]. intros z Hz. rewrite touched_rd. lia. }
  destruct (conv_slot_ok m1 (a + 8) (TInt 1) (Some c) (proj1 E2) I8 Epc1 ltac:(cbn; lia) Hqc) as (m2 & F1 & F2 & F3). rewrite F1. cbn [bind].
  assert (Es2 : rint (FR m2) (a + 16) 8 = Some size).
  { rewrite <- Es. apply rint_same; [reflexivity|]. cbn [plain r_mem]. intros z Hz.
    transitivity (m1 z); [apply F2|apply E2]; rewrite touched_rd; lia. }
  destruct (swap_eff m2 _ 8 size (proj1 F2) Es2) as (m3 & G1 & G2 & G3). rewrite G1. cbn [bind].
  assert (Ob3 : forall z, ~ (a <= z < a + 24) -> m3 z = m z).
  { intros z Hz. transitivity (m2 z); [apply G2; rewrite touched_rd; lia|]. transitivity (m1 z); [apply F2|apply E2]; rewrite touched_rd; lia. }
  assert (Es3 : rint (FR m3) (a + 24) 8 = Some cap).
  { rewrite <- Ecap. apply rint_same; [reflexivity|]. cbn [plain r_mem]. intros z Hz. apply Ob3. lia. }
  destruct (swap_eff m3 _ 8 cap (proj1 G2) Es3) as (m4 & H1 & H2 & H3). rewrite H1. cbn [bind].
  assert (Es4 : rint (FR m4) (a + 32) 8 = Some growth).
  { rewrite <- Eg. apply rint_same; [reflexivity|]. cbn [plain r_mem]. intros z Hz.
    transitivity (m3 z); [apply H2; rewrite touched_rd; lia|apply Ob3; lia]. }
  destruct (swap_eff m4 _ 8 growth (proj1 H2) Es4) as (m5 & K1 & K2 & K3). rewrite K1. cbn [bind].
  assert (Ob5 : forall z, ~ (a <= z < a + 40) -> m5 z = m z).
  { intros z Hz. transitivity (m4 z); [apply K2; rewrite touched_rd; lia|]. transitivity (m3 z); [apply H2; rewrite touched_rd; lia|apply Ob3; lia]. }
  assert (Hown : sep own). { destruct Hpe as [(_ & _ & _ & _ & ->)|(e & vs & tr' & _ & _ & _ & _ & _ & _ & -> & _)]; [exact Hs|]. now apply sep_app in Hs. }
  assert (Tc : forall z, c <= z < c + (Z.of_N cap + 9) -> a <= z < a + 41 -> False).
  { intros z Hz1 Hz2. change own with ([Rd a 8; Rd (a + 8) 8; Rd (a + 16) 8; Rd (a + 24) 8; Rd (a + 32) 8; Rd (a + 40) 1] ++ [Rd c (Z.of_N cap + 9)]) in Hown.
    apply sep_app in Hown as (_ & _ & S). apply (S z); [|now apply touched_rd]. rewrite !touched_cons2, !touched_rd. lia. }
  assert (Em : eff own m m5).
  { split; [exact (proj1 K2)|]. intros z Hz. apply Ob5. intros Hz'. apply Hz. unfold own. rewrite !touched_cons2, !touched_rd. lia. }
  assert (Keep : forall m', same_on a 41 m5 m' ->
    rptr (HR m') (negb raw) a = Some pe /\ cptr hb raw strict_i64 m' a = Ok pe /\
    (forall size al, 0 <= size -> (forall q, pe = Some q -> ins q size al) -> check_slot hb raw strict_i64 B hi m' a size al = Ok tt) /\
    rptr (HR m') (negb raw) (a + 8) = Some (Some c) /\ cptr hb raw strict_i64 m' (a + 8) = Ok (Some c) /\
    (forall size al, 0 <= size -> ins c size al -> check_slot hb raw strict_i64 B hi m' (a + 8) size al = Ok tt) /\
    rint (HR m') (a + 16) 8 = Some size /\ dint hb m' (a + 16) 8 = Ok (Z.of_N size) /\
    rint (HR m') (a + 24) 8 = Some cap /\ dint hb m' (a + 24) 8 = Ok (Z.of_N cap) /\
    rint (HR m') (a + 32) 8 = Some growth /\ dint hb m' (a + 32) 8 = Ok (Z.of_N growth) /\
    zero_at (HR m') (a + 40) = Some [Rd (a + 40) 1] /\ dint hb m' (a + 40) 1 = Ok 0).
  { intros m' Hk.
    assert (C5 : forall z, a <= z < a + 32 -> m' z = m4 z). { intros z Hz. rewrite Hk by lia. apply K2. rewrite touched_rd. lia. }
    assert (C4 : forall z, a <= z < a + 24 -> m' z = m3 z). { intros z Hz. rewrite C5 by lia. apply H2. rewrite touched_rd. lia. }
    assert (C3 : forall z, a <= z < a + 16 -> m' z = m2 z). { intros z Hz. rewrite C4 by lia. apply G2. rewrite touched_rd. lia. }
    assert (C2 : forall z, a <= z < a + 8 -> m' z = m1 z). { intros z Hz. rewrite C3 by lia. apply F2. rewrite touched_rd. lia. }
    destruct (E3 m' ltac:(intros; apply C2; lia)) as (X1 & X2 & X3).
    destruct (F3 m' ltac:(intros; apply C3; lia)) as (X4 & X5 & X6).
    destruct (G3 m' ltac:(intros; apply C4; lia)) as (X7 & X8).
    destruct (H3 m' ltac:(intros; apply C5; lia)) as (X9 & X10).
    destruct (K3 m' ltac:(intros; apply Hk; lia)) as (X11 & X12).
    destruct (zero_ok m m' (a + 40) _ Ez) as (X13 & _ & X14). { rewrite Hk by lia. apply Ob5. lia. }
    split; [exact X1|]. split; [exact X2|]. split; [exact X3|]. split; [exact X4|]. split; [exact X5|].
    split. { intros sz al Hsz0 Hin. apply X6; [exact Hsz0|]. intros q [= <-]. exact Hin. }
    auto 9. }
  destruct (Keep m5 ltac:(auto)) as (_ & Y2 & Y3 & _ & Y5 & Y6 & _ & Y8 & _ & Y10 & _ & Y12 & _ & Y14).
  assert (Ect5 : rdn m5 c (N.to_nat cap + 9) = Some ctrl).
  { rewrite <- Ect. apply rdn_ext. intros z Hz. apply Ob5. intros Hz'. apply (Tc z); lia. }
  rewrite when_ok.
  2:{ unfold check_hash. rewrite Y5. cbn [bind verify]. rewrite Y10. cbn [bind]. rewrite mul_ok by lia. cbn [bind checked_addition].
      rewrite (add_ok (Z.of_N cap) 1) by lia. cbn [bind]. rewrite add_ok by lia. cbn [bind]. rewrite add_ok by lia. cbn [bind].
      replace (Z.of_N cap + 1 + 8) with (Z.of_N cap + 9) by lia.
      rewrite Y3; [|lia|].
      2:{ intros q Eq. destruct Hpe as [[? _]|(e & vs & tr' & Eq' & _ & _ & J & _)]; congruence. }
      cbn [bind]. rewrite Y6 by (try exact Hc; lia). cbn [bind]. rewrite Y2. cbn [bind].
      assert (V1 : match pe with Some e => c =? e + Z.of_N cap * size_of T | None => true end = true).
      { destruct Hpe as [(-> & _)|(e & vs & tr' & -> & -> & _)]; [reflexivity|apply Z.eqb_refl]. }
      rewrite V1. cbn [verify bind]. rewrite Y8. cbn [bind].
      assert (V2 : Bool.eqb match pe with None => true | _ => false end ((Z.of_N cap =? 0) && (Z.of_N size =? 0)) = true).
      { destruct Hpe as [(-> & -> & -> & _)|(e & vs & tr' & -> & _ & Hc0 & _)]; [reflexivity|]. now replace (Z.of_N cap =? 0) with false by lia. }
      rewrite V2. cbn [verify bind]. unfold check_bool. rewrite Y14. cbn [bind Z.leb Z.compare verify Z.eqb]. rewrite Y12. cbn [bind].
      unfold dbytes. replace (Z.to_nat (Z.of_N cap + 9)) with (N.to_nat cap + 9)%nat by lia. rewrite Ect5. cbn [bind].
      rewrite <- Hctl. f_equal. lia. }
  cbn [bind]. rewrite Y10. cbn [bind]. rewrite Y2. cbn [bind]. rewrite Y5. cbn [bind].
  rewrite N2Z.id || replace (Z.to_nat (Z.of_N cap)) with (N.to_nat cap) by lia.
  replace (Z.to_nat (Z.of_N cap)) with (N.to_nat cap) by lia.
  unfold ctrl_at at 1, dbytes. rewrite Ect5. cbn [bind]. unfold begin_. cbn [t_cap].
  destruct (skip_ok ctrl (N.to_nat cap) Lct Q1 Q2 Q3 (S (N.to_nat cap)) 0%nat ltac:(lia) ltac:(lia)) as (j & -> & Hj & P & R). cbn [bind].
  destruct Hpe as [(-> & -> & -> & -> & ->)|(e & vs & tr' & -> & -> & Hc0 & Hin & EM & -> & -> & Eg2)].
  - assert (j = 0%nat) by lia. subst j. cbn [N.to_nat Nat.add hloop Nat.eqb]. exists m5. split; [reflexivity|]. finish; [exact Em|].
    cbv zeta. change (r_rel (HR m5)) with (negb raw). change (r_mem (HR m5)) with m5. change (r_tab (HR m5)) with tab.
    destruct (Keep m5 ltac:(auto)) as (-> & _ & _ & -> & _ & _ & -> & _ & -> & _ & -> & _ & -> & _). fold T. rewrite Hcap.
    replace (inside (HR m5) c (Z.of_N 0 + 9) 1) with true by (symmetry; apply ins_inside; exact Hc). cbn [andb].
    rewrite Ect5, Et. reflexivity.
  - set (c := e + Z.of_N cap * size_of T) in *. apply sep_app in Hs as (_ & S2 & S3).
    assert (Town : forall z, a <= z < a + 41 -> touched tr' z -> False).
    { intros z Hz Hz'. apply (S3 z); [|exact Hz']. unfold own. rewrite !touched_cons2, !touched_rd. lia. }
    assert (Tct : forall z, touched tr' z -> c <= z < c + Z.of_nat (N.to_nat cap + 9) -> False).
    { intros z Hz Hz'. apply (S3 z); [|exact Hz]. unfold own. rewrite !touched_cons2, !touched_rd. lia. }
    set (Gx := fun (h : mem -> nat -> option (val * list ev)) m i => if is_full (nth i ctrl EMPTY) then let? (v, tr) := h m i in Some (Some v, tr) else Some (None, [])).
    set (hF := fun m i => dec env (FR m) f T (e + Z.of_nat i * size_of T)).
    set (hH := fun m i => dec env (HR m) f T (e + Z.of_nat i * size_of T)).
    assert (Hjump : forall h mm, mapM (Gx h mm) (seq 0 (N.to_nat cap)) =
              match mapM (Gx h mm) (seq j (N.to_nat cap - j)) with
              | Some (zs, us) => Some (repeat None j ++ zs, us) | None => None end).
    { intros h mm. replace (N.to_nat cap) with (j + (N.to_nat cap - j))%nat at 1 by lia. rewrite seq_app. cbn [Nat.add].
      assert (Pn : forall s, (0 <= s < 0 + j)%nat -> is_full (nth s ctrl EMPTY) = false).
      { intros s Hs'. rewrite <- (P s) by lia. unfold cb. f_equal. apply nth_indep. lia. }
      remember (seq j (N.to_nat cap - j)) as rest. clear -Pn.
      assert (K : forall n s, (forall u, (s <= u < s + n)%nat -> is_full (nth u ctrl EMPTY) = false) ->
                mapM (Gx h mm) (seq s n ++ rest) = match mapM (Gx h mm) rest with
                  | Some (zs, us) => Some (repeat None n ++ zs, us) | None => None end).
      { induction n as [|n IHn]; intros s Hn; cbn [seq app mapM repeat].
        - now destruct (mapM (Gx h mm) rest) as [[? ?]|].
        - unfold Gx at 1. rewrite (Hn s) by lia. rewrite IHn by (intros; apply Hn; lia).
          now destruct (mapM (Gx h mm) rest) as [[? ?]|]. }
      apply K. exact Pn. }
    change (mapM (Gx hF m) (seq 0 (N.to_nat cap)) = Some (vs, tr')) in EM. rewrite Hjump in EM.
    destruct (mapM (Gx hF m) (seq j (N.to_nat cap - j))) as [[zs us]|] eqn:EJ; [|discriminate].
    apply some_pair in EM as [<- <-].
    assert (GfF : forall i m m' x t, Gx hF m i = Some (x, t) -> (forall z, touched t z -> m' z = m z) -> Gx hF m' i = Some (x, t)).
    { intros i m0 m' x t. unfold Gx. destruct (is_full (nth i ctrl EMPTY)); [|auto]. destruct (hF m0 i) as [[y u]|] eqn:E; [|discriminate].
      intros H Ht. apply some_pair in H as [<- <-]. unfold hF in *. now rewrite (dec_frame_plain _ _ _ _ _ _ m' _ _ _ _ _ E). }
    assert (EJ5 : mapM (Gx hF m5) (seq j (N.to_nat cap - j)) = Some (zs, us)).
    { assert (K : forall l ys ts, mapM (Gx hF m) l = Some (ys, ts) -> (forall z, touched ts z -> m5 z = m z) -> mapM (Gx hF m5) l = Some (ys, ts)).
      { clear -GfF. induction l as [|o l IHl]; intros ys ts H Ht; cbn [mapM] in *; [exact H|].
        destruct (Gx hF m o) as [[y t]|] eqn:E; [|discriminate]. destruct (mapM (Gx hF m) l) as [[zs us]|] eqn:E2; [|discriminate].
        apply some_pair in H as [<- <-]. rewrite (GfF _ _ m5 _ _ E); [|intros; apply Ht, touched_app; auto].
        rewrite (IHl _ _ eq_refl); [reflexivity|]. intros; apply Ht, touched_app; auto. }
      apply K; [exact EJ|]. intros z Hz. apply Em. intros Hz'. now apply (S3 z). }
    destruct (hloop_ok (fun i m => CV f T m (e + Z.of_nat i * size_of T)) hF hH c (N.to_nat cap) ctrl Lct Q1 Q2 Q3)
      with (k := (N.to_nat cap + 10)%nat) (i := j) (m := m5) (xs := zs) (tr := us) as (m6 & L1 & L2 & L3); try assumption; try lia.
    + intros; eapply dec_frames; eauto.
    + intros; eapply dec_frames; eauto.
    + intros i m0 x t0 _ Hm0 E0 Hs1. exact (IHn n m0 _ x t0 Hm0 E0 Hs1).
    + exact (proj1 Em).
    + exists m6. split; [exact L1|]. finish.
      * eapply eff_trans; [exact Em|exact L2|]. intros z [Hz|Hz]; apply touched_app; auto.
      * cbv zeta. change (r_rel (HR m6)) with (negb raw). change (r_mem (HR m6)) with m6. change (r_tab (HR m6)) with tab.
        destruct (Keep m6) as (-> & _ & _ & -> & _ & _ & -> & _ & -> & _ & -> & _ & -> & _). { eapply eff_same; [exact L2|]. exact Town. }
        fold T. rewrite Hcap.
        replace (inside (HR m6) c (Z.of_N cap + 9) 1) with true by (symmetry; apply ins_inside; exact Hc). cbn [andb].
        replace (rdn m6 c (N.to_nat cap + 9)) with (Some ctrl).
        2:{ rewrite <- Ect5. symmetry. apply rdn_ext. eapply eff_same; [exact L2|]. intros z Hz Hz'. now apply (Tct z). }
        rewrite Et. change (inside (HR m6)) with (inside (FR m)). change (e + Z.of_N cap * size_of T) with c. rewrite Eg2.
        change (match mapM (Gx hH m6) (seq 0 (N.to_nat cap)) with Some (vs, tr) => Some (VTab size growth ctrl vs, own ++ tr) | None => None end =
                Some (VTab size growth ctrl (repeat None j ++ zs), own ++ us)).
        rewrite Hjump. change (mapM (Gx hH m6) (seq j (N.to_nat cap - j)) = Some (zs, us)) in L3. now rewrite L3.
Qed.
End Step.

Theorem conv_good (Hfree : all_free env) f : forall t, wf A t -> cstr_free t -> good f t.
Proof.
  induction f as [|f IH]; intros t Hwt Hcf; [discriminate 2|].
  assert (K : case f t).
  { destruct t; [apply c_int|apply c_raw|apply c_ptr|now apply c_agg|now apply c_opt|now apply c_var|now apply c_uniq
                 |inversion Hwt; now apply c_vec|apply c_str|inversion Hcf|now apply c_hash]. }
  intros m a v tr Hm H Hs. pose proof (wf_basic env A Hwf t Hwt) as (Hs0 & _ & _).
  pose proof (dec_in (S f) m t a v tr H) as Hi. apply (K m a v tr Hm H Hs Hi).
  - intros m'. pose proof Hi as (_ & _ & Ha). replace (a mod align_of t =? 0) with true by lia. cbn [andb]. now apply ins_inside.
  - apply when_ok, check_raw_in; [exact Hi|lia].
Qed.
End C.
