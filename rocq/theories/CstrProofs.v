(* Proofs about cstring, and the theorems on whole histories. *)
From Verif Require Import Base FlatModel FlatSpec FlatProofs MmModel MmProofs PagedProofs StrModel StrSpec StrProofs.

Section Cstr.
Variable raw : bool.

Definition crep (ext : list str) (own : list block) (x : cs) (s : str) (v : bool) : Prop :=
  u32 s = true /\
  match x with
  | CShort buf r => v = false /\ length s <= clim /\ r = clim - length s /\ buf = s ++ repeat 0%N (clim - length s)
  | CHeap None n _ => False
  | CHeap (Some (AOwn b)) n self => self = true /\ v = false /\ n = length s /\ clim < n /\ nth_error own b = Some (Live (s ++ [0%N]))
  | CHeap (Some (AExt e off)) n self => self = false /\ v = true /\ n = length s /\
      exists u, nth_error ext e = Some u /\ off + n <= length u /\ s = firstn n (skipn off u)
  end.
Definition cown (b : nat) (x : cs) : nat := match x with CHeap (Some (AOwn c)) _ true => if b =? c then 1 else 0 | _ => 0 end.
Lemma cown_le b x : cown b x <= 1.
Proof. unfold cown. destruct x as [|[[|c]|] n []]; auto. destruct (b =? c); auto. Qed.
Lemma crep_frame ext own own' x s v : crep ext own x s v -> (forall b, cown b x = 1 -> nth_error own' b = nth_error own b) -> crep ext own' x s v.
Proof.
  intros (U & H) F. split; auto. destruct x as [buf r|[[e off|b]|] n self]; auto.
  destruct H as (-> & H2 & H3 & H4 & H5). split; auto. split; auto. split; auto. split; auto. rewrite F; auto. cbn. rewrite Nat.eqb_refl. auto.
Qed.
Notation CR := (Rel cs crep cown).
Notation Change := (rel_change cs crep cown cown_le crep_frame).
Notation Same := (rel_same cs crep cown cown_le crep_frame).
Lemma crep0 ext own : crep ext own cs0 [] false.
Proof. split; [reflexivity|]. cbn. split; auto. split; [lia|]. auto. Qed.

Lemma csize_rep ext own x s v : crep ext own x s v -> csize x = length s.
Proof.
  intros (U & H). destruct x as [buf r|[[e off|b]|] n self]; cbn [csize].
  - destruct H as (_ & L & -> & _). lia.
  - apply H.
  - apply H.
  - contradiction.
Qed.
Lemma cload_rep w j x s v off len : nth_error (w_obj w) j = Some x -> crep (w_ext w) (w_own w) x s v -> off + len <= length s ->
  cload w (shift (cdata x j) off) len = Ok (firstn len (skipn off s)).
Proof.
  intros Hx (U & H) Hl. destruct x as [buf r|[[e o|b]|] n self]; cbn [cdata shift cload load_addr].
  - rewrite (idx_some _ _ _ Hx). cbn [bind cinline plus]. destruct H as (_ & _ & _ & ->). rewrite <- app_assoc. apply slice_app. auto.
  - destruct H as (-> & -> & -> & u & Hu & H1 & H2). rewrite (idx_some _ _ _ Hu). cbn [bind]. cbn [plus].
    apply (slice_sub s u o (length s)); auto.
  - destruct H as (-> & -> & -> & _ & Hr). rewrite (idx_some _ _ _ Hr). cbn [bind plus]. apply slice_app. auto.
  - contradiction.
Qed.
Lemma cload_all w j x s v : nth_error (w_obj w) j = Some x -> crep (w_ext w) (w_own w) x s v -> cload w (cdata x j) (length s) = Ok s.
Proof.
  intros Hx Hr. assert (E : cdata x j = shift (cdata x j) 0). { destruct x as [|[[|]|] ? ?]; auto. }
  rewrite E, (cload_rep w j x s v 0 (length s)); auto. cbn [skipn]. rewrite firstn_all. auto.
Qed.
Lemma cstr_rep w j x s : nth_error (w_obj w) j = Some x -> crep (w_ext w) (w_own w) x s false ->
  cload w (cdata x j) (csize x + 1) = Ok (s ++ [0%N]).
Proof.
  intros Hx Hr. rewrite (csize_rep _ _ _ _ _ Hr). destruct Hr as (U & H). destruct x as [buf r|[[e o|b]|] n self]; cbn [cdata cload load_addr].
  - rewrite (idx_some _ _ _ Hx). cbn [bind cinline]. destruct H as (_ & L & -> & ->). rewrite <- app_assoc.
    assert (E : exists q, s ++ repeat 0%N (clim - length s) ++ [N.of_nat (clim - length s)] = (s ++ [0%N]) ++ q).
    { destruct (clim - length s) as [|k]; cbn [repeat app N.of_nat]; [exists []|eexists; rewrite <- app_assoc; reflexivity]. rewrite app_nil_r. auto. }
    destruct E as (q & ->). rewrite slice_app by (rewrite app_length; cbn; lia). cbn [skipn]. rewrite firstn_all2; auto. rewrite app_length. cbn. lia.
  - destruct H as (_ & H & _). discriminate.
  - destruct H as (_ & _ & _ & _ & Hb). rewrite (idx_some _ _ _ Hb). cbn [bind plus].
    replace (length s + 1) with (length (s ++ [0%N])) by (rewrite app_length; auto). apply slice_all.
  - contradiction.
Qed.

Lemma creset_ok w t i : CR w t -> i < length (snd t) -> exists w', creset w i = Ok w' /\ CR w' (become_obj t i (Some ([], false))) /\
  nth_error (w_obj w') i = Some cs0 /\ w_ext w' = w_ext w /\ forall j, j <> i -> nth_error (w_obj w') j = nth_error (w_obj w) j.
Proof.
  intros R Hi. destruct (rel_any _ _ _ w t i R Hi) as (x & s & v & Hx & Hr). unfold creset. rewrite (idx_some _ _ _ Hx). cbn [bind].
  assert (Li : i < length (w_obj w)) by (apply nth_error_Some; congruence).
  assert (T : forall own', exists w', Ok (put_obj (World (w_ext w) own' (w_obj w)) i cs0) = Ok w' /\ w' = World (w_ext w) own' (upd i cs0 (w_obj w)) /\
     nth_error (w_obj w') i = Some cs0 /\ w_ext w' = w_ext w /\ forall j, j <> i -> nth_error (w_obj w') j = nth_error (w_obj w) j).
  { intros own'. eexists. split; [reflexivity|]. split; [reflexivity|]. cbn [put_obj w_obj w_ext]. split; [|split; auto].
    - rewrite nth_error_upd' by auto. rewrite Nat.eqb_refl. auto.
    - intros j Hj. rewrite nth_error_upd' by auto. destruct (Nat.eqb_spec i j); [congruence|auto]. }
  assert (D : (exists b m, x = CHeap (Some (AOwn b)) m true) \/ (forall b, cown b x = 0) /\
     match x with CHeap (Some a) _ true => release w a | _ => Ok w end = Ok w).
  { destruct x as [buf|[[e o|b]|] n []]; try (right; split; [intros; reflexivity|reflexivity]).
    - destruct Hr as (_ & Hr). destruct Hr as (Hr & _). discriminate.
    - left. eauto. }
  destruct D as [(b & m & ->)|(Zx & ->)].
  - destruct Hr as (_ & _ & _ & _ & _ & Hb). cbn [release]. rewrite (idx_some _ _ _ Hb). cbn [bind].
    destruct (T (upd b Freed (w_own w))) as (w' & E & -> & T3). exists (World (w_ext w) (upd b Freed (w_own w)) (upd i cs0 (w_obj w))).
    split; [exact E|]. split; [|exact T3]. apply (Change w t i (CHeap (Some (AOwn b)) m true)); auto.
    + intros k Hk _. cbn in Hk. rewrite nth_error_upd' by (apply nth_error_Some; congruence). destruct (Nat.eqb_spec b k) as [->|]; auto.
      rewrite Nat.eqb_refl in Hk. discriminate.
    + intros k. rewrite (live_upd _ _ _ _ _ Hb). cbn [cown cs0]. rewrite (Nat.eqb_sym k b). destruct (Nat.eqb_spec b k) as [->|]; [|lia].
      unfold live. rewrite Hb. auto.
    + apply crep0.
  - cbn [bind]. destruct (T (w_own w)) as (w' & E & -> & T3). exists (World (w_ext w) (w_own w) (upd i cs0 (w_obj w))).
    destruct w. split; [exact E|]. split; [|exact T3]. apply (Same _ t i x); auto. apply crep0.
Qed.
Lemma creset_again w i : nth_error (w_obj w) i = Some cs0 -> creset w i = Ok w.
Proof. intros H. unfold creset. rewrite (idx_some _ _ _ H). cbn [bind cs0]. unfold put_obj. fold cs0. rewrite upd_same by auto. destruct w; auto. Qed.

Lemma remaining_small n : n <= clim -> remaining n = Some (clim - n).
Proof. intros H. do 16 (destruct n as [|n]; [reflexivity|]). unfold clim in H. lia. Qed.
Lemma remaining_big n : clim < n -> (N.of_nat n < 2147483648)%N -> remaining n = None.
Proof.
  intros H1 H2. unfold remaining. assert (W : W32 = 4294967296%N) by reflexivity. unfold clim in H1.
  rewrite N.mod_small by (rewrite W; lia). rewrite W.
  destruct (N.ltb_spec (15 + 4294967296 - N.of_nat n) 2147483648); [lia|].
  assert (M : Z.max (Z.of_N (15 + 4294967296 - N.of_nat n) - 4294967296) (-1) = (-1)%Z) by lia. rewrite M. reflexivity.
Qed.

Lemma cset_owning_ok w t i p s : CR w t -> i < length (snd t) -> u32 s = true -> i31 s = true ->
  (forall w', creset w i = Ok w' -> s <> [] -> cload w' p (length s) = Ok s) ->
  exists w', cset_owning w i p (length s) = Ok w' /\ CR w' (become_obj t i (Some (s, false))).
Proof.
  intros R Hi U S L. unfold cset_owning. destruct (creset_ok w t i R Hi) as (w1 & E1 & R1 & O1 & X1 & _). rewrite E1. cbn [bind].
  destruct (Nat.eqb_spec (length s) 0) as [E|E]. { exists w1. split; auto. destruct s; [auto|discriminate]. }
  rewrite (L w1 E1) by (intros ->; apply E; auto). rewrite <- (become_twice t i (Some ([], false))).
  destruct (le_lt_dec (length s) clim) as [G|G].
  - rewrite remaining_small by auto. rewrite (idx_some _ _ _ O1). cbn [bind]. destruct (Nat.leb_spec (length s) clim); [|lia].
    eexists. split; [reflexivity|]. apply (Same w1 _ i cs0); auto. split; auto. 
  - unfold i31 in S. apply N.ltb_lt in S. rewrite remaining_big by auto. cbn [bind alloc].
    eexists. split; [reflexivity|]. unfold put_obj. cbn [w_ext w_own w_obj]. apply (Change w1 _ i cs0); auto.
    + intros k _ Hl. apply nth_error_app1. apply nth_error_Some. unfold live in Hl. destruct (nth_error (w_own w1) k); congruence.
    + intros k. rewrite live_alloc. cbn [cown cs0]. lia.
    + split; auto. split; auto. split; auto. split; auto. split; auto. rewrite nth_error_app2, Nat.sub_diag by auto. auto.
Qed.
Lemma cset_non_owning_ok w t i e o off u s : CR w t -> i < length (snd t) -> u32 s = true ->
  nth_error (w_ext w) e = Some u -> o + off + length s <= length u -> s = firstn (length s) (skipn (o + off) u) ->
  exists w', cset_non_owning w i (PAddr (AExt e o) off) (length s) = Ok w' /\ CR w' (become_obj t i (Some (s, true))).
Proof.
  intros R Hi U Hu H1 H2. unfold cset_non_owning. destruct (creset_ok w t i R Hi) as (w1 & E1 & R1 & O1 & X1 & _). rewrite E1. cbn [bind].
  rewrite <- (become_twice t i (Some ([], false))). eexists. split; [reflexivity|]. apply (Same w1 _ i cs0); auto.
  split; auto. split; auto. split; auto. split; auto. exists u. rewrite X1. auto.
Qed.
Lemma carg_ok w t a s : CR w t -> arg_of t a = Some s -> u32 s = true ->
  exists p, cargument w a = Ok (p, length s) /\ cload w p (length s) = Ok s.
Proof.
  intros R H U. unfold u32 in U. apply N.ltb_lt in U. destruct a as [s0|e off len|j off len]; cbn [arg_of cargument] in *.
  - injection H as ->. rewrite cut32_small by auto. exists (PLit s). split; auto. cbn [cload]. apply slice_all.
  - destruct (nth_error (fst t) e) as [u|] eqn:Eu; [|discriminate]. unfold piece in H.
    destruct (Nat.leb_spec (off + len) (length u)); [|discriminate]. injection H as <-.
    rewrite firstn_length, skipn_length in *. rewrite Nat.min_l in * by lia. rewrite cut32_small by auto.
    eexists. split; [reflexivity|]. cbn [cload load_addr]. rewrite <- (rel_ext _ _ _ _ _ R) in Eu. rewrite (idx_some _ _ _ Eu). cbn [bind plus].
    unfold slice. destruct (Nat.leb_spec (off + len) (length u)); [auto|lia].
  - destruct (held t j) as [(u, v)|] eqn:Eh; [|discriminate]. apply held_some in Eh. unfold piece in H.
    destruct (Nat.leb_spec (off + len) (length u)) as [L|L]; [|discriminate]. injection H as <-.
    destruct (rel_get _ _ _ w t j _ R Eh) as (x & Hx & Hr). cbn [omatch] in Hr. rewrite (idx_some _ _ _ Hx). cbn [bind].
    rewrite (csize_rep _ _ _ _ _ Hr). rewrite firstn_length, skipn_length in *. rewrite Nat.min_l in * by lia.
    destruct (Nat.leb_spec (off + len) (length u)); [|lia]. rewrite cut32_small by auto. eexists. split; [reflexivity|].
    apply (cload_rep w j x u v); auto.
Qed.
Lemma carg_apart w t i a s p n : CR w t -> i < length (snd t) -> apart t i a = true -> arg_of t a = Some s -> u32 s = true -> cargument w a = Ok (p, n) ->
  forall w', creset w i = Ok w' -> cload w' p (length s) = Ok s.
Proof.
  intros R Hi Ha Hs U Ea w' E'. destruct (creset_ok w t i R Hi) as (w1 & E1 & R1 & O1 & X1 & J1). rewrite E1 in E'. injection E' as <-.
  assert (D : (forall j off len, a = SStr j off len -> i <> j) \/ exists off len, a = SStr i off len /\ viewing t i = true).
  { destruct a as [| |j off len]; try (left; intros; discriminate). cbn [apart] in Ha. destruct (Nat.eqb_spec i j) as [<-|Hn].
    - right. exists off, len. auto.
    - left. intros ? ? ? [= <- _ _]. auto. }
  clear Ha. destruct D as [Ha|(off & len & -> & Ha)].
  2: { destruct (carg_ok w t _ s R Hs U) as (p1 & P1 & L1). rewrite Ea in P1. injection P1 as <- _.
    unfold viewing in Ha. destruct (held t i) as [(u, v)|] eqn:Eh; [|discriminate]. subst v. apply held_some in Eh.
    destruct (rel_get _ _ _ w t i _ R Eh) as (x & Hx & _ & Hr). cbn [cargument] in Ea. rewrite (idx_some _ _ _ Hx) in Ea. cbn [bind] in Ea.
    destruct x as [buf q|[[e o|b]|] m self]; [destruct Hr; discriminate| | |].
    - destruct (off + len <=? _); [|discriminate]. injection Ea as <- _. cbn [cdata shift cload load_addr] in *. rewrite X1. exact L1.
    - destruct Hr as (_ & Hr & _). discriminate.
    - destruct Hr. }
  assert (A1 : arg_of (become_obj t i (Some ([], false))) a = Some s).
  { rewrite <- Hs. destruct a as [|e off len|j off len]; cbn [arg_of]; auto.
    assert (Q : held (become_obj t i (Some ([], false))) j = held t j); [|rewrite Q; auto].
    unfold held, become_obj. cbn [snd]. rewrite nth_error_upd' by auto. destruct (Nat.eqb_spec i j) as [Q|]; [destruct (Ha _ _ _ eq_refl Q)|auto]. }
  destruct (carg_ok w1 _ a s R1 A1 U) as (p1 & P1 & L1).
  assert (P2 : cargument w1 a = cargument w a).
  { destruct a as [| |j off len]; auto. cbn [cargument]. unfold idx. rewrite J1; auto. intros Q. exact (Ha _ _ _ eq_refl (eq_sym Q)). }
  rewrite P2, Ea in P1. injection P1 as -> _. auto.
Qed.
Lemma cother_src w t i j y s v : CR w t -> i < length (snd t) -> i <> j -> held t j = Some (s, v) -> u32 s = true -> nth_error (w_obj w) j = Some y ->
  forall w', creset w i = Ok w' -> cload w' (cdata y j) (length s) = Ok s.
Proof.
  intros R Hi Hn Hh U Hy. pose proof (held_some _ _ _ _ Hh) as Ho. destruct (rel_get _ _ _ w t j _ R Ho) as (x & Hx & Hr). cbn [omatch] in Hr.
  rewrite Hy in Hx. injection Hx as <-. intros w' E'.
  assert (A : arg_of t (SStr j 0 (length s)) = Some s).
  { cbn [arg_of]. rewrite Hh. unfold piece. cbn [plus]. destruct (Nat.leb_spec (length s) (length s)); [|lia]. cbn [skipn]. rewrite firstn_all. auto. }
  apply (carg_apart w t i (SStr j 0 (length s)) s _ (length s) R Hi); auto.
  - cbn [apart]. destruct (Nat.eqb_spec i j); auto.
  - cbn [cargument]. rewrite (idx_some _ _ _ Hy). cbn [bind]. rewrite (csize_rep _ _ _ _ _ Hr). cbn [plus].
    destruct (Nat.leb_spec (length s) (length s)); [|lia]. rewrite cut32_small by (unfold u32 in U; apply N.ltb_lt in U; auto).
    f_equal. f_equal. destruct y as [|[[|]|] ? ?]; auto.
Qed.
Lemma cview_ext ext own x s i : crep ext own x s true -> exists e o u, cdata x i = PAddr (AExt e o) 0 /\ nth_error ext e = Some u /\ o + 0 + length s <= length u /\
  s = firstn (length s) (skipn (o + 0) u) /\ x = CHeap (Some (AExt e o)) (length s) false.
Proof.
  intros (_ & H). destruct x as [buf r|[[e o|b]|] n self].
  - destruct H; discriminate.
  - destruct H as (-> & _ & -> & u & Hu & H1 & H2). exists e, o, u. rewrite Nat.add_0_r. auto 10.
  - destruct H as (_ & H & _). discriminate.
  - contradiction.
Qed.
Lemma cview_ok w t i s v : CR w t -> held t i = Some (s, v) -> cview w i = Ok s /\ exists x, idx (w_obj w) i = Ok x /\ csize x = length s /\
  nth_error (w_obj w) i = Some x /\ crep (w_ext w) (w_own w) x s v.
Proof.
  intros R Hh. pose proof (held_some _ _ _ _ Hh) as Ho. destruct (rel_get _ _ _ w t i _ R Ho) as (x & Hx & Hr). cbn [omatch] in Hr.
  unfold cview. rewrite (idx_some _ _ _ Hx). cbn [bind]. rewrite (csize_rep _ _ _ _ _ Hr). split.
  - apply (cload_all w i x s v); auto.
  - exists x. split; auto. split; [apply (csize_rep _ _ _ _ _ Hr)|]. auto.
Qed.
Lemma cwrite_ok w t i s p c : CR w t -> held t i = Some (s, false) -> p < length s ->
  exists w', cwrite w i p c = Ok w' /\ CR w' (become_obj t i (Some (upd p c s, false))).
Proof.
  intros R Hh Hp. pose proof (held_some _ _ _ _ Hh) as Ho. destruct (rel_get _ _ _ w t i _ R Ho) as (x & Hx & Hr). cbn [omatch] in Hr.
  unfold cwrite. rewrite (idx_some _ _ _ Hx). cbn [bind]. destruct Hr as (U & Hr).
  assert (U' : u32 (upd p c s) = true) by (apply (u32_le s); auto; rewrite upd_length; lia).
  destruct x as [buf r|[[e o|b]|] m self].
  - destruct Hr as (_ & H1 & -> & ->). rewrite put_ok by (rewrite app_length; lia). cbn [bind]. eexists. split; [reflexivity|].
    apply (Same w t i (CShort (s ++ repeat 0%N (clim - length s)) (clim - length s))); auto. split; auto. split; auto. rewrite upd_length. split; [lia|]. split; auto.
    apply upd_app_left. auto.
  - destruct Hr as (_ & Hr & _). discriminate.
  - destruct Hr as (-> & _ & -> & G & Hb). rewrite (idx_some _ _ _ Hb). cbn [bind]. rewrite put_ok by (rewrite app_length; lia). cbn [bind].
    eexists. split; [reflexivity|]. unfold set_own.
    assert (Lb : b < length (w_own w)) by (apply nth_error_Some; congruence). rewrite <- (upd_same _ _ _ Hx).
    apply (Change w t i (CHeap (Some (AOwn b)) (length s) true)); auto.
    + intros k Hk _. cbn in Hk. rewrite nth_error_upd' by auto. destruct (Nat.eqb_spec b k) as [->|]; auto. rewrite Nat.eqb_refl in Hk. discriminate.
    + intros k. rewrite (live_upd _ _ _ _ _ Hb). cbn [cown]. rewrite (Nat.eqb_sym k b). destruct (Nat.eqb_spec b k) as [->|]; [|lia].
      unfold live. rewrite Hb. auto.
    + split; auto. split; auto. split; auto. rewrite upd_length. split; [lia|]. split; auto. rewrite nth_error_upd', Nat.eqb_refl by auto. rewrite upd_app_left; auto.
  - contradiction.
Qed.
Lemma cmove_ok w t i j x y : CR w t -> nth_error (snd t) i = Some x -> nth_error (snd t) j = Some y -> i <> j -> owns_block x = false ->
  exists w', cmove_from raw w i j = Ok w' /\ CR w' (become_obj (become_obj t i y) j None).
Proof.
  intros R Hi Ho Hn Hb. unfold cmove_from. destruct (rel_get _ _ _ w t i x R Hi) as (a & Ha & Hra). destruct (rel_get _ _ _ w t j y R Ho) as (c & Hc & Hrc).
  rewrite (idx_some _ _ _ Ha). cbn [bind]. rewrite (idx_some _ _ _ Hc). cbn [bind].
  assert (Za : forall b, cown b a = 0).
  { destruct x as [(s, v)|]; cbn [omatch] in Hra; [|destruct Hra as (s & v & _ & Z); auto]. destruct Hra as (_ & H). cbn [owns_block] in Hb.
    destruct a as [|[[|k]|] m self]; auto. destruct H as (-> & -> & -> & G & _). cbn [negb andb] in Hb. apply Nat.ltb_ge in Hb. unfold clim in G. lia. }
  destruct raw.
  - eexists. split; [reflexivity|]. apply (rel_move cs crep cown cown_le w _ i j a c y _ (repeat 0%N 15) false); auto.
    split; [reflexivity|]. cbn. auto.
  - destruct c as [buf r|p m self].
    + eexists. split; [reflexivity|].
      assert (E : put_obj w i (CShort buf r) = put_obj (put_obj w i (CShort buf r)) j (CShort buf r)).
      { unfold put_obj. cbn [w_ext w_own w_obj]. f_equal. symmetry. apply upd_same. rewrite nth_error_upd' by (apply nth_error_Some; congruence).
        destruct (Nat.eqb_spec i j); [congruence|auto]. }
      rewrite E. assert (exists s v, crep (w_ext w) (w_own w) (CShort buf r) s v) as (s & v & Hs).
      { destruct y as [(s, v)|]; cbn [omatch] in Hrc; [eauto|]. destruct Hrc as (s & v & Hr & _). eauto. }
      apply (rel_move cs crep cown cown_le w _ i j a (CShort buf r) y _ s v); auto.
    + eexists. split; [reflexivity|]. apply (rel_move cs crep cown cown_le w _ i j a (CHeap p m self) y _ [] false); auto. apply crep0.
Qed.

Lemma cstr_step_ok w t o t' r : CR w t -> cstr_spec t o = Some (t', r) -> exists w', cstr_step raw w o = Ok (w', r) /\ CR w' t'.
Proof.
  intros R E. destruct o; cbn [cstr_spec cstr_step] in *.
  - injection E as <- <-. eexists. split; [reflexivity|]. destruct R as [R1 R2 R3 R4]. split; cbn [w_ext w_own w_obj fst snd]; auto.
    + rewrite !app_length. cbn. lia.
    + intros i x ob Hx Hob. destruct (lt_dec i (length (w_obj w))) as [L|L].
      * rewrite nth_error_app1 in Hx by auto. rewrite nth_error_app1 in Hob by lia. eapply R3; eauto.
      * rewrite nth_error_app2 in Hx by lia. rewrite nth_error_app2 in Hob by lia. rewrite R2 in Hx. destruct (i - length (snd t)) as [|[|q]]; try discriminate.
        cbn in Hx, Hob. injection Hx as <-. injection Hob as <-. cbn [omatch]. apply crep0.
    + intros b. rewrite <- R4. clear. induction (w_obj w) as [|x l IH]; cbn [app owners]; [auto|]. rewrite IH. auto.
  - injection E as <- <-. eexists. split; [reflexivity|]. destruct R as [R1 R2 R3 R4]. split; cbn [w_ext w_own w_obj fst snd]; auto.
    + congruence.
    + intros i x ob Hx Hob. specialize (R3 i x ob Hx Hob).
      assert (G : forall s0 v, crep (w_ext w) (w_own w) x s0 v -> crep (w_ext w ++ [s]) (w_own w) x s0 v).
      { intros s0 v (U & H). split; auto. destruct x as [|[[e off|b]|] n self]; auto. destruct H as (H1 & H2 & H3 & u & H5 & H6).
        split; auto. split; auto. split; auto. exists u. rewrite nth_error_app1; auto. apply nth_error_Some. congruence. }
      destruct ob as [(s0, v)|]; cbn [omatch] in *; [auto|]. destruct R3 as (s0 & v & H & Z). exists s0, v. auto.
  - destruct (arg_of t a) as [s|] eqn:Ea; [|discriminate]. apply set_obj_some in E as (Hi & C & U & -> & ->). apply andb_prop in C as (C1 & C2).
    destruct (carg_ok w t a s R Ea U) as (p & Hp & Hl). rewrite Hp. cbn [bind].
    destruct (cset_owning_ok w t i p s R Hi U C1) as (w' & -> & R').
    { intros w' E' _. apply (carg_apart w t i a s p (length s) R Hi C2 Ea U Hp w' E'). }
    exists w'. auto.
  - cbn [arg_of] in E. destruct (nth_error (fst t) e) as [u|] eqn:Eu; [|discriminate]. unfold piece in E.
    destruct (Nat.leb_spec (off + len) (length u)) as [L|L]; [|discriminate]. set (s := firstn len (skipn off u)) in *.
    assert (Ls : length s = len) by (unfold s; rewrite firstn_length, skipn_length; lia).
    apply set_obj_some in E as (Hi & C & U & -> & ->). cbn [cargument bind].
    assert (CU : cut32 len = length s) by (rewrite <- Ls; apply cut32_small; unfold u32 in U; apply N.ltb_lt in U; auto). rewrite CU.
    rewrite <- (rel_ext _ _ _ _ _ R) in Eu.
    destruct (cset_non_owning_ok w t i e 0 off u s R Hi U Eu) as (w' & -> & R'). { lia. } { rewrite Ls. auto. }
    exists w'. auto.
  - destruct (nth_error (snd t) i) as [x|] eqn:Ex; [|discriminate]. destruct (nth_error (snd t) j) as [y|] eqn:Ey; [|discriminate].
    apply guard_some in E as (H & E). apply andb_prop in H as (H1 & H2). injection E as <- <-.
    destruct (Nat.eqb_spec i j) as [->|Hn]; [discriminate|]. apply Bool.negb_true_iff in H2.
    destruct (cmove_ok w t i j x y R Ex Ey Hn H2) as (w' & -> & R'). exists w'. auto.
  - destruct (held t j) as [(s, v)|] eqn:Eh; [|discriminate]. unfold ccopy_from.
    apply set_obj_some in E as (Hi & C & U & -> & ->). apply andb_prop in C as (C1 & C2). destruct (Nat.eqb_spec i j) as [->|Hn]; [discriminate|].
    destruct (cview_ok w t j s v R Eh) as (_ & x & _ & Sz & Hx & Hr).
    destruct (creset_ok w t i R Hi) as (w1 & E1 & R1 & O1 & X1 & J1). rewrite E1. cbn [bind].
    assert (Hx1 : nth_error (w_obj w1) j = Some x) by (rewrite J1; auto). rewrite (idx_some _ _ _ Hx1). cbn [bind].
    assert (Hi1 : i < length (snd (become_obj t i (Some ([], false))))) by (cbn [become_obj snd]; rewrite upd_length; auto).
    rewrite <- (become_twice t i (Some ([], false))).
    assert (Hr1 : crep (w_ext w1) (w_own w1) x s v).
    { assert (O : nth_error (snd (become_obj t i (Some ([], false)))) j = Some (Some (s, v))).
      { cbn [become_obj snd]. rewrite nth_error_upd' by auto. destruct (Nat.eqb_spec i j); [congruence|]. apply held_some; auto. }
      destruct (rel_get _ _ _ w1 _ j _ R1 O) as (x1 & Hx' & Hr1). rewrite Hx1 in Hx'. injection Hx' as <-. exact Hr1. }
    destruct x as [buf q|p m self].
    + eexists. split; [reflexivity|]. apply (Same w1 _ i cs0); auto.
    + rewrite Sz. destruct v.
      * destruct (cview_ext _ _ _ _ j Hr1) as (e & o & u & Ed & Hu & H1 & H2 & Q). injection Q as -> -> ->. rewrite Ed.
        destruct (cset_non_owning_ok w1 _ i e o 0 u s R1 Hi1 U Hu H1 H2) as (w' & -> & R'). exists w'. auto.
      * assert (self = true) as ->.
        { destruct Hr1 as (_ & Q). destruct p as [[e o|b]|]; [|apply Q|contradiction]. destruct Q as (_ & Q & _). discriminate. }
        destruct (cset_owning_ok w1 _ i (cdata (CHeap p m true) j) s R1 Hi1 U C2) as (w' & -> & R').
        { intros w' E' _. rewrite (creset_again w1 i O1) in E'. injection E' as <-. apply (cother_src w t i j (CHeap p m true) s false R Hi Hn Eh U Hx); auto. }
        exists w'. auto.
  - destruct (held t j) as [(s, v)|] eqn:Eh; [|discriminate]. unfold cassign_string.
    apply set_obj_some in E as (Hi & C & U & -> & ->). apply andb_prop in C as (C1 & C2). destruct (Nat.eqb_spec i j) as [->|Hn]; [discriminate|].
    destruct (cview_ok w t j s v R Eh) as (_ & x & Ex & Sz & Hx & Hr). rewrite Ex. cbn [bind]. rewrite Sz.
    destruct (cset_owning_ok w t i (cdata x j) s R Hi U C2) as (w' & -> & R'). { intros w' E' _. apply (cother_src w t i j x s v R Hi Hn Eh U Hx w' E'). }
    exists w'. auto.
  - destruct (held t j) as [(s, v)|] eqn:Eh; [|discriminate]. unfold cassign_view.
    apply set_obj_some in E as (Hi & C & U & -> & ->). subst v.
    destruct (cview_ok w t j s true R Eh) as (_ & x & Ex & Sz & Hx & Hr). rewrite Ex. cbn [bind]. rewrite Sz.
    destruct (cview_ext _ _ _ _ j Hr) as (e & o & u & Ed & Hu & H1 & H2 & _). rewrite Ed.
    destruct (cset_non_owning_ok w t i e o 0 u s R Hi U Hu H1 H2) as (w' & -> & R'). exists w'. auto.
  - destruct (held t i) as [(s, v)|] eqn:Eh; [|discriminate]. apply set_obj_some in E as (Hi & C & U & -> & ->).
    apply andb_prop in C as (C1 & C2). apply Nat.ltb_lt in C1. destruct v; [discriminate|].
    destruct (cwrite_ok w t i s p c R Eh C1) as (w' & -> & R'). exists w'. auto.
  - apply set_obj_some in E as (Hi & C & U & -> & ->). destruct (creset_ok w t i R Hi) as (w' & -> & R' & _). exists w'. auto.
  - destruct (held t i) as [(s, v)|] eqn:Eh; [|discriminate]. injection E as <- <-. rewrite (proj1 (cview_ok w t i s v R Eh)). exists w. auto.
  - destruct (held t i) as [(s, v)|] eqn:Eh; [|discriminate]. apply guard_some in E as (C & E). injection E as <- <-. destruct v; [discriminate|].
    destruct (cview_ok w t i s false R Eh) as (_ & x & Ex & _ & Hx & Hr). unfold cstr. rewrite Ex. cbn [bind]. rewrite (cstr_rep w i x s Hx Hr). exists w. auto.
  - destruct (held t i) as [(s, v)|] eqn:Eh; [|discriminate]. injection E as <- <-. destruct (cview_ok w t i s v R Eh) as (_ & x & -> & Sz & _).
    cbn [bind]. rewrite Sz. exists w. auto.
  - destruct (held t i) as [(s, v)|] eqn:Eh; [|discriminate]. destruct (held t j) as [(s2, v2)|] eqn:Eh2; [|discriminate]. injection E as <- <-.
    rewrite (proj1 (cview_ok w t i s v R Eh)), (proj1 (cview_ok w t j s2 v2 R Eh2)). cbn [bind]. rewrite view_eq_same. exists w. auto.
  - destruct (held t i) as [(s, v)|] eqn:Eh; [|discriminate]. destruct (held t j) as [(s2, v2)|] eqn:Eh2; [|discriminate]. injection E as <- <-.
    rewrite (proj1 (cview_ok w t i s v R Eh)), (proj1 (cview_ok w t j s2 v2 R Eh2)). cbn [bind]. rewrite view_lt_lex. exists w. auto.
Qed.

(* assigning a piece of what the object itself owns *)
Lemma zeros_piece (c : N) k m n : m + n <= k -> firstn n (skipn m (repeat c k)) = repeat c n.
Proof.
  revert m n. induction k as [|k IH]; intros m n H; [replace m with 0 by lia; replace n with 0 by lia; reflexivity|].
  destruct m as [|m]; cbn [repeat skipn]; [|apply IH; lia]. destruct n as [|n]; [reflexivity|]. cbn [firstn repeat]. f_equal.
  apply (IH 0 n). lia.
Qed.
Lemma cown_piece w t i s off len q : CR w t -> held t i = Some (s, false) -> piece s off len = Some q -> q <> [] ->
  (exists p n, nth_error (w_obj w) i = Some (CHeap p n true)) /\ cstr_step raw w (COwn i (SStr i off len)) = UB \/
  (exists buf r, nth_error (w_obj w) i = Some (CShort buf r)) /\
  exists w', cstr_step raw w (COwn i (SStr i off len)) = Ok (w', YNone) /\ cview w' i = Ok (repeat 0%N len).
Proof.
  intros R Hh Hp Hq. apply held_some in Hh. destruct (rel_get _ _ _ w t i _ R Hh) as (x & Hx & Hr). cbn [omatch] in Hr.
  unfold piece in Hp. destruct (Nat.leb_spec (off + len) (length s)) as [L|]; [|discriminate]. injection Hp as <-.
  assert (L0 : len <> 0) by (intros ->; apply Hq; reflexivity).
  assert (U : cut32 len = len). { apply cut32_small. destruct Hr as (U & _). unfold u32 in U. apply N.ltb_lt in U. lia. }
  cbn [cstr_step cargument]. rewrite (idx_some _ _ _ Hx). cbn [bind]. rewrite (csize_rep _ _ _ _ _ Hr), U.
  destruct (Nat.leb_spec (off + len) (length s)); [|lia]. cbn [bind]. unfold cset_owning, creset. rewrite (idx_some _ _ _ Hx). cbn [bind].
  destruct Hr as (_ & Hr). assert (Li : i < length (w_obj w)) by (apply nth_error_Some; congruence). destruct x as [buf r|[[e o|b]|] n self].
  - right. split; [eauto|]. cbn [bind]. destruct (Nat.eqb_spec len 0); [lia|]. cbn [cdata shift plus cload]. destruct Hr as (_ & Ls & _).
    assert (Hi : nth_error (w_obj (put_obj w i cs0)) i = Some cs0).
    { cbn [put_obj w_obj]. rewrite nth_error_upd' by auto. rewrite Nat.eqb_refl. auto. }
    rewrite remaining_small by lia. rewrite (idx_some _ _ _ Hi). cbn [bind cinline cs0].
    rewrite slice_app by (rewrite repeat_length; lia). cbn [bind]. rewrite zeros_piece by lia.
    destruct (Nat.leb_spec len clim); [|lia]. eexists. split; [reflexivity|]. unfold cview.
    match goal with |- context [put_obj (put_obj w i cs0) i ?y] => assert (H2 : nth_error (w_obj (put_obj (put_obj w i cs0) i y)) i = Some y) end.
    { cbn [put_obj w_obj]. rewrite nth_error_upd' by (rewrite upd_length; auto). rewrite Nat.eqb_refl. auto. }
    rewrite (idx_some _ _ _ H2). cbn [bind cdata csize cload]. rewrite (idx_some _ _ _ H2). cbn [bind cinline].
    replace (clim - (clim - len)) with len by lia. rewrite <- app_assoc, slice_app by (rewrite repeat_length; lia).
    cbn [skipn]. rewrite firstn_all2 by (rewrite repeat_length; lia). reflexivity.
  - destruct Hr as (_ & Hr & _). discriminate.
  - left. destruct Hr as (-> & _ & _ & _ & Hb). split; [eauto|]. cbn [release]. rewrite (idx_some _ _ _ Hb). cbn [bind].
    destruct (Nat.eqb_spec len 0); [lia|].
    assert (G : cload (put_obj (World (w_ext w) (upd b Freed (w_own w)) (w_obj w)) i cs0) (shift (cdata (CHeap (Some (AOwn b)) n true) i) off) len = UB).
    { cbn [cdata shift cload load_addr put_obj w_own]. unfold idx. rewrite nth_error_upd' by (apply nth_error_Some; congruence). rewrite Nat.eqb_refl. reflexivity. }
    rewrite G. destruct (remaining len); [|reflexivity]. cbn [put_obj w_obj]. unfold idx.
    rewrite nth_error_upd' by auto. rewrite Nat.eqb_refl. reflexivity.
  - destruct Hr.
Qed.
End Cstr.

(* ---------------- histories ---------------- *)
Section Hist.
Variables O X : Type.
Variable rep : list str -> list block -> X -> str -> bool -> Prop.
Variable own1 : nat -> X -> nat.
Variable step : world X -> O -> res (world X * sout).
Variable spec : sstate -> O -> option (sstate * sout).
Notation R := (Rel X rep own1).
Hypothesis step_ok : forall w t o t' r, R w t -> spec t o = Some (t', r) -> exists w', step w o = Ok (w', r) /\ R w' t'.
Lemma run_ok ops : forall w t t' xs, R w t -> srun O spec t ops = Some (t', xs) -> exists w', run (world X) O step w ops = Ok (w', xs) /\ R w' t'.
Proof.
  induction ops as [|o ops IH]; intros w t t' xs H E; cbn [srun run] in *.
  - injection E as <- <-. exists w. auto.
  - destruct (spec t o) as [(t1, x)|] eqn:E1; [|discriminate]. destruct (srun O spec t1 ops) as [(t2, ys)|] eqn:E2; [|discriminate]. injection E as <- <-.
    destruct (step_ok _ _ _ _ _ H E1) as (w1 & -> & H1). cbn [bind]. destruct (IH _ _ _ _ H1 E2) as (w2 & -> & H2). cbn [bind]. exists w2. auto.
Qed.
Lemma run_app ops1 ops2 : forall w w1 xs w2 ys, run (world X) O step w ops1 = Ok (w1, xs) -> run (world X) O step w1 ops2 = Ok (w2, ys) ->
  run (world X) O step w (ops1 ++ ops2) = Ok (w2, xs ++ ys).
Proof.
  induction ops1 as [|o ops IH]; intros w w1 xs w2 ys E1 E2; cbn [app run] in *.
  - injection E1 as <- <-. auto.
  - destruct (step w o) as [(w0, x)| | |]; try discriminate. cbn [bind] in *. destruct (run (world X) O step w0 ops) as [(w3, zs)| | |] eqn:E3; try discriminate.
    cbn [bind] in E1. injection E1 as <- <-. rewrite (IH _ _ _ _ _ E3 E2). auto.
Qed.
Variable destroy : nat -> O.
Variable x0 : X.
Hypothesis x0_own : forall b, own1 b x0 = 0.
Hypothesis destroy_ok : forall w t i, R w t -> i < length (snd t) -> exists w', step w (destroy i) = Ok (w', YNone) /\ R w' (become_obj t i (Some ([], false))) /\
  nth_error (w_obj w') i = Some x0 /\ forall j, j <> i -> nth_error (w_obj w') j = nth_error (w_obj w) j.
Lemma destroy_all m : forall k w t, R w t -> k + m = length (snd t) -> (forall j, j < k -> nth_error (w_obj w) j = Some x0) ->
  exists w' xs, run (world X) O step w (map destroy (seq k m)) = Ok (w', xs) /\ forall b, nth_error (w_own w') b <> None -> nth_error (w_own w') b = Some Freed.
Proof.
  clear step_ok spec.   induction m as [|m IH]; intros k w t H L Z; cbn [seq map run].
  - exists w, []. split; auto. intros b Hb.
    assert (OZ : owners X own1 b (w_obj w) = 0).
    { assert (G : forall l, (forall j, j < length l -> nth_error l j = Some x0) -> owners X own1 b l = 0).
      { induction l as [|y l IHl]; intros Q; cbn [owners]; auto. rewrite IHl. 2: { intros j Hj. apply (Q (S j)). cbn. lia. }
        specialize (Q 0 ltac:(cbn; lia)). injection Q as ->. rewrite x0_own. auto. }
      apply G. intros j Hj. apply Z. rewrite (rel_len _ _ _ _ _ H) in Hj. lia. }
    rewrite (rel_cnt _ _ _ _ _ H) in OZ. unfold live in OZ. destruct (nth_error (w_own w) b) as [[|]|]; congruence.
  - destruct (destroy_ok w t k H ltac:(lia)) as (w1 & -> & R1 & O1 & J1). cbn [bind].
    destruct (IH (S k) w1 _ R1) as (w2 & xs & E2 & F).
    + cbn [become_obj snd]. rewrite upd_length. lia.
    + intros j Hj. destruct (Nat.eq_dec j k) as [->|Hn]; auto. rewrite J1 by auto. apply Z. lia.
    + rewrite E2. cbn [bind]. eauto.
Qed.
End Hist.

Lemma rel_init X rep own1 : Rel X rep own1 (World [] [] []) ([], []).
Proof.
  split; cbn; auto.
  - intros [|i] x o H; discriminate.
  - intros b. unfold live. destruct b; auto.
Qed.
Definition all_freed (own : list block) : Prop := forall b, In b own -> b = Freed.
Lemma all_freed_nth own : (forall b, nth_error own b <> None -> nth_error own b = Some Freed) -> all_freed own.
Proof. intros H b Q. apply In_nth_error in Q as (n & Q). specialize (H n ltac:(congruence)). congruence. Qed.

Lemma str_history lim raw nullchar ops t xs : srun sop (str_spec lim) ([], []) ops = Some (t, xs) ->
  exists w, run _ sop (str_step lim raw nullchar) (World [] [] []) ops = Ok (w, xs) /\
    exists w' ys, run _ sop (str_step lim raw nullchar) (World [] [] []) (ops ++ map SDestroy (seq 0 (length (snd t)))) = Ok (w', ys) /\ all_freed (w_own w').
Proof.
  intros E. destruct (run_ok sop gs (srep lim) sown _ _ (str_step_ok lim raw nullchar) ops _ _ _ _ (rel_init _ _ _) E) as (w & Ew & R).
  exists w. split; auto.
  destruct (destroy_all sop gs (srep lim) sown (str_step lim raw nullchar) SDestroy gs0 (fun _ => eq_refl)) with (m := length (snd t)) (k := 0) (w := w) (t := t)
    as (w' & ys & E' & F); auto.
  - intros w0 t0 i H Hi. destruct (reset_ok lim w0 t0 i H Hi) as (w1 & E1 & R1 & O1 & X1 & J1). exists w1. cbn [str_step]. rewrite E1. cbn [quiet bind]. auto.
  - intros j Hj. lia.
  - exists w', (xs ++ ys). split; [eapply run_app; eauto|]. apply all_freed_nth. auto.
Qed.
Lemma cstr_history raw ops t xs : srun cop cstr_spec ([], []) ops = Some (t, xs) ->
  exists w, run _ cop (cstr_step raw) (World [] [] []) ops = Ok (w, xs) /\
    exists w' ys, run _ cop (cstr_step raw) (World [] [] []) (ops ++ map CDestroy (seq 0 (length (snd t)))) = Ok (w', ys) /\ all_freed (w_own w').
Proof.
  intros E. destruct (run_ok cop cs crep cown _ _ (cstr_step_ok raw) ops _ _ _ _ (rel_init _ _ _) E) as (w & Ew & R).
  exists w. split; auto.
  destruct (destroy_all cop cs crep cown (cstr_step raw) CDestroy cs0 (fun _ => eq_refl)) with (m := length (snd t)) (k := 0) (w := w) (t := t)
    as (w' & ys & E' & F); auto.
  - intros w0 t0 i H Hi. destruct (creset_ok w0 t0 i H Hi) as (w1 & E1 & R1 & O1 & X1 & J1). exists w1. cbn [cstr_step]. rewrite E1. cbn [quiet bind]. auto.
  - intros j Hj. lia.
  - exists w', (xs ++ ys). split; [eapply run_app; eauto|]. apply all_freed_nth. auto.
Qed.

(* sizes of 2^32 and more are cut; some lengths above 2^31 take the inline branch of cstring *)
Lemma str_too_long lim raw nullchar s : N.of_nat (length s) = W32 ->
  run _ sop (str_step lim raw nullchar) (World [] [] []) [SNew; SOwn 0 (SLit s); SSize 0] = Ok (World [] [] [gs0], [YNone; YNone; YNum 0]).
Proof. intros H. cbn [run str_step argument bind]. unfold cut32. rewrite H. reflexivity. Qed.
Lemma cstr_too_long raw s : N.of_nat (length s) = 2147483792%N ->
  run _ cop (cstr_step raw) (World [] [] []) [CNew; COwn 0 (SLit s)] = UB.
Proof.
  intros H. assert (C : cut32 (length s) = length s) by (unfold cut32; rewrite H; change (2147483792 mod W32)%N with 2147483792%N; lia).
  cbn [run cstr_step cargument bind app]. rewrite C. unfold quiet, cset_owning, creset. cbn [idx nth_error w_obj bind cs0 put_obj upd].
  destruct (Nat.eqb_spec (length s) 0); [lia|]. unfold remaining. rewrite H.
  change (Z.to_N _) with 127%N. cbn [N.ltb N.compare Pos.compare Pos.compare_cont]. cbn [bind cload]. rewrite slice_all. cbn [bind].
  destruct (Nat.leb_spec (length s) clim) as [L|L]; [unfold clim in L; lia|]. reflexivity.
Qed.

(* the same after a history *)
Lemma str_own_piece lim raw nullchar ops t xs w i s off len q : srun sop (str_spec lim) ([], []) ops = Some (t, xs) ->
  run _ sop (str_step lim raw nullchar) (World [] [] []) ops = Ok (w, xs) ->
  held t i = Some (s, false) -> piece s off len = Some q -> q <> [] -> off + 1 < lim \/ nullchar = 0%N ->
  (exists p n, nth_error (w_obj w) i = Some (Heap p n true)) /\ str_step lim raw nullchar w (SOwn i (SStr i off len)) = UB \/
  (exists buf, nth_error (w_obj w) i = Some (Short buf)) /\
  exists w', str_step lim raw nullchar w (SOwn i (SStr i off len)) = Ok (w', YNone) /\ view lim nullchar w' i = Ok [].
Proof.
  intros E Ew. destruct (run_ok sop gs (srep lim) sown _ _ (str_step_ok lim raw nullchar) ops _ _ _ _ (rel_init _ _ _) E) as (w0 & Ew0 & R).
  rewrite Ew in Ew0. injection Ew0 as <-. intros. eapply own_piece; eauto.
Qed.
Lemma cstr_own_piece raw ops t xs w i s off len q : srun cop cstr_spec ([], []) ops = Some (t, xs) ->
  run _ cop (cstr_step raw) (World [] [] []) ops = Ok (w, xs) ->
  held t i = Some (s, false) -> piece s off len = Some q -> q <> [] ->
  (exists p n, nth_error (w_obj w) i = Some (CHeap p n true)) /\ cstr_step raw w (COwn i (SStr i off len)) = UB \/
  (exists buf r, nth_error (w_obj w) i = Some (CShort buf r)) /\
  exists w', cstr_step raw w (COwn i (SStr i off len)) = Ok (w', YNone) /\ cview w' i = Ok (repeat 0%N len).
Proof.
  intros E Ew. destruct (run_ok cop cs crep cown _ _ (cstr_step_ok raw) ops _ _ _ _ (rel_init _ _ _) E) as (w0 & Ew0 & R).
  rewrite Ew in Ew0. injection Ew0 as <-. intros. eapply cown_piece; eauto.
Qed.
