(* Recursion depth of the checked reader, and what it accepts or rejects wrongly. *)
From Verif Require Import Base Bytes ArithModel HeaderModel HeaderSpec HeaderProofs HashModel HashSpec HashInv
  SerialModel SerialSpec SerialMem SerialPost SerialSer SerialDeser SerialRead SerialFinal.
Local Open Scope Z_scope.

(* ---- recursion depth ---- *)
Definition nf {X} (r : res X) : Prop := r <> Fuel.
Lemma nf_bind {X Y} (r : res X) (k : X -> res Y) : nf r -> (forall x, r = Ok x -> nf (k x)) -> nf (bind r k).
Proof. unfold nf. destruct r; cbn; auto; try discriminate. Qed.
Lemma nf_verify c : nf (verify c). Proof. destruct c; discriminate. Qed.
Lemma nf_forM {I} (g : I -> res unit) l : (forall i, In i l -> nf (g i)) -> nf (forM g l).
Proof.
  induction l as [|i l IH]; cbn [forM]; intros H; [discriminate|].
  apply nf_bind; [apply H; now left|]. intros _ _. apply IH. intros; apply H; now right.
Qed.
Lemma nf_if {X} (c : bool) (r r' : res X) : nf r -> nf r' -> nf (if c then r else r').
Proof. now destruct c. Qed.
Lemma nf_ok {X} (x : X) : nf (Ok x). Proof. discriminate. Qed.
Lemma nf_throw {X} : nf (@Throw X). Proof. discriminate. Qed.
Lemma nf_ub {X} : nf (@UB X). Proof. discriminate. Qed.
Ltac nfs := repeat first [apply nf_ok | apply nf_throw | apply nf_ub | apply nf_verify | apply nf_if].
Lemma nf_add T l : forall a, nf (checked_addition T a l).
Proof.
  induction l as [|b l IH]; intros a; cbn [checked_addition]; [nfs|].
  apply nf_bind; [unfold add_if_ok; nfs|]. auto.
Qed.
Lemma nf_mul T l : forall a, nf (checked_multiplication T a l).
Proof.
  induction l as [|b l IH]; intros a; cbn [checked_multiplication]; [nfs|].
  apply nf_bind; [unfold multiply_if_ok; cbv zeta; nfs|]. auto.
Qed.

Section Depth.
Variable env : list ty.

Variables (be strict : bool) (m : mem) (from to : Z).
Lemma nf_dbytes a n : nf (dbytes m a n). Proof. unfold dbytes. destruct (rdn m a n); nfs. Qed.
Lemma nf_dint a w : nf (dint be m a w). Proof. apply nf_bind; [apply nf_dbytes|intros; nfs]. Qed.
Lemma nf_dptr a : nf (dptr be strict m a).
Proof. unfold dptr. apply nf_bind; [apply nf_dbytes|intros x _; cbv zeta; nfs]. Qed.
Lemma nf_raw p size al : nf (check_raw from to p size al).
Proof.
  unfold check_raw. apply nf_if; [nfs|]. apply nf_bind; [nfs|intros _ _]. apply nf_bind; [apply nf_add|intros e _].
  apply nf_bind; [nfs|intros _ _]. apply nf_bind; [nfs|intros _ _]. nfs.
Qed.
Lemma nf_optr slot size al : nf (check_optr be strict m from to slot size al).
Proof.
  unfold check_optr. apply nf_bind; [apply nf_dptr|intros [q|] _; [|nfs]].
  apply nf_bind; [apply nf_dbytes|intros l _]. apply nf_bind; [apply nf_add|intros _ _]. apply nf_raw.
Qed.
Lemma nf_deser_optr slot T : nf (deser_optr be strict m from to slot T).
Proof. unfold deser_optr. apply nf_bind; [apply nf_raw|intros _ _; apply nf_optr]. Qed.
Lemma nf_bool a : nf (check_bool be m a).
Proof. unfold check_bool. apply nf_bind; [apply nf_dint|intros x _]. apply nf_bind; [nfs|intros; nfs]. Qed.

Lemma rdn_length (mm : mem) n : forall a l, rdn mm a n = Some l -> length l = n.
Proof.
  induction n as [|n IH]; intros a l H; cbn in H; [injection H as <-; reflexivity|].
  destruct (mm a); [|discriminate]. destruct (rdn mm (a + 1) n) eqn:E; [|discriminate]. injection H as <-. cbn. f_equal. eauto.
Qed.

Ltac nfb := match goal with
  | |- nf (bind _ _) => apply nf_bind; [|let x := fresh "x" in let E := fresh "E" in intros x E]
  | |- nf (verify _) => apply nf_verify
  | |- nf (dptr _ _ _ _) => apply nf_dptr
  | |- nf (dint _ _ _ _) => apply nf_dint
  | |- nf (dbytes _ _ _) => apply nf_dbytes
  | |- nf (check_bool _ _ _) => apply nf_bool
  | |- nf (check_optr _ _ _ _ _ _ _ _) => apply nf_optr
  | |- nf (check_raw _ _ _ _ _) => apply nf_raw
  | |- nf (deser_optr _ _ _ _ _ _ _) => apply nf_deser_optr
  | |- nf (checked_addition _ _ _) => apply nf_add
  | |- nf (checked_multiplication _ _ _) => apply nf_mul
  | |- nf (Ok _) => discriminate
  | |- nf Throw => discriminate
  | |- nf UB => discriminate
  | |- nf (if _ then _ else _) => apply nf_if
  end.

Theorem deser_depth k : forall t, nesting env k t -> forall f a, (k <= f)%nat -> nf (deser env be strict m from to f t a).
Proof.
  induction k as [|k IH]; intros t Hn f a Hf; [inversion Hn|].
  destruct f as [|f]; [lia|]. apply le_S_n in Hf. cbn [deser].
  inversion Hn; subst; repeat nfb.
  - apply nf_forM. intros ft Hi. apply IH; [|exact Hf]. match goal with H : Forall _ _ |- _ => rewrite Forall_forall in H; now apply H end.
  - now apply IH.
  - destruct (nth_error ts _) as [t'|] eqn:En; [|discriminate]. apply nth_error_In in En.
    apply IH; [|exact Hf]. match goal with H : Forall _ _ |- _ => rewrite Forall_forall in H; now apply H end.
  - match goal with |- nf (match ?p with _ => _ end) => destruct p; [|discriminate] end. now apply IH.
  - match goal with |- nf (match ?p with _ => _ end) => destruct p; [|discriminate] end. apply nf_forM. intros. now apply IH.
  - match goal with |- nf (match ?p with _ => _ end) => destruct p; [|discriminate] end.
    match goal with H : dint _ _ (a + 24) 8 = Ok _ |- _ => rename H into Ecap end.
    unfold dint in Ecap. destruct (dbytes m (a + 24) 8) as [lc| | |]; cbn [bind] in Ecap; try discriminate. injection Ecap as <-.
    set (cap := N.to_nat (to_int be lc)). assert (Ec : Z.of_N (to_int be lc) = Z.of_nat cap) by (unfold cap; lia).
    rewrite Ec in *. repeat nfb.
    + match goal with H : dbytes _ z _ = Ok _ |- _ => rename H into Ed end.
      unfold dbytes in Ed. destruct (rdn m z _) as [l|] eqn:Er; [|discriminate]. injection Ed as <-. apply rdn_length in Er.
      match goal with |- nf (check_ctrl _ ?s _ ?g) => destruct (check_ctrl_cases l cap ltac:(lia) s g) as [Eq|Eq]; rewrite Eq; discriminate end.
    + match goal with H : dbytes _ z _ = Ok _ |- _ => rename H into Ed end.
      unfold dbytes in Ed. destruct (rdn m z _) as [l|] eqn:Er; [|discriminate]. injection Ed as <-. apply rdn_length in Er.
      match goal with H : check_ctrl _ ?s _ ?g = Ok ?u |- _ => destruct u; destruct (check_ctrl_facts l cap ltac:(lia) s g H) as (F1 & F2 & F3) end.
      rewrite Nat2Z.id, slots_ok by (auto; lia). discriminate.
    + match goal with |- nf (match ?p with _ => _ end) => destruct p end; [|match goal with |- nf (match ?p with _ => _ end) => destruct p; discriminate end].
      apply nf_forM. intros. now apply IH.
Qed.
End Depth.

(* ---- the reader recurses without bound on cyclic data of a recursive type ---- *)
(* struct node { unique_ptr<node> next_; }; *)
Definition node_env : list ty := [TAgg [(0, TUniq 0)] 16 8].
Definition node_ty : ty := TAgg [(0, TUniq 0)] 16 8.
Definition node_loop : list N := repeat 0%N 16.
Lemma loop_deser f : deser node_env false false (at_base 4096 node_loop) 4096 4112 f (TUniq 0) 4096 = Fuel /\
                     deser node_env false false (at_base 4096 node_loop) 4096 4112 f node_ty 4096 = Fuel.
Proof.
  induction f as [|f [IH1 IH2]]; [split; reflexivity|]. split.
  - cbn [deser]. change (tyof node_env 0) with node_ty.
    match goal with |- ?L = _ => 
      change L with (let* _ := Ok tt in deser node_env false false (at_base 4096 node_loop) 4096 4112 f node_ty 4096) end.
    exact IH2.
  - unfold node_ty. cbn [deser forM fst snd]. change (4096 + 0) with 4096. rewrite IH1. reflexivity.
Qed.
Lemma loop_all f : deserialize node_env false false 0 0 f node_ty 4096 node_loop = Fuel.
Proof.
  unfold deserialize. change (check false 0 0 node_loop) with (Ok tt). cbn [bind].
  change (4096 + Z.of_nat (data_start 0)) with 4096.
  change (4096 + Z.of_nat (length node_loop)) with 4112. rewrite (proj2 (loop_deser f)). reflexivity.
Qed.

(* ---- hash tables: lookup on accepted data ---- *)
(* the table object that lookups on the contents [VTab] work on; key: GetKey *)
Definition table_of {K} (key : val -> K) (v : val) : tbl K val :=
  match v with
  | VTab size growth ctrl l =>
      Tbl K val (map (option_map (fun x => (key x, x))) l) ctrl size (length l) growth
  | _ => empty_tbl K val
  end.
Definition num (v : val) : N := match v with VInt x => x | _ => 0%N end.

(* 7 slots, all full, and full clone bytes: no EMPTY anywhere *)
Definition full_ctrl : list N := repeat 5%N 7 ++ [END] ++ repeat 5%N 8.
Definition words (l : list N) : list N := flat_map (fun x => le_enc 8 x) l.
(* root at 0: entries_ +48, ctrl_ +96 - 8, size 7, capacity 7, growth 0; then entries, ctrl *)
Definition full_table : list N :=
  words [48; 96; 7; 7; 0; 0]%N ++ words [1; 2; 3; 4; 5; 6; 7]%N ++ full_ctrl.
Definition full_contents : val := VTab 7 0 full_ctrl (map (fun x => Some (VInt x)) [1; 2; 3; 4; 5; 6; 7]%N).

Lemma full_loop fuel : forall s, (fst s < 8)%nat ->
  find_loop N val N.eqb fuel (table_of num full_contents) 9%N 9%N s = Fuel.
Proof.
  induction fuel as [|fuel IH]; intros [o i] Hs; [reflexivity|]. cbn [fst] in Hs.
  assert (Hn : (fst (probe_next 7 (o, i)) < 8)%nat).
  { unfold probe_next. cbn [fst snd]. unfold landn. rewrite (N.land_ones _ 3).
    pose proof (N.mod_lt (N.of_nat (o + (i + WIDTH))) (2 ^ 3) ltac:(discriminate)). change (2 ^ 3)%N with 8%N in *. lia. }
  cbn [find_loop fst].
  assert (Hg : exists g, group full_ctrl o = Ok g /\ bm_positions (match_ g (h2 9)) = [] /\ (match_empty g =? 0)%N = true).
  { do 8 (destruct o as [|o]; [eexists; split; [vm_compute; reflexivity|]; split; vm_compute; reflexivity|]). lia. }
  destruct Hg as (g & Eg & Ep & Ee).
  change (t_ctrl N val (table_of num full_contents)) with full_ctrl. rewrite Eg. cbn [bind]. rewrite Ep. cbn [try_matches bind].
  rewrite Ee. apply IH. exact Hn.
Qed.

(* 1 slot, empty; the clone bytes pretend that a slot is full *)
Definition bad_clone_ctrl : list N := [EMPTY; END; EMPTY; 9%N] ++ repeat EMPTY 6.
Definition bad_clone : list N := words [48; 48; 0; 1; 1; 0]%N ++ words [0]%N ++ bad_clone_ctrl.
Definition bad_clone_contents : val := VTab 0 1 bad_clone_ctrl [None].

(* ---- statements about whole buffers ---- *)
Lemma types_pos A env t : types_ok A env t -> forall n, 0 <= size_of (tyof env n).
Proof.
  intros (Hwf & _) n. destruct Hwf as (H8 & HA & Hw).
  assert (Hn : wf A (tyof env n)) by (apply tyof_ok; [constructor; cbn; auto|exact Hw]).
  pose proof (wf_basic env A (conj H8 (conj HA Hw)) _ Hn) as (H & _). lia.
Qed.

Lemma same_everywhere env A t be b m th f B B' strict strict' r r' :
  types_ok A env t -> no_cstring env t -> bytes_ok b -> Z.of_nat (length b) < 2 ^ 62 ->
  0 < B < 2 ^ 62 -> 0 < B' < 2 ^ 62 ->
  deserialize env be strict m th f t B b = Ok r ->
  deserialize env be strict' m th f t B' b = Ok r' ->
  r' = r + (B' - B) /\
  exists v tr, image_at env be B b ctrl_tab f t r v tr /\
               image_at env be B' b ctrl_tab f t r' v (map (moved (B' - B)) tr).
Proof.
  intros Ht Hc Hb Hl HB HB' H H'.
  apply (accepted_inv env A t Ht be strict m th f B b HB Hl Hb r Hc) in H as (-> & _ & v & tr & Hi).
  apply (accepted_inv env A t Ht be strict' m th f B' b HB' Hl Hb r' Hc) in H' as (-> & _ & v' & tr' & Hi').
  split; [lia|]. exists v, tr. split; [exact Hi|].
  unfold image_at in Hi, Hi'.
  replace (B' + Z.of_nat (data_start m)) with (B + Z.of_nat (data_start m) + (B' - B)) in * by lia.
  destruct (dec_shift env (types_pos _ _ _ Ht) be B B' b ctrl_tab HB HB' Hl Hb f t _ v tr v' tr' Hi Hi') as [-> ->].
  exact Hi'.
Qed.

Lemma moved_moved d d' l : map (moved d) (map (moved d') l) = map (moved (d' + d)) l.
Proof.
  rewrite map_map. apply map_ext. intros []; cbn; f_equal; try lia. destruct p; [f_equal; lia|reflexivity].
Qed.

Lemma everywhere env A t be_src rel src m th f a v tr out :
  types_ok A env t -> total_mem src -> writer_mode m -> (th < W64)%N ->
  Z.of_nat (data_start m) mod align_of t = 0 ->
  graph_at env be_src rel src f t a v tr ->
  serialize env be_src rel m th src f t a = Ok out -> Z.of_nat (length out) < 2 ^ 62 ->
  exists tr', forall B, 0 < B < 2 ^ 62 -> (A | B) ->
    image_at env (is_mode_enabled m SERIALIZE_BIG_ENDIAN) B out clean_table f t
      (B + Z.of_nat (data_start m)) v (map (moved B) tr').
Proof.
  intros Ht Hs Hm Hth Hr Hg Ho Hl.
  destruct (trip_ok env A t Ht be_src rel src Hs m th Hm Hth Hr f a v tr Hg out Ho Hl) as (Hb & _ & H).
  pose proof Ht as ((_ & HA0 & _) & HA & _).
  destruct (H A ltac:(lia) (Z.divide_refl A)) as ((tr0 & H0 & _) & _).
  exists (map (moved (- A)) tr0). intros B HB HAB. destruct (H B HB HAB) as ((tr1 & H1 & _) & _).
  rewrite moved_moved. replace (- A + B) with (B - A) by lia.
  unfold image_at in *. replace (B + Z.of_nat (data_start m)) with (A + Z.of_nat (data_start m) + (B - A)) in * by lia.
  destruct (dec_shift env (types_pos _ _ _ Ht) _ A B out clean_table ltac:(lia) HB Hl Hb f t _ v tr0 v tr1 H0 H1) as [_ <-].
  exact H1.
Qed.

Lemma in_bounds env A t be strict b m th f B r :
  types_ok A env t -> no_cstring env t -> bytes_ok b -> Z.of_nat (length b) < 2 ^ 62 -> 0 < B < 2 ^ 62 ->
  deserialize env be strict m th f t B b = Ok r ->
  exists v tr, image_at env be B b ctrl_tab f t r v tr /\ Forall (in_buffer B (B + Z.of_nat (length b))) tr.
Proof.
  intros Ht Hc Hb Hl HB H.
  apply (accepted_inv env A t Ht be strict m th f B b HB Hl Hb r Hc) in H as (-> & _ & v & tr & Hi).
  exists v, tr. split; [exact Hi|]. eapply dec_bounds. exact Hi.
Qed.

Lemma terminates env be strict m th k t f B b :
  nesting env k t -> (k <= f)%nat -> deserialize env be strict m th f t B b <> Fuel.
Proof.
  intros Hn Hf. unfold deserialize. apply nf_bind.
  - unfold check, hdr_read. apply nf_bind; [nfs|]. intros _ _. apply nf_bind.
    + apply nf_if; [|nfs]. apply nf_bind; [destruct (get _ _ _); nfs|]. intros; nfs.
    + intros _ _. apply nf_if; [|nfs]. apply nf_bind; [destruct (get _ _ _); nfs|]. intros; nfs.
  - intros _ _. apply nf_bind; [now apply (deser_depth env be strict _ _ _ k)|]. intros; nfs.
Qed.

Lemma node_types_ok : types_ok 8 node_env node_ty.
Proof.
  assert (W : wf 8 node_ty).
  { apply wf_agg; try (split; [lia|]); try lia; try (exists 1; reflexivity); try (exists 2; reflexivity).
    - intros o t [H|[]]. injection H as <- <-. split; [constructor|]. cbn. split; [lia|]. split; [lia|].
      split; [exists 0; reflexivity|exists 1; reflexivity].
    - repeat constructor. }
  split; [|split; [lia|split; [exact W|]]].
  - split; [exists 1; reflexivity|]. split; [lia|]. now constructor.
  - repeat constructor; cbn; lia.
Qed.
Lemma Forall_repeat_lt n : bytes_ok (repeat 0%N n).
Proof. unfold bytes_ok. induction n; cbn; constructor; [reflexivity|assumption]. Qed.

Lemma reachable_clean K V hash keq dv max_cap ops1 ops2 t xs :
  key_laws K keq hash -> cap_bounded max_cap ->
  (ops1 = [] \/ exists o, ops1 = o ++ [Rehash K V]) ->
  forallb (fun o => negb (is_erase K V o)) ops2 = true ->
  run K V hash keq dv max_cap (empty_tbl K V) (ops1 ++ ops2) = Ok (t, xs) ->
  clean_table (t_size K V t) (N.of_nat (t_cap K V t)) (t_growth K V t) (firstn (t_cap K V t + 9) (t_ctrl K V t)) = true.
Proof.
  intros Hl Hc Ho Hn Hr. eapply free_clean; [exact Hl|exact Hc|exact Hr|].
  destruct Ho as [->|(o & ->)].
  - eapply run_free; [exact Hn|apply empty_free|exact Hr].
  - rewrite <- app_assoc in Hr. eapply rehash_free; [exact Hn|exact Hr].
Qed.

Lemma same_lookups K (key : val -> K) hash keq env A n be_src rel src m th f a v tr out k :
  types_ok A env (THash n) -> total_mem src -> writer_mode m -> (th < W64)%N ->
  graph_at env be_src rel src f (THash n) a v tr ->
  serialize env be_src rel m th src f (THash n) a = Ok out -> Z.of_nat (length out) < 2 ^ 62 ->
  forall B, 0 < B < 2 ^ 62 -> (A | B) ->
  exists v' tr', image_at env (is_mode_enabled m SERIALIZE_BIG_ENDIAN) B out clean_table f (THash n)
                   (B + Z.of_nat (data_start m)) v' tr' /\
    find_ K val hash keq (table_of key v') k = find_ K val hash keq (table_of key v) k /\
    iterate K val (table_of key v') = iterate K val (table_of key v).
Proof.
  intros Ht Hs Hm Hth Hg Ho Hl B HB HA.
  assert (Hr : Z.of_nat (data_start m) mod align_of (THash n) = 0).
  { cbn [align_of]. unfold data_start, integrity_start. destruct (_ || _)%bool, (_ || _)%bool; reflexivity. }
  destruct (trip_ok env A _ Ht be_src rel src Hs m th Hm Hth Hr f a v tr Hg out Ho Hl) as (_ & _ & H).
  destruct (H B HB HA) as ((tr' & H1 & _) & _). exists v, tr'. auto.
Qed.

(* ---- a reachable table the reader rejects ---- *)
(* a hash function that sends key k to slot k *)
Definition slot_hash (k : N) : N := (N.shiftl (N.lxor k 16777619) 7 + N.land k 127)%N.
Definition tomb_ops : list (op N N) :=
  map (fun i => Emplace N N (N.of_nat i) 0%N) (seq 0 20) ++ [Erase N N 10%N].

Lemma slot_laws : key_laws N N.eqb slot_hash.
Proof.
  split; [exact N.eqb_refl|]. split; [intros a b; rewrite N.eqb_sym; auto|]. split.
  - intros a b c H1 H2. apply N.eqb_eq in H1, H2. subst. apply N.eqb_refl.
  - intros a b H. apply N.eqb_eq in H. now subst.
Qed.
Lemma bounded_1000 : cap_bounded 1000.
Proof. reflexivity. Qed.

(* memory given by a few segments, 0 elsewhere *)
Fixpoint mem_of (l : list (Z * list N)) : mem :=
  fun z => match l with
           | [] => Some 0%N
           | (a, d) :: l => match at_base a d z with Some x => Some x | None => mem_of l z end
           end.
Lemma mem_of_total' l : Forall (fun s => bytes_ok (snd s)) l -> total_mem (mem_of l).
Proof.
  induction l as [|[a d] l IH]; intros H z; [exists 0%N; split; [reflexivity|lia]|].
  inversion H; subst. cbn [mem_of snd] in *. destruct (at_base a d z) as [x|] eqn:E; [|now apply IH].
  exists x. split; [reflexivity|]. unfold at_base in E. destruct (z <? a); [discriminate|]. apply nth_error_In in E.
  unfold bytes_ok in *. rewrite Forall_forall in *. now apply H2.
Qed.
Lemma mem_of_total l : forallb (fun s => forallb (fun b => b <? 256)%N (snd s)) l = true -> total_mem (mem_of l).
Proof.
  intros H. apply mem_of_total'. apply Forall_forall. intros s Hs. rewrite forallb_forall in H. specialize (H s Hs).
  apply Forall_forall. intros b Hb. rewrite forallb_forall in H. specialize (H b Hb). unfold byte_ok. lia.
Qed.
