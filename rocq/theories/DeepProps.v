(* C44, C45: deserialize with DEEP_CHECK. *)
From Verif Require Import Base Bytes HeaderModel HeaderSpec HashModel SerialModel SerialSpec SerialDeser SerialRead SerialFinal SerialLimits
  SerialProps ConvModel ConvSpec ConvTop ConvSafe DeepModel DeepSpec DeepProofs DeepTop DeepAccept.
Local Open Scope Z_scope.

Ltac dv := first [exists 0; reflexivity | exists 1; reflexivity | exists 2; reflexivity | exists 4; reflexivity | exists 8; reflexivity].
Ltac wft :=
  lazymatch goal with
  | |- wf _ (TAgg _ _ _) =>
      constructor; [split; [lia|dv]|lia|dv| |
        repeat (constructor; [repeat (constructor; [unfold apart; cbn; lia|]); constructor|]); constructor];
      let H := fresh in intros ? ? H; cbn in H;
      repeat (destruct H as [H|H]; [injection H as <- <-; split; [constructor; cbn; tauto|]; split; [lia|]; split; [cbn; lia|]; split; cbn [align_of]; dv|]); destruct H
  | |- _ => constructor; cbn; tauto
  end.
Ltac tok := split; [split; [dv|split; [lia|repeat (constructor; [wft|]); constructor]]|];
            split; [lia|]; split; [wft|repeat (constructor; [cbn; lia|]); constructor].

(* C44: if a buffer is accepted with DEEP_CHECK, then, whatever its bytes, every object that can be
   reached from the root through any number of pointers is a well formed object inside the buffer
   (integers and pointers as the host sees them), and no other memory was changed. This includes
   the cases in which the first pass alone accepts too much (C42). For all byte orders, raw and
   offset pointers, types and depths. *)
Theorem C44_accepted_means_valid : forall env A t keys hb raw strict m th f g B b r m1,
  types_ok A env t -> no_cstring env t -> distinct_keys env keys ->
  0 < B < 2 ^ 62 -> Z.of_nat (length b) < 2 ^ 62 -> bytes_ok b -> is_mode_enabled m UNCHECKED = false ->
  deserialize_deep env keys hb raw strict m th f g t B b = Ok (r, m1) ->
  r = B + Z.of_nat (data_start m) /\ outside_same B (Z.of_nat (length b)) (at_base B b) m1 /\
  all_valid env hb raw B (Z.of_nat (length b)) m1 ctrl_tab t r.
Proof. intros env A t keys hb raw strict m th f g B b r m1 Ht Hn Hk HB Hl Hb Hm. now apply (deep_accepts env A). Qed.
Print Assumptions C44_accepted_means_valid.

(* C44: for a buffer the first pass accepts, the second one decides exactly this: it accepts if
   everything reachable is well formed and throws otherwise. *)
Theorem C44_exact : forall env A t keys hb raw strict m th f B b r m1 K g,
  types_ok A env t -> no_cstring env t -> distinct_keys env keys ->
  0 < B < 2 ^ 62 -> Z.of_nat (length b) < 2 ^ 62 -> bytes_ok b -> is_mode_enabled m UNCHECKED = false ->
  raw = true \/ strict = false -> nesting env K t -> Forall (nesting env K) env -> (deep_fuel K keys (length b) <= g)%nat ->
  convert env hb raw strict m th f t B b = Ok (r, m1) ->
  let valid := all_valid env hb raw B (Z.of_nat (length b)) m1 ctrl_tab t r in
  (valid /\ deserialize_deep env keys hb raw strict m th f g t B b = Ok (r, m1)) \/
  (~ valid /\ deserialize_deep env keys hb raw strict m th f g t B b = Throw).
Proof. intros env A t keys hb raw strict m th f B b r m1 K g Ht Hn Hk HB Hl Hb Hm. now apply (deep_exact env A). Qed.
Print Assumptions C44_exact.

(* C44: whatever serialize writes is accepted by the deep check, on every host: both byte orders, raw
   and offset pointers, recursive types, pointers in cycles, whatever the type hashes, also if signed
   overflow is undefined. The only condition on the source: pointers into memory the graph owns
   point to objects of their type there. *)
Theorem C44_serialized_accepted : forall env A t be_src rel src m th f a v tr out,
  types_ok A env t -> no_cstring env t -> total_mem src -> writer_mode m -> (th < W64)%N ->
  Z.of_nat (data_start m) mod align_of t = 0 ->
  graph_at env be_src rel src f t a v tr -> typed_pointers env (plain be_src src rel None clean_table) t a ->
  serialize env be_src rel m th src f t a = Ok out -> Z.of_nat (length out) < 2 ^ 62 ->
  forall B, 0 < B < 2 ^ 62 -> (A | B) ->
  forall hb raw strict m' keys g, same_format m m' -> is_mode_enabled m' UNCHECKED = false -> (deep_fuel f keys (length out) <= g)%nat ->
  let root := B + Z.of_nat (data_start m) in
  exists m1 tr', deserialize_deep env keys hb raw strict m' th f g t B out = Ok (root, m1) /\
    host_image env hb raw B (Z.of_nat (length out)) m1 clean_table f t root v tr' /\ mirrors tr tr' /\
    outside_same B (Z.of_nat (length out)) (at_base B out) m1.
Proof. exact deep_serialized. Qed.
Print Assumptions C44_serialized_accepted.

(* the graph of C01_example: p points to v[1], q points outside *)
Lemma inv_some {X} (x y : X) (o : option X) : o = Some x -> o = Some y -> x = y.
Proof. congruence. Qed.
Example C44_typed_example : typed_pointers ex_env (plain false ex_src false None clean_table) ex_ty 1000 /\
  match serialize ex_env false false 6 12345 ex_src 5 ex_ty 1000 with
  | Ok out => exists m1, deserialize_deep ex_env [1; 2; 3]%N false false true 6 12345 5 9 ex_ty 4096 out = Ok (4112, m1)
  | _ => False
  end.
Proof.
  split.
  - intros n s p ix k q c Hh Hp Ho Hin.
    assert (Hs : (s = 1024 \/ s = 4000) /\ n = 0%nat).
    { inversion Hh as [|fs sz al a0 o t n0 s0 Hi Hh'| | | | |]; subst; clear Hh. cbn in Hi.
      repeat (destruct Hi as [Hi|Hi]; [injection Hi as <- <-|]); try contradiction Hi; inversion Hh'; subst; clear Hh'.
      - match goal with H : holds _ _ (tyof _ 0) _ _ _ |- _ => inversion H end.
      - auto.
      - match goal with E : rptr _ _ _ = Some (Some ?q), H : holds _ _ (tyof _ 1) _ _ _ |- _ => assert (Some q = Some 4000) as Eq by (eapply inv_some; [exact E|vm_compute; reflexivity]); injection Eq as ->; rename H into Hh end.
        inversion Hh as [|fs sz al a0 o t n0 s0 Hi Hh'| | | | |]; subst; clear Hh. cbn in Hi.
        repeat (destruct Hi as [Hi|Hi]; [injection Hi as <- <-|]); try contradiction Hi; inversion Hh'; subst; clear Hh'.
        + auto.
        + match goal with H : holds _ _ (TInt 2) _ _ _ |- _ => inversion H end.
        + match goal with H : nth_error _ _ = Some ?t, H2 : holds _ _ ?t _ _ _ |- _ => apply nth_error_In in H; cbn in H; destruct H as [<-|[<-|[]]]; inversion H2 end.
      - match goal with H : holds _ _ (tyof _ 2) _ _ _ |- _ => inversion H end. }
    assert (Hb : (ix = true /\ k = 0%nat /\ q = 2000 /\ c = 3%nat) \/ (ix = false /\ k = 1%nat /\ q = 4000 /\ c = 1%nat)).
    { clear Hh Hp Hs. inversion Ho as [fs sz al a0 o t ix0 k0 q0 c0 Hi Hh'| | | | | | |]; subst; clear Ho. cbn in Hi.
      repeat (destruct Hi as [Hi|Hi]; [injection Hi as <- <-|]); try contradiction Hi; inversion Hh'; subst; clear Hh'.
      - match goal with E : rptr _ _ _ = Some (Some ?q), E2 : rint _ _ _ = Some ?u |- _ =>
          assert (Some q = Some 2000) as Eq by (eapply inv_some; [exact E|vm_compute; reflexivity]); injection Eq as ->;
          assert (u = 3%N) as -> by (eapply inv_some; [exact E2|vm_compute; reflexivity]) end. auto.
      - match goal with H : owns _ _ (tyof _ 0) _ _ _ _ _ |- _ => inversion H end.
      - match goal with E : rptr _ _ _ = Some (Some ?q) |- _ =>
          assert (Some q = Some 4000) as Eq by (eapply inv_some; [exact E|vm_compute; reflexivity]); injection Eq as -> end. auto.
      - match goal with H : owns _ _ (tyof _ 1) _ _ _ _ _ |- _ => rename H into Hh end.
        inversion Hh as [fs sz al a0 o t ix0 k0 q0' c0 Hi Hh'| | | | | | |]; subst; clear Hh. cbn in Hi.
        repeat (destruct Hi as [Hi|Hi]; [injection Hi as <- <-|]); try contradiction Hi; inversion Hh'; subst; clear Hh'.
        + match goal with H : owns _ _ (TInt 2) _ _ _ _ _ |- _ => inversion H end.
        + match goal with H : nth_error _ _ = Some ?t, H2 : owns _ _ ?t _ _ _ _ _ |- _ => apply nth_error_In in H; cbn in H; destruct H as [<-|[<-|[]]]; inversion H2 end.
      - match goal with H : owns _ _ (tyof _ 2) _ _ _ _ _ |- _ => inversion H end. }
    destruct Hs as [[-> | ->] ->].
    + assert (Some p = Some 2004) as Eq by (eapply inv_some; [exact Hp|vm_compute; reflexivity]). injection Eq as ->.
      destruct Hb as [(-> & -> & -> & ->)|(-> & -> & -> & ->)]; [|discriminate Hin]. exists 1%nat. split; [lia|]. apply p_here.
    + assert (Some p = Some 1048) as Eq by (eapply inv_some; [exact Hp|vm_compute; reflexivity]). injection Eq as ->.
      destruct Hb as [(-> & -> & -> & ->)|(-> & -> & -> & ->)]; [cbn in Hin; lia|discriminate Hin].
  - destruct (serialize ex_env false false 6 12345 ex_src 5 ex_ty 1000) as [out| | |] eqn:E; try (vm_compute in E; discriminate E).
    exists (after (deserialize_deep ex_env [1; 2; 3]%N false false true 6 12345 5 9 ex_ty 4096 out)). apply after_ok.
    vm_compute in E. injection E as <-. vm_compute. reflexivity.
Qed.

(* Finding: a pointer is followed once per type hash, not once per type. vector<uint32_t> with 32 and
   with 64 bit sizes have the same type hash (C37). struct { ptr<a> p; ptr<b> q; }, a is struct
   { ptr<vector<uint32_t>> x; } and b the same with 64 bit sizes; p and q point to the same place. Its
   pointer is followed as in a only; the vector in b has 2^32 + 1 elements, far out of the buffer. *)
Definition hash_env : list ty := [TAgg [(0, TPtr 2)] 8 8; TAgg [(0, TPtr 3)] 8 8; TVec 4 true 4; TVec 8 true 4; TInt 4].
Definition hash_ty : ty := TAgg [(0, TPtr 0); (8, TPtr 1)] 16 8.
Definition hash_keys : list N := [1; 1; 2; 2; 3]%N.
Definition hash_buf : list N :=
  le_enc 8 16 ++ le_enc 8 8 ++ le_enc 8 8 ++
  le_enc 8 24 ++ le_enc 4 1 ++ le_enc 4 1 ++ le_enc 8 0 ++ le_enc 8 7.
Theorem C44_hash_collision_refuted :
  types_ok 8 hash_env hash_ty /\ no_cstring hash_env hash_ty /\ bytes_ok hash_buf /\
  exists m1, deserialize_deep hash_env hash_keys false false false 0 0 9 9 hash_ty 4096 hash_buf = Ok (4096, m1) /\
  reach hash_env (plain false m1 true (Some (4096, 4096 + 56)) ctrl_tab) hash_ty 4096 (TVec 8 true 4) 4120 /\
  dint false m1 4128 8 = Ok (2 ^ 32 + 1) /\
  forall f v tr, ~ host_image hash_env false false 4096 56 m1 ctrl_tab f (TVec 8 true 4) 4120 v tr.
Proof.
  set (run := deserialize_deep hash_env hash_keys false false false 0 0 9 9 hash_ty 4096 hash_buf).
  split; [unfold hash_env, hash_ty; tok|].
  split. { split; repeat constructor. }
  split; [unfold bytes_ok; vm_compute; repeat constructor|].
  exists (after run). split; [apply after_ok; vm_compute; reflexivity|]. split.
  { change (TVec 8 true 4) with (tyof hash_env 3).
    eapply r_step with (t' := TAgg [(0, TPtr 3)] 8 8) (a' := 4112) (s := 4112).
    - change (TAgg [(0, TPtr 3)] 8 8) with (tyof hash_env 1).
      eapply r_step with (t' := hash_ty) (a' := 4096) (s := 4104); [constructor| |vm_compute; reflexivity].
      apply h_agg with (o := 8) (t := TPtr 1); [cbn; tauto|constructor].
    - apply h_agg with (o := 0) (t := TPtr 3); [cbn; tauto|constructor].
    - vm_compute. reflexivity. }
  split; [vm_compute; reflexivity|].
  intros [|f] v tr H; [discriminate H|]. unfold host_image in H. vm_compute in H. discriminate H.
Qed.
Print Assumptions C44_hash_collision_refuted.

(* Finding: even DEEP_CHECK does not compare the size of a bit vector with the number of its blocks. 6400 bits in one block are accepted;
   test(64) then reads the block behind the last one, here outside of the buffer. *)
Definition bits_buf : list N := le_enc 8 6400 ++ le_enc 8 24 ++ le_enc 4 1 ++ le_enc 4 1 ++ le_enc 8 0 ++ le_enc 8 5.
Theorem C44_bitvec_size_refuted :
  let t := TAgg [(8, TVec 4 true 0)] 32 8 in
  types_ok 8 [TInt 8] t /\ no_cstring [TInt 8] t /\ bytes_ok bits_buf /\
  exists m1, deserialize_deep [TInt 8] [1%N] false false false 0 0 9 9 t 4096 bits_buf = Ok (4096, m1) /\
  dint false m1 4096 4 = Ok 6400 /\ dint false m1 4112 4 = Ok 1 /\ length bits_buf = 40%nat /\ m1 (4104 + 24 + 8 * (64 / 64)) = None.
Proof.
  intros t. set (run := deserialize_deep [TInt 8] [1%N] false false false 0 0 9 9 t 4096 bits_buf).
  split; [unfold t; tok|]. split. { split; repeat constructor. }
  split; [unfold bytes_ok; vm_compute; repeat constructor|].
  exists (after run). split; [apply after_ok; vm_compute; reflexivity|].
  split; [vm_compute; reflexivity|]. split; [vm_compute; reflexivity|]. split; [reflexivity|]. vm_compute. reflexivity.
Qed.
Print Assumptions C44_bitvec_size_refuted.

(* C45: if the first pass does nothing undefined and ends, so does the second, on any bytes: also
   on cyclic pointers. Types: owning members nest at most K deep. *)
Theorem C45_second_pass_total : forall env A t keys hb raw strict m th f B b K g,
  types_ok A env t -> 0 < B < 2 ^ 62 -> Z.of_nat (length b) < 2 ^ 62 -> bytes_ok b -> is_mode_enabled m UNCHECKED = false ->
  raw = true \/ strict = false -> nesting env K t -> Forall (nesting env K) env -> (deep_fuel K keys (length b) <= g)%nat ->
  (convert env hb raw strict m th f t B b <> UB -> deserialize_deep env keys hb raw strict m th f g t B b <> UB) /\
  (convert env hb raw strict m th f t B b <> Fuel -> deserialize_deep env keys hb raw strict m th f g t B b <> Fuel).
Proof. intros env A t keys hb raw strict m th f B b K g Ht HB Hl Hb Hm. now apply (deep_total env A). Qed.
Print Assumptions C45_second_pass_total.

(* C45: both passes together. Partial: entries of hash tables own no memory elsewhere (see C42 for
   what goes wrong otherwise), types are not recursive through owning members. *)
Theorem C45_deep_check_total_partial : forall env A t keys hb raw strict m th f B b K g,
  types_ok A env t -> inline_tables env t ->
  0 < B < 2 ^ 62 -> Z.of_nat (length b) < 2 ^ 62 -> bytes_ok b -> is_mode_enabled m UNCHECKED = false ->
  raw = true \/ strict = false -> nesting env K t -> Forall (nesting env K) env ->
  (K <= f)%nat -> (deep_fuel K keys (length b) <= g)%nat ->
  (exists r m1, deserialize_deep env keys hb raw strict m th f g t B b = Ok (r, m1)) \/
  deserialize_deep env keys hb raw strict m th f g t B b = Throw.
Proof.
  intros env A t keys hb raw strict m th f B b K g Ht Hi HB Hl Hb Hm Hr Hn Hne Hf Hg.
  pose proof (convert_safe env A t hb raw strict m th f B b False Ht Hi Hr HB Hl Hb Hm (or_intror (ex_intro _ K (conj Hn Hf)))) as H.
  destruct (deep_total env A t keys hb raw strict m th f B b Ht HB Hl Hb Hm K g Hr Hn Hne Hg) as [H1 H2].
  destruct (convert env hb raw strict m th f t B b) as [x| | |] eqn:E; cbn [pst] in H; try easy;
  specialize (H1 ltac:(discriminate)); specialize (H2 ltac:(discriminate));
  destruct (deserialize_deep env keys hb raw strict m th f g t B b) as [[r m1]| | |]; try tauto; eauto.
Qed.
Print Assumptions C45_deep_check_total_partial.

(* Finding: unique_ptr are followed without looking at the set of visited pointers. struct node {
   unique_ptr<node> next; }; a pointer to a node whose next is itself is accepted without DEEP_CHECK
   (nothing looks at the node); with DEEP_CHECK the check never ends: no recursion depth is enough. *)
Definition loop_env : list ty := [TAgg [(0, TUniq 0)] 16 8].
Definition loop_buf : list N := le_enc 8 8 ++ le_enc 8 0 ++ le_enc 8 0.
Theorem C45_recursive_type_refuted :
  types_ok 8 loop_env (TPtr 0) /\ bytes_ok loop_buf /\
  (exists m1, convert loop_env false false false 0 0 2 (TPtr 0) 4096 loop_buf = Ok (4096, m1)) /\
  forall g, deserialize_deep loop_env [1%N] false false false 0 0 2 g (TPtr 0) 4096 loop_buf = Fuel.
Proof.
  split; [unfold loop_env; tok|].
  split; [unfold bytes_ok; vm_compute; repeat constructor|].
  set (run := convert loop_env false false false 0 0 2 (TPtr 0) 4096 loop_buf).
  assert (E : run = Ok (4096, after run)) by (apply after_ok; vm_compute; reflexivity).
  split; [now exists (after run)|]. intros g. unfold deserialize_deep. fold run. rewrite E. cbn [bind fst snd].
  assert (H : forall g a st, a = 4104 -> dchk loop_env [1%N] false false true false 4096 (4096 + Z.of_nat (length loop_buf)) (after run) g (TAgg [(0, TUniq 0)] 16 8) a st = Fuel /\
                             dchk loop_env [1%N] false false true false 4096 (4096 + Z.of_nat (length loop_buf)) (after run) g (TUniq 0) a st = Fuel).
  { clear. induction g as [|g IH]; intros a st ->; [split; reflexivity|]. split.
    - cbn [dchk when]. replace (check_raw _ _ _ _ _) with (Ok tt) by (vm_compute; reflexivity). cbn [bind foldM fst snd].
      destruct (IH (4104 + 0) st eq_refl) as [_ ->]. reflexivity.
    - cbn [dchk when]. replace (check_raw _ _ _ _ _) with (Ok tt) by (vm_compute; reflexivity). cbn [bind].
      replace (check_bool false (after run) (4104 + 8)) with (Ok 0) by (vm_compute; reflexivity). cbn [bind verify Z.eqb].
      replace (cptr false false false (after run) 4104) with (Ok (Some 4104)) by (vm_compute; reflexivity). cbn [bind].
      destruct (IH 4104 st eq_refl) as [H _]. change (tyof loop_env 0) with (TAgg [(0, TUniq 0)] 16 8). now rewrite H. }
  replace (is_mode_enabled 0 UNCHECKED) with false by (vm_compute; reflexivity). cbn [negb].
  destruct g as [|g]; [reflexivity|]. cbn [dchk when]. replace (check_raw _ _ _ _ _) with (Ok tt) by (vm_compute; reflexivity). cbn [bind].
  replace (check_slot _ _ _ _ _ _ _ _ _) with (Ok tt) by (vm_compute; reflexivity). cbn [bind].
  replace (cptr false false false (after run) 4096) with (Ok (Some 4104)) by (vm_compute; reflexivity). cbn [bind seen existsb].
  destruct (H g 4104 [(key [1%N] 0, 4096)] eq_refl) as [H' _]. change (tyof loop_env 0) with (TAgg [(0, TUniq 0)] 16 8). now rewrite H'.
Qed.
Print Assumptions C45_recursive_type_refuted.

(* ---- struct n { ptr<n> next; ptr<vector<uint32_t>> v; }: a cycle is accepted; a pointer to bytes
   that are no vector is accepted by the first pass only ---- *)
Definition cyc_env : list ty := [TAgg [(0, TPtr 0); (8, TPtr 1)] 16 8; TVec 4 true 2; TInt 4].
Definition cyc_ty : ty := TAgg [(0, TPtr 0); (8, TPtr 1)] 16 8.
Definition cyc_buf (used : N) : list N :=
  le_enc 8 16 ++ le_enc 8 24 ++ (* root *)
  le_enc 8 (u_of_z (-16)) ++ le_enc 8 8 ++ (* the next node, whose next is the root *)
  le_enc 8 24 ++ le_enc 4 used ++ le_enc 4 1 ++ le_enc 8 0 ++ le_enc 4 7. (* the vector *)
Example C44_example :
  distinct_keys cyc_env [5; 6; 7]%N /\ Forall (nesting cyc_env 2) cyc_env /\ nesting cyc_env 2 cyc_ty /\
  types_ok 8 cyc_env cyc_ty /\ no_cstring cyc_env cyc_ty /\ inline_tables cyc_env cyc_ty /\
  (exists m1, deserialize_deep cyc_env [5; 6; 7]%N false false false 0 0 9 9 cyc_ty 4096 (cyc_buf 1) = Ok (4096, m1)) /\
  (exists m1, convert cyc_env false false false 0 0 9 cyc_ty 4096 (cyc_buf 2) = Ok (4096, m1)) /\
  deserialize_deep cyc_env [5; 6; 7]%N false false false 0 0 9 9 cyc_ty 4096 (cyc_buf 2) = Throw.
Proof.
  split. { intros [|[|[|n]]] [|[|[|n']]]; cbn; try congruence; try (destruct n); try (destruct n'); cbn; congruence. }
  split; [repeat constructor|]. split; [repeat constructor|].
  split; [unfold cyc_env, cyc_ty; tok|].
  split; [split; repeat constructor|]. split; [split; repeat constructor|].
  split. { exists (after (deserialize_deep cyc_env [5; 6; 7]%N false false false 0 0 9 9 cyc_ty 4096 (cyc_buf 1))). apply after_ok. vm_compute. reflexivity. }
  split. { exists (after (convert cyc_env false false false 0 0 9 cyc_ty 4096 (cyc_buf 2))). apply after_ok. vm_compute. reflexivity. }
  vm_compute. reflexivity.
Qed.
