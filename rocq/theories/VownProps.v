(* C71: elements of a vector as arguments of the vector's own functions. *)
From Verif Require Import Base ArithModel ArithProofs VecModel VecSpec VecProofs VownModel VownSpec VownProofs.

(* C71. Adding elements of a vector to it again, by push_back, emplace_back and insert, any number of times and in any order. As long as
   the result fits into the block the vector has, it holds what the sequence of copies says; otherwise a call reads the freed block.
   Missing for the full claim: the calls that grow the block. *)
Theorem C71_again_partial (A : Type) (w : N) (triv : bool) (dflt : A) (eqA ltA : A -> A -> bool) v xs cs ys :
  npo2_width w -> reached A w triv dflt eqA ltA v xs -> add_all_again xs cs = Some ys -> fits w (length ys) ->
  if length ys <=? capacity A v
  then exists v', do_calls A w triv v cs = Ok v' /\ contents A v' = Ok ys /\ capacity A v' = capacity A v
  else do_calls A w triv v cs = UB.
Proof.
  intros Hw Hv Hc Hf. pose proof (calls_ok A w triv Hw cs v xs ys (reached_R _ _ _ _ _ _ _ _ Hw Hv) Hc Hf) as H.
  destruct (length ys <=? capacity A v); [|exact H].
  destruct H as (v' & E & HR & C). exists v'. split; [exact E|]. split; [eapply contents_R; eauto|exact C].
Qed.
Print Assumptions C71_again_partial.

(* Hence reserve(n) makes all of them safe up to n elements. *)
Theorem C71_reserved (A : Type) (w : N) (triv : bool) (dflt : A) (eqA ltA : A -> A -> bool) v xs cs ys n :
  npo2_width w -> reached A w triv dflt eqA ltA v xs -> add_all_again xs cs = Some ys -> fits w n -> length ys <= n ->
  exists v', (let* v := reserve A w triv v (N.of_nat n) in do_calls A w triv v cs) = Ok v' /\ contents A v' = Ok ys.
Proof.
  intros Hw Hv Hc Hf Hn. pose proof (reached_R _ _ _ _ _ _ _ _ Hw Hv) as HR.
  destruct (reserve_ok A w triv Hw False v xs (N.of_nat n) HR Hf) as (v1 & rest & -> & S1 & U & Sm & C & L). cbn [bind].
  assert (HR1 : R A w False v1 xs) by (exists rest; auto).
  pose proof (calls_ok A w triv Hw cs v1 xs ys HR1 Hc (small_le w _ _ Hn Hf)) as H.
  destruct (Nat.leb_spec (length ys) (capacity A v1)) as [_|X]; [|unfold capacity in X; lia].
  destruct H as (v' & E & HR' & _). exists v'. split; [exact E|]. eapply contents_R; eauto.
Qed.
Print Assumptions C71_reserved.

(* With room, each call does exactly what it does with a copy, returned position included. *)
Theorem C71_as_copy_partial (A : Type) (w : N) (triv : bool) (dflt : A) (eqA ltA : A -> A -> bool) v xs j x :
  npo2_width w -> reached A w triv dflt eqA ltA v xs -> nth_error xs j = Some x ->
  (length xs + 1 <= capacity A v -> fits w (length xs + 1) ->
     push_back_own A w triv v j = push_back A w triv v x /\
     forall i, insert_own A w triv v i j = insert A w triv v i x) /\
  (forall i n, length xs + n <= capacity A v -> fits w (length xs + n) ->
     insert_n_own A w triv v i n j = insert_n A w triv v i n x).
Proof.
  intros Hw Hv Hj. pose proof (reached_R _ _ _ _ _ _ _ _ Hw Hv) as HR. split.
  - intros Hc Hf. split; [eapply push_room; eauto|]. intros i. eapply insert_room; eauto.
  - intros i n Hc Hf. eapply insert_n_room; eauto.
Qed.
Print Assumptions C71_as_copy_partial.

(* push_back(std::move(v[j])), after which v[j] gets a new value: as appending a copy and writing v[j], if there is room. *)
Theorem C71_move_partial (A : Type) (w : N) (triv : bool) (dflt : A) (eqA ltA : A -> A -> bool) v xs j x y :
  npo2_width w -> reached A w triv dflt eqA ltA v xs -> nth_error xs j = Some x -> fits w (length xs + 1) ->
  (let* v := push_moved A w triv v j in write_at A v j y) =
  if length xs + 1 <=? capacity A v then let* v := push_back A w triv v x in write_at A v j y else UB.
Proof. intros Hw Hv Hj Hf. eapply move_room; eauto. eapply reached_R; eauto. Qed.
Print Assumptions C71_move_partial.

(* set to a part of itself: always as from a copy of the part, unless the part starts at the front and the elements have constructors. *)
Theorem C71_set_partial (A : Type) (w : N) (triv : bool) (dflt : A) (eqA ltA : A -> A -> bool) v xs a b :
  npo2_width w -> reached A w triv dflt eqA ltA v xs -> a <= b <= length xs -> (0 < a \/ triv = true) ->
  set_own A w triv v a b = set_range A w triv v (slice a b xs) /\
  exists v', set_own A w triv v a b = Ok v' /\ contents A v' = Ok (slice a b xs).
Proof.
  intros Hw Hv Hab Ha. pose proof (reached_R _ _ _ _ _ _ _ _ Hw Hv) as HR.
  pose proof (set_own_ok A w triv v xs a b HR Hab Ha) as E. split; [exact E|]. rewrite E.
  destruct (set_range_ok A w triv Hw False v xs (slice a b xs) HR) as (v' & E' & HR'); [tauto| |].
  - rewrite slice_len by auto. destruct HR as (r & E1 & _ & Sm & _). rewrite E1, app_length, map_length in Sm.
    eapply small_le; [|apply Sm]. lia.
  - exists v'. split; [exact E'|]. eapply contents_R; eauto.
Qed.
Print Assumptions C71_set_partial.
(* The other case constructs every element from itself at its own place, always. *)
Theorem C71_set_front_refuted (A : Type) (w : N) (dflt : A) (eqA ltA : A -> A -> bool) v xs b :
  npo2_width w -> reached A w false dflt eqA ltA v xs -> 0 < b <= length xs -> set_own A w false v 0 b = UB.
Proof. intros Hw Hv Hb. eapply set_own_self; eauto. eapply reached_R; eauto. Qed.
Print Assumptions C71_set_front_refuted.

(* the hypotheses are met: three elements in a block of four *)
Definition own_demo : list (op nat) := [Push 0 5; Push 0 6; Push 0 7].
Definition own_vec : vec nat := V [Live 5; Live 6; Live 7; Raw] 3 true 0.
Example C71_reached : reached nat 32 false 0 Nat.eqb Nat.ltb own_vec [5; 6; 7].
Proof.
  exists 1, own_demo, [[5; 6; 7]], [ONone; ONone; ONone], [own_vec], 0. split.
  { unfold own_demo. repeat (eapply h_cons; [apply s_push; eapply on_; [reflexivity|exact I|unfold fits; apply N.leb_le; vm_compute; reflexivity]|]).
    apply h_nil. }
  split; [vm_compute; reflexivity|]. split; reflexivity.
Qed.
Example C71_case : add_all_again [5; 6; 7] [CInsert 1 2] = Some [5; 7; 6; 7] /\
  (exists v', do_calls nat 32 false own_vec [CInsert 1 2] = Ok v' /\ contents nat v' = Ok [5; 7; 6; 7]).
Proof. split; [reflexivity|]. eexists. split; [vm_compute; reflexivity|reflexivity]. Qed.
(* one call more and the same arguments are read from the freed block *)
Theorem C71_again_refuted : add_all_again [5; 6; 7] [CInsert 1 2; CPush 0] = Some [5; 7; 6; 7; 5] /\
  do_calls nat 32 false own_vec [CInsert 1 2; CPush 0] = UB /\
  do_calls nat 32 false own_vec [CInsertN 0 2 1] = UB.
Proof. split; [reflexivity|]. split; vm_compute; reflexivity. Qed.
Example C71_reserved_case : exists v',
  (let* v := reserve nat 32 false own_vec 7 in do_calls nat 32 false v [CInsert 1 2; CPush 0; CInsertN 0 2 4]) = Ok v' /\
  contents nat v' = Ok [5; 5; 5; 7; 6; 7; 5].
Proof. eexists. split; [vm_compute; reflexivity|reflexivity]. Qed.
Example C71_move_case : exists v', (let* v := push_moved nat 32 false own_vec 1 in write_at nat v 1 9) = Ok v' /\
  contents nat v' = Ok [5; 9; 7; 6].
Proof. eexists. split; [vm_compute; reflexivity|reflexivity]. Qed.
Example C71_set_case : exists v', set_own nat 32 false own_vec 1 3 = Ok v' /\ contents nat v' = Ok [6; 7].
Proof. eexists. split; [vm_compute; reflexivity|reflexivity]. Qed.
