(* C32: the layout and the comparison of tuples. *)
From Verif Require Import Base FlatModel TupleModel TupleProofs.

(* For every list of element types whose alignments are powers of two and every address of the tuple that has the alignment
   of its storage: every element is aligned, inside the storage and disjoint from every other element. *)
Theorem C32_layout : forall (ts : list ty) (base : nat),
  (forall t, In t ts -> exists k, talign t = 2 ^ k) -> base mod max_align_of ts = 0 ->
  forall i t, nth_error ts i = Some t ->
    (base + get_offset ts i 0) mod talign t = 0 /\
    get_offset ts i 0 + tsize t <= get_total_size ts /\
    forall j u, nth_error ts j = Some u -> i <> j ->
      get_offset ts i 0 + tsize t <= get_offset ts j 0 \/ get_offset ts j 0 + tsize u <= get_offset ts i 0.
Proof. exact layout. Qed.
Print Assumptions C32_layout.

(* So construction from values of the right sizes never leaves the storage (UB) and every element reads as its value; and
   after any further writes to elements every element reads as it was last written. *)
Theorem C32_elements : forall (ts : list ty) (vs : list (list N)) (m : storage),
  (forall t, In t ts -> 0 < talign t) -> length m = get_total_size ts -> Forall2 (fun t v => length v = tsize t) ts vs ->
  exists m', tfill ts m 0 vs = Ok m' /\ (forall i v, nth_error vs i = Some v -> tget ts m' i = Ok v) /\
    forall sets vs', fold_left (fun r s => match r with
        | Some l => match nth_error ts (fst s) with Some t => if length (snd s) =? tsize t then Some (upd (fst s) (snd s) l) else None | None => None end
        | None => None end) sets (Some vs) = Some vs' ->
      exists m'', fold_left (fun (r : res storage) s => let* m := r in tset ts m (fst s) (snd s)) sets (Ok m') = Ok m'' /\
        forall i v, nth_error vs' i = Some v -> tget ts m'' i = Ok v.
Proof. exact fill_then_set. Qed.
Print Assumptions C32_elements.

(* char, double, short, int, char: *)
Definition ts5 : list ty := [Ty 1 1; Ty 8 8; Ty 2 2; Ty 4 4; Ty 1 1].
Example C32_layout_case :
  map (fun i => get_offset ts5 i 0) [0; 1; 2; 3; 4] = [0; 8; 16; 20; 24] /\ get_total_size ts5 = 25 /\ max_align_of ts5 = 8 /\
  (forall t, In t ts5 -> exists k, talign t = 2 ^ k) /\ 32 mod max_align_of ts5 = 0.
Proof.
  do 3 (split; [vm_compute; reflexivity|]). split; [|reflexivity]. cbn [ts5 In]. intros t H.
  destruct H as [<-|[<-|[<-|[<-|[<-|[]]]]]]; [exists 0|exists 3|exists 1|exists 2|exists 0]; reflexivity.
Qed.
Example C32_elements_case :
  match tfill ts5 (repeat 0%N 25) 0 [[1];[2;3;4;5;6;7;8;9];[10;11];[12;13;14;15];[16]]%N with
  | Ok m => (let* m := tset ts5 m 2 [90;91]%N in Ok (tget ts5 m 1, tget ts5 m 2, tget ts5 m 3)) = Ok (Ok [2;3;4;5;6;7;8;9], Ok [90;91], Ok [12;13;14;15])%N
  | _ => False end.
Proof. vm_compute. reflexivity. Qed.

(* For tuples of one type, == is equality of all elements, and < is lexicographic: there is a position where a is
   less and before it neither element is less. != > <= >= follow from the two. *)
Theorem C32_equality : forall (V : Type) (eqv : nat -> V -> V -> bool) (a b : list V), length a = length b ->
  exists r, t_eq V eqv a b = Ok r /\ t_ne V eqv a b = Ok (negb r) /\
    (r = true <-> forall j x y, nth_error a j = Some x -> nth_error b j = Some y -> eqv j x y = true).
Proof. exact t_eq_spec. Qed.
Print Assumptions C32_equality.
Theorem C32_order : forall (V : Type) (ltv : nat -> V -> V -> bool) (a b : list V), length a = length b ->
  exists r, t_lt V ltv a b = Ok r /\ t_gt V ltv b a = Ok r /\ t_ge V ltv a b = Ok (negb r) /\ t_le V ltv b a = Ok (negb r) /\
    (r = true <-> exists j x y, nth_error a j = Some x /\ nth_error b j = Some y /\ ltv j x y = true /\
      forall l x' y', l < j -> nth_error a l = Some x' -> nth_error b l = Some y' -> ltv l x' y' = false /\ ltv l y' x' = false).
Proof. exact t_lt_spec. Qed.
Print Assumptions C32_order.
Example C32_order_case : t_lt nat (fun _ => Nat.ltb) [1; 2; 9] [1; 3; 0] = Ok true /\ t_le nat (fun _ => Nat.ltb) [1; 3; 0] [1; 2; 9] = Ok false /\
  t_eq nat (fun _ => Nat.eqb) [1; 2; 9] [1; 2; 9] = Ok true.
Proof. vm_compute. auto. Qed.
(* == compares only as many elements as the first tuple has: tuple{1} == tuple{1, 2}. *)
Theorem C32_lengths_refuted : t_eq nat (fun _ => Nat.eqb) [1] [1; 2] = Ok true.
Proof. reflexivity. Qed.
Print Assumptions C32_lengths_refuted.
