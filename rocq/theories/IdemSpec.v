(* C55: the bytes between the members. Independent of the serializer. *)
From Verif Require Import Base Bytes HashModel SerialModel SerialSpec TwinSpec.
Local Open Scope Z_scope.

Section Pads.
Variable env : list ty.
Variables s1 s2 : side.

(* The bytes of owned blocks that no member covers (padding, unused parts of strings, optionals and variants, empty slots of hash tables) are the same in
   both memories, for the objects of type t at a1 and a2 and everything they own. *)
Fixpoint pads (f : nat) (t : ty) (a1 a2 : Z) {struct f} : Prop :=
  match f with
  | O => True
  | S f =>
    match t with
    | TInt _ | TRaw _ | TPtr _ | TStr => True
    | TCStr => forall r1, int_at s1 (a1 + 15) 1 = Some r1 -> (128 <= r1)%N -> exists r2, int_at s2 (a2 + 15) 1 = Some r2 /\ (128 <= r2)%N (* both long *)
    | TAgg fs _ _ => forall o t, In (o, t) fs -> pads f t (a1 + o) (a2 + o)
    | TOpt t off _ _ => forall b, int_at s1 a1 1 = Some b -> b <> 0%N -> pads f t (a1 + off) (a2 + off)
    | TVar ts off _ _ => forall i t, int_at s1 a1 1 = Some i -> nth_error ts (N.to_nat i) = Some t -> pads f t (a1 + off) (a2 + off)
    | TUniq n =>
        let T := tyof env n in
        forall q1 q2, ptr_at s1 a1 = Some (Some q1) -> ptr_at s2 a2 = Some (Some q2) ->
          same_but s1 s2 q1 q2 (size_of T) (free s1 f T q1) /\ pads f T q1 q2
    | TVec w _ n =>
        let T := tyof env n in
        forall q1 q2 used, ptr_at s1 a1 = Some (Some q1) -> ptr_at s2 a2 = Some (Some q2) -> int_at s1 (a1 + 8) w = Some used -> used <> 0%N ->
          same_but s1 s2 q1 q2 (size_of T * Z.of_N used)
            (fun k => exists i, (i < N.to_nat used)%nat /\ free s1 f T (q1 + Z.of_nat i * size_of T) (k - Z.of_nat i * size_of T)) /\
          forall i, (i < N.to_nat used)%nat -> pads f T (q1 + Z.of_nat i * size_of T) (q2 + Z.of_nat i * size_of T)
    | THash n =>
        let T := tyof env n in
        forall q1 q2 c1 cap, ptr_at s1 a1 = Some (Some q1) -> ptr_at s2 a2 = Some (Some q2) -> ptr_at s1 (a1 + 8) = Some (Some c1) ->
          int_at s1 (a1 + 24) 8 = Some cap ->
          same_but s1 s2 q1 q2 (Z.of_N cap * size_of T + (Z.of_N cap + 9))
            (fun k => exists i b, (i < N.to_nat cap)%nat /\ int_at s1 (c1 + Z.of_nat i) 1 = Some b /\ is_full b = true /\
                                  free s1 f T (q1 + Z.of_nat i * size_of T) (k - Z.of_nat i * size_of T)) /\
          forall i b, (i < N.to_nat cap)%nat -> int_at s1 (c1 + Z.of_nat i) 1 = Some b -> is_full b = true ->
            pads f T (q1 + Z.of_nat i * size_of T) (q2 + Z.of_nat i * size_of T)
    end
  end.
(* the same, and for the bytes of the object itself *)
Definition same_padding (f : nat) (t : ty) (a1 a2 : Z) : Prop := same_but s1 s2 a1 a2 (size_of t) (free s1 f t a1) /\ pads f t a1 a2.
End Pads.

(* Two graphs, read with events tr1 and tr2, whose owned blocks correspond in reading order and whose non-owning pointers lead to corresponding places, or
   nowhere: null or not into anything the graph owns. [image] as in SerialSpec. *)
Definition nowhere (l : list blk) (p : option Z) : Prop :=
  match p with
  | None => True
  | Some q => forall ix a n al, In (ix, a, n, al) l -> if (ix : bool) then q < a \/ a + n <= q else q <> a
  end.
Definition alike (tr1 tr2 : list ev) : Prop :=
  Forall2 (fun x y : blk => match x, y with (ix, _, n, al), (ix', _, n', al') => ix' = ix /\ n' = n /\ al' = al end) (blks tr1) (blks tr2) /\
  Forall2 (fun x y : Z * option Z * Z * Z =>
             match snd (fst (fst x)), snd (fst (fst y)) with
             | Some q, Some o => image (combine (blks tr1) (blks tr2)) q o \/ nowhere (blks tr1) (Some q) /\ nowhere (blks tr2) (Some o)
             | p1, p2 => nowhere (blks tr1) p1 /\ nowhere (blks tr2) p2
             end)
          (ptrs tr1) (ptrs tr2).
