(* When two object graphs in two memories count as the same for C54: equal contents, pointers that lead to corresponding places, and equal bytes
   everywhere else in the objects (padding, unused parts). Addresses, spare capacity, ownership flags, the kind of pointers and the byte order of the
   host may differ. Independent of the serializer. *)
From Verif Require Import Base Bytes HashModel SerialModel SerialSpec.
Local Open Scope Z_scope.

(* a memory: byte order of its integers, offset or raw pointers, contents *)
Record side := Side { d_be : bool; d_rel : bool; d_mem : mem }.

Definition int_at (s : side) (a : Z) (w : nat) : option N := let? l := rdn (d_mem s) a w in Some (to_int (d_be s) l).
Definition ptr_at (s : side) (a : Z) : option (option Z) := let? x := int_at s a 8 in Some (ptr_of (d_rel s) a x).

Section Twin.
Variable env : list ty.
Variables s1 s2 : side.

(* Blocks of memory that correspond: (address in memory 1, address in memory 2, length). *)
Variable blocks : list (Z * Z * Z).
Definition apart_blocks : Prop := forall x y, In x blocks -> In y blocks -> x = y \/
  (match x, y with (a, a', n), (b, b', k) => apart a n b k /\ apart a' n b' k end).

(* n bytes at q1 correspond to n bytes at q2, inside one block *)
Definition corr (q1 q2 n : Z) : Prop := exists b1 b2 len k, In (b1, b2, len) blocks /\ 0 <= k < len /\ k + n <= len /\ q1 = b1 + k /\ q2 = b2 + k.
Definition stray1 (q : Z) : Prop := forall b1 b2 len, In (b1, b2, len) blocks -> q < b1 \/ b1 + len <= q.
Definition stray2 (q : Z) : Prop := forall b1 b2 len, In (b1, b2, len) blocks -> q < b2 \/ b2 + len <= q.

(* two pointers: to corresponding places, or both null or out of everything *)
Inductive same_ptr : option Z -> option Z -> Prop :=
| sp_null : same_ptr None None
| sp_corr q1 q2 : corr q1 q2 0 -> same_ptr (Some q1) (Some q2)
| sp_stray q1 q2 : stray1 q1 -> stray2 q2 -> same_ptr (Some q1) (Some q2)
| sp_left q : stray1 q -> same_ptr (Some q) None
| sp_right q : stray2 q -> same_ptr None (Some q).

Definition same_int (a1 a2 : Z) (w : nat) (x : N) : Prop := int_at s1 a1 w = Some x /\ int_at s2 a2 w = Some x.
Definition same_bytes (a1 a2 : Z) (n : nat) : Prop := exists l, rdn (d_mem s1) a1 n = Some l /\ rdn (d_mem s2) a2 n = Some l.
(* the n bytes at a1 and a2 agree, but for those in [free] *)
Definition same_but (a1 a2 n : Z) (free : Z -> Prop) : Prop := forall k, 0 <= k < n ->
  exists x y, d_mem s1 (a1 + k) = Some x /\ d_mem s2 (a2 + k) = Some y /\ (free k \/ x = y).

(* The bytes of an object (counted from its address) whose contents [twin] compares in another way: integers, pointers, sizes, flags. All other bytes
   must be equal. *)
Fixpoint free (f : nat) (t : ty) (a : Z) (k : Z) {struct f} : Prop :=
  match f with
  | O => False
  | S f =>
    match t with
    | TInt w => 0 <= k < Z.of_nat w
    | TRaw _ => False
    | TPtr _ => 0 <= k < 8
    | TAgg fs _ _ => exists o t, In (o, t) fs /\ free f t (a + o) (k - o)
    | TOpt t off _ _ => match int_at s1 a 1 with Some 0%N | None => False | _ => free f t (a + off) (k - off) end
    | TVar ts off _ _ =>
        match int_at s1 a 1 with
        | Some i => k = 0 \/ match nth_error ts (N.to_nat i) with Some t => free f t (a + off) (k - off) | None => False end
        | None => False
        end
    | TUniq _ => 0 <= k < 9
    | TVec w _ _ => 0 <= k < 9 + 2 * Z.of_nat w
    | TStr => match int_at s1 a 1 with Some 0%N => k = 1 \/ 4 <= k < 16 | _ => False end
    | TCStr => match int_at s1 (a + 15) 1 with Some rem => (128 <= rem)%N /\ (0 <= k < 13 \/ k = 15) | None => False end
    | THash _ => 0 <= k < 41
    end
  end.

(* The objects of type t at a1 (memory 1) and a2 (memory 2) are the same. *)
Fixpoint twin (f : nat) (t : ty) (a1 a2 : Z) {struct f} : Prop :=
  match f with
  | O => True
  | S f =>
    match t with
    | TInt w => exists x, same_int a1 a2 w x
    | TRaw w => same_bytes a1 a2 w
    | TPtr _ => exists p1 p2, ptr_at s1 a1 = Some p1 /\ ptr_at s2 a2 = Some p2 /\ same_ptr p1 p2
    | TAgg fs _ _ => forall o t, In (o, t) fs -> twin f t (a1 + o) (a2 + o)
    | TOpt t off _ _ => exists b, same_int a1 a2 1 b /\ (b <> 0%N -> twin f t (a1 + off) (a2 + off))
    | TVar ts off _ _ => exists i, same_int a1 a2 1 i /\ forall t, nth_error ts (N.to_nat i) = Some t -> twin f t (a1 + off) (a2 + off)
    | TUniq n =>
        let T := tyof env n in
        ptr_at s1 a1 = Some None /\ ptr_at s2 a2 = Some None \/
        exists q1 q2, ptr_at s1 a1 = Some (Some q1) /\ ptr_at s2 a2 = Some (Some q2) /\ corr q1 q2 0 /\
          same_but q1 q2 (size_of T) (free f T q1) /\ twin f T q1 q2
    | TVec w ix n =>
        let T := tyof env n in
        exists p1 p2 used, ptr_at s1 a1 = Some p1 /\ ptr_at s2 a2 = Some p2 /\ same_int (a1 + 8) (a2 + 8) w used /\
        (used = 0%N /\ (forall q, ix = true -> p1 = Some q -> stray1 q) /\ (forall q, ix = true -> p2 = Some q -> stray2 q) \/
         exists q1 q2, p1 = Some q1 /\ p2 = Some q2 /\ used <> 0%N /\
           (ix = true -> corr q1 q2 (size_of T * Z.of_N used)) /\
           same_but q1 q2 (size_of T * Z.of_N used)
             (fun k => exists i, (i < N.to_nat used)%nat /\ free f T (q1 + Z.of_nat i * size_of T) (k - Z.of_nat i * size_of T)) /\
           forall i, (i < N.to_nat used)%nat -> twin f T (q1 + Z.of_nat i * size_of T) (q2 + Z.of_nat i * size_of T))
    | TStr =>
        exists b, same_int a1 a2 1 b /\
        (b <> 0%N \/
         exists p1 p2 size, ptr_at s1 (a1 + 8) = Some p1 /\ ptr_at s2 (a2 + 8) = Some p2 /\ same_int (a1 + 4) (a2 + 4) 4 size /\
           match p1, p2 with
           | None, None => True
           | Some q1, Some q2 => same_bytes q1 q2 (N.to_nat size)
           | _, _ => False
           end)
    | TCStr =>
        exists r1 r2, int_at s1 (a1 + 15) 1 = Some r1 /\ int_at s2 (a2 + 15) 1 = Some r2 /\
        ((r1 < 128)%N /\ r1 = r2 \/
         (128 <= r1)%N /\ (128 <= r2)%N /\
         exists p1 p2 size, ptr_at s1 a1 = Some p1 /\ ptr_at s2 a2 = Some p2 /\ same_int (a1 + 8) (a2 + 8) 4 size /\
           (size = 0%N \/ exists q1 q2, p1 = Some q1 /\ p2 = Some q2 /\ same_bytes q1 q2 (N.to_nat size)))
    | THash n =>
        let T := tyof env n in
        exists pe1 pe2 pc1 pc2 size cap growth,
        ptr_at s1 a1 = Some pe1 /\ ptr_at s2 a2 = Some pe2 /\ ptr_at s1 (a1 + 8) = Some pc1 /\ ptr_at s2 (a2 + 8) = Some pc2 /\
        same_int (a1 + 16) (a2 + 16) 8 size /\ same_int (a1 + 24) (a2 + 24) 8 cap /\ same_int (a1 + 32) (a2 + 32) 8 growth /\
        (pe1 = None /\ pe2 = None \/
         exists q1 q2 c1 c2, pe1 = Some q1 /\ pe2 = Some q2 /\ pc1 = Some c1 /\ pc2 = Some c2 /\
           same_but q1 q2 (Z.of_N cap * size_of T + (Z.of_N cap + 9))
             (fun k => exists i b, (i < N.to_nat cap)%nat /\ int_at s1 (c1 + Z.of_nat i) 1 = Some b /\ is_full b = true /\
                                   free f T (q1 + Z.of_nat i * size_of T) (k - Z.of_nat i * size_of T)) /\
           forall i, (i < N.to_nat cap)%nat -> exists b, same_int (c1 + Z.of_nat i) (c2 + Z.of_nat i) 1 b /\
             (is_full b = true -> twin f T (q1 + Z.of_nat i * size_of T) (q2 + Z.of_nat i * size_of T)))
    end
  end.

(* the root objects and everything below them *)
Definition same_graph (f : nat) (t : ty) (a1 a2 : Z) : Prop :=
  apart_blocks /\ same_but a1 a2 (size_of t) (free f t a1) /\ twin f t a1 a2.
End Twin.
