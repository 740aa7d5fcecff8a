(* What a deep check must achieve: everything that can be reached through pointers is well formed. *)
From Verif Require Import Base Bytes HeaderModel HashModel SerialModel SerialSpec ConvModel ConvSpec.
Local Open Scope Z_scope.

Section Reach.
Variable env : list ty.
Notation tyof := (tyof env).
Variable R : env_of_reader.

(* [holds t a n s]: the object of type t at address a contains or owns, at address s, a pointer to
   an object of type n of env. *)
Inductive holds : ty -> Z -> nat -> Z -> Prop :=
| h_ptr n a : holds (TPtr n) a n a
| h_agg fs sz al a o t n s : In (o, t) fs -> holds t (a + o) n s -> holds (TAgg fs sz al) a n s
| h_opt t off sz al a b n s : rint R a 1 = Some b -> b <> 0%N -> holds t (a + off) n s -> holds (TOpt t off sz al) a n s
| h_var ts off sz al a i t n s : rint R a 1 = Some i -> nth_error ts (N.to_nat i) = Some t -> holds t (a + off) n s ->
    holds (TVar ts off sz al) a n s
| h_uniq k a q n s : rptr R (r_rel R) a = Some (Some q) -> holds (tyof k) q n s -> holds (TUniq k) a n s
| h_vec w ix k a q used i n s : rptr R (r_rel R) a = Some (Some q) -> rint R (a + 8) w = Some used ->
    (i < N.to_nat used)%nat -> holds (tyof k) (q + Z.of_nat i * size_of (tyof k)) n s -> holds (TVec w ix k) a n s
| h_hash k a e c cap ctrl i n s : rptr R (r_rel R) a = Some (Some e) -> rptr R (r_rel R) (a + 8) = Some (Some c) ->
    rint R (a + 24) 8 = Some cap -> rdn (r_mem R) c (N.to_nat cap + 9) = Some ctrl ->
    (i < N.to_nat cap)%nat -> is_full (nth i ctrl EMPTY) = true ->
    holds (tyof k) (e + Z.of_nat i * size_of (tyof k)) n s -> holds (THash k) a n s.

(* Objects reached from the object of type t at a by following pointers. *)
Inductive reach (t : ty) (a : Z) : ty -> Z -> Prop :=
| r_here : reach t a t a
| r_step t' a' n s q : reach t a t' a' -> holds t' a' n s -> r_ptr R s = Some (Some q) -> reach t a (tyof n) q.
End Reach.

(* Different pointer types have different type hashes (C37 is about when they do). *)
Definition distinct_keys (env : list ty) (keys : list N) : Prop :=
  forall n n', nth n keys 0%N = nth n' keys 0%N -> tyof env n = tyof env n'.

(* Everything reachable from the object of type t at a is a well formed object inside the n bytes at B,
   as the host sees the memory m (host_image in ConvSpec.v). *)
Definition all_valid (env : list ty) (hb raw : bool) (B n : Z) (m : mem) (tab : N -> N -> N -> list N -> bool) (t : ty) (a : Z) : Prop :=
  forall t' a', reach env (plain hb m (negb raw) (Some (B, B + n)) tab) t a t' a' ->
  exists f v tr, host_image env hb raw B n m tab f t' a' v tr /\ Forall (in_buffer B (B + n)) tr.

(* enough recursion depth for the second pass over n bytes: owning members of a type nest at most K
   deep, and every pointer is followed once under each of the type hashes *)
Definition deep_fuel (K : nat) (keys : list N) (n : nat) : nat := (K + K * (S (length keys) * n))%nat.

(* ---- what serialize needs for a deep check to succeed: pointers point to objects of their type ---- *)
Section Parts.
Variable env : list ty.
Notation tyof := (tyof env).
Variable R : env_of_reader.

(* [part t a t' a']: the object of type t at a is, or has as member, an object of type t' at a'. *)
Inductive part : ty -> Z -> ty -> Z -> Prop :=
| p_here t a : part t a t a
| p_agg fs sz al a o t t' a' : In (o, t) fs -> part t (a + o) t' a' -> part (TAgg fs sz al) a t' a'
| p_opt t off sz al a b t' a' : rint R a 1 = Some b -> b <> 0%N -> part t (a + off) t' a' -> part (TOpt t off sz al) a t' a'
| p_var ts off sz al a i t t' a' : rint R a 1 = Some i -> nth_error ts (N.to_nat i) = Some t -> part t (a + off) t' a' ->
    part (TVar ts off sz al) a t' a'.

(* [owns t a ix k q c]: the object of type t at a owns, directly or not, a block of c objects of type k
   of env at q: the target of a unique_ptr (ix = false) or the elements of an indexed vector. *)
Inductive owns : ty -> Z -> bool -> nat -> Z -> nat -> Prop :=
| o_agg fs sz al a o t ix k q c : In (o, t) fs -> owns t (a + o) ix k q c -> owns (TAgg fs sz al) a ix k q c
| o_opt t off sz al a b ix k q c : rint R a 1 = Some b -> b <> 0%N -> owns t (a + off) ix k q c -> owns (TOpt t off sz al) a ix k q c
| o_var ts off sz al a i t ix k q c : rint R a 1 = Some i -> nth_error ts (N.to_nat i) = Some t -> owns t (a + off) ix k q c ->
    owns (TVar ts off sz al) a ix k q c
| o_uniq k a q : rptr R (r_rel R) a = Some (Some q) -> owns (TUniq k) a false k q 1
| o_uniq_in k0 a q0 ix k q c : rptr R (r_rel R) a = Some (Some q0) -> owns (tyof k0) q0 ix k q c -> owns (TUniq k0) a ix k q c
| o_vec w k a q used : rptr R (r_rel R) a = Some (Some q) -> rint R (a + 8) w = Some used -> used <> 0%N ->
    owns (TVec w true k) a true k q (N.to_nat used)
| o_vec_in w ix0 k0 a q0 used i ix k q c : rptr R (r_rel R) a = Some (Some q0) -> rint R (a + 8) w = Some used ->
    (i < N.to_nat used)%nat -> owns (tyof k0) (q0 + Z.of_nat i * size_of (tyof k0)) ix k q c -> owns (TVec w ix0 k0) a ix k q c
| o_hash_in k0 a e c0 cap ctrl i ix k q c : rptr R (r_rel R) a = Some (Some e) -> rptr R (r_rel R) (a + 8) = Some (Some c0) ->
    rint R (a + 24) 8 = Some cap -> rdn (r_mem R) c0 (N.to_nat cap + 9) = Some ctrl ->
    (i < N.to_nat cap)%nat -> is_full (nth i ctrl EMPTY) = true ->
    owns (tyof k0) (e + Z.of_nat i * size_of (tyof k0)) ix k q c -> owns (THash k0) a ix k q c.

(* A pointer into an owned block points to an object of its type in there. *)
Definition typed_pointers (t : ty) (a : Z) : Prop :=
  forall n s p ix k q c, holds env R t a n s -> r_ptr R s = Some (Some p) -> owns t a ix k q c ->
    (if ix then q <= p < q + size_of (tyof k) * Z.of_nat c else p = q) ->
    exists i, (i < c)%nat /\ part (tyof k) (q + Z.of_nat i * size_of (tyof k)) (tyof n) p.
End Parts.
