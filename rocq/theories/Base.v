(* Shared vocabulary of all models: outcomes, machine words, list update.
   Nothing here models a particular piece of /repo. *)
From Coq Require Export List Arith NArith ZArith Lia Bool.
From Coq Require Export ZifyBool ZifyNat ZifyN.
Export ListNotations.

(* Outcome of a C++ operation.
   Ok    normal return
   Throw the C++ code throws an exception (verify, at(), ...)
   UB    the C++ code would execute undefined behaviour (out of bounds access,
         use after free, shift by >= width, ...)
   Fuel  the recursion/loop budget of the model is used up: the C++ code recurses
         or loops at least that many times. *)
Inductive res (A : Type) : Type :=
| Ok (a : A)
| Throw
| UB
| Fuel.
Arguments Ok {A} a.
Arguments Throw {A}.
Arguments UB {A}.
Arguments Fuel {A}.

Definition bind {A B} (r : res A) (f : A -> res B) : res B :=
  match r with
  | Ok a => f a
  | Throw => Throw
  | UB => UB
  | Fuel => Fuel
  end.
Notation "'let*' x ':=' r 'in' k" := (bind r (fun x => k))
  (at level 200, x name, r at level 100, k at level 200, right associativity).
Notation "'let*' ' p ':=' r 'in' k" := (bind r (fun p => k))
  (at level 200, p strict pattern, r at level 100, k at level 200, right associativity).

Definition is_ok {A} (r : res A) : bool := match r with Ok _ => true | _ => false end.

(* verify(cond, msg) of include/cista/verify.h: throws unless cond *)
Definition verify (c : bool) : res unit := if c then Ok tt else Throw.

Lemma bind_ok {A B} (r : res A) (f : A -> res B) b :
  bind r f = Ok b -> exists a, r = Ok a /\ f a = Ok b.
Proof. destruct r; cbn; intros H; try discriminate; eauto. Qed.

Lemma verify_ok c u : verify c = Ok u -> c = true.
Proof. destruct c; cbn; congruence. Qed.

(* Machine words. *)
Definition W8 : N := 256%N.
Definition W32 : N := 4294967296%N.
Definition W64 : N := 18446744073709551616%N.
Definition wrap32 (x : N) : N := (x mod W32)%N.
Definition wrap64 (x : N) : N := (x mod W64)%N.
Definition u64_max : N := 18446744073709551615%N.
Definition u32_max : N := 4294967295%N.

(* ~x on a 64-bit word *)
Definition not64 (x : N) : N := N.lxor x u64_max.
(* x << s on a 64-bit word, s < 64 *)
Definition shl64 (x s : N) : N := wrap64 (N.shiftl x s).
Definition shr64 (x s : N) : N := N.shiftr x s.
(* x - y, x + y, x * y on 64-bit words *)
Definition add64 (x y : N) : N := wrap64 (x + y).
Definition sub64 (x y : N) : N := wrap64 (x + (W64 - wrap64 y)).
Definition mul64 (x y : N) : N := wrap64 (x * y).

Definition byte_ok (b : N) : Prop := (b < 256)%N.
Definition bytes_ok (l : list N) : Prop := Forall byte_ok l.

(* List update: unchanged if the index is out of range. *)
Fixpoint upd {A} (i : nat) (x : A) (l : list A) : list A :=
  match l, i with
  | [], _ => []
  | _ :: t, O => x :: t
  | h :: t, S i' => h :: upd i' x t
  end.

Lemma upd_length {A} (l : list A) i x : length (upd i x l) = length l.
Proof. revert i; induction l as [|h t IH]; intros [|i]; cbn; auto. Qed.

Lemma nth_error_upd {A} (l : list A) i j x :
  nth_error (upd i x l) j =
  if (Nat.eqb i j && Nat.ltb j (length l))%bool then Some x else nth_error l j.
Proof.
  revert i j; induction l as [|h t IH]; intros i j.
  - replace (Nat.ltb j (length (@nil A))) with false by (symmetry; apply Nat.ltb_ge; cbn; lia).
    rewrite andb_false_r. destruct i; reflexivity.
  - destruct i as [|i], j as [|j]; cbn [upd nth_error nth length]; auto.
    all: rewrite IH; reflexivity.
Qed.

Lemma nth_error_upd_eq {A} (l : list A) i x :
  i < length l -> nth_error (upd i x l) i = Some x.
Proof.
  intros H; rewrite nth_error_upd, Nat.eqb_refl.
  apply Nat.ltb_lt in H; now rewrite H.
Qed.

Lemma nth_error_upd_neq {A} (l : list A) i j x :
  i <> j -> nth_error (upd i x l) j = nth_error l j.
Proof.
  intros H; rewrite nth_error_upd.
  destruct (Nat.eqb_spec i j); [congruence|reflexivity].
Qed.

Lemma nth_upd {A} (l : list A) i j x d :
  nth j (upd i x l) d = if (Nat.eqb i j && Nat.ltb j (length l))%bool then x else nth j l d.
Proof.
  revert i j; induction l as [|h t IH]; intros i j.
  - replace (Nat.ltb j (length (@nil A))) with false by (symmetry; apply Nat.ltb_ge; cbn; lia).
    rewrite andb_false_r. destruct i; reflexivity.
  - destruct i as [|i], j as [|j]; cbn [upd nth_error nth length]; auto.
    all: rewrite IH; reflexivity.
Qed.

Lemma nth_upd_eq {A} (l : list A) i x d : i < length l -> nth i (upd i x l) d = x.
Proof.
  intros H. rewrite nth_upd, Nat.eqb_refl. apply Nat.ltb_lt in H. now rewrite H.
Qed.

Lemma nth_upd_neq {A} (l : list A) i j x d : i <> j -> nth j (upd i x l) d = nth j l d.
Proof.
  intros H. rewrite nth_upd. destruct (Nat.eqb_spec i j); [congruence|reflexivity].
Qed.

Lemma upd_Forall {A} (P : A -> Prop) l i x : Forall P l -> P x -> Forall P (upd i x l).
Proof.
  intros Hl Hx; revert i; induction Hl as [|h t Hh Ht IH]; intros [|i]; cbn; auto.
Qed.

Lemma upd_firstn_skipn {A} (l : list A) i x :
  i < length l -> upd i x l = firstn i l ++ x :: skipn (S i) l.
Proof.
  revert i; induction l as [|h t IH]; intros [|i] H; cbn in *; try lia; auto.
  f_equal. rewrite IH by lia. reflexivity.
Qed.

(* a contiguous slice of a list *)
Definition slice {A} (i n : nat) (l : list A) : list A := firstn n (skipn i l).

Lemma list_ext {A} (l1 l2 : list A) :
  (forall i, nth_error l1 i = nth_error l2 i) -> l1 = l2.
Proof.
  revert l2; induction l1 as [|h t IH]; intros [|h2 t2] H.
  - reflexivity.
  - specialize (H 0); discriminate.
  - specialize (H 0); discriminate.
  - f_equal.
    + specialize (H 0); cbn in H; congruence.
    + apply IH; intros i; apply (H (S i)).
Qed.
