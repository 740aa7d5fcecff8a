(* Finite maps: what C11-C13 compare hash_map with. A map is a list of entries with pairwise
   different keys; its order carries no meaning. *)
From Coq Require Export Permutation.
From Verif Require Import Base HashModel.

Section Spec.
Variable K V : Type.
Variable keq : K -> K -> bool.
Variable dv : V.

Definition fmap := list (K * V).
Definition lookup (m : fmap) (k : K) : option (K * V) := find (fun e => keq (fst e) k) m.
Definition insert_new (m : fmap) (k : K) (v : V) : fmap := (k, v) :: m.
Definition set_value (m : fmap) (k : K) (v : V) : fmap :=
  map (fun e => if keq (fst e) k then (fst e, v) else e) m.
Definition remove (m : fmap) (k : K) : fmap := filter (fun e => negb (keq (fst e) k)) m.

Definition spec_step (m : fmap) (o : op K V) : fmap * out K V :=
  match o with
  | Emplace _ _ k v => match lookup m k with
                   | Some e => (m, OIns _ _ false (snd e))
                   | None => (insert_new m k v, OIns _ _ true v)
                   end
  | Assign _ _ k v => (match lookup m k with
                   | Some _ => set_value m k v
                   | None => insert_new m k v
                   end, ONone _ _)
  | Bracket _ _ k => match lookup m k with
                 | Some e => (m, OVal _ _ (snd e))
                 | None => (insert_new m k dv, OVal _ _ dv)
                 end
  | Find _ _ k => (m, OEntry _ _ (lookup m k))
  | At _ _ k => (m, match lookup m k with Some e => OVal _ _ (snd e) | None => OOutOfRange _ _ end)
  | Get _ _ k => (m, OOpt _ _ (option_map snd (lookup m k)))
  | Erase _ _ k => match lookup m k with
               | Some _ => (remove m k, ONum _ _ 1)
               | None => (m, ONum _ _ 0)
               end
  | Clear _ _ => ([], ONone _ _)
  | Rehash _ _ => (m, ONone _ _)
  | Size _ _ => (m, ONum _ _ (N.of_nat (length m)))
  | Iterate _ _ => (m, OList _ _ m)
  | Copy _ _ => (m, ONone _ _)
  end.
Fixpoint spec_run (m : fmap) (ops : list (op K V)) : fmap * list (out K V) :=
  match ops with
  | [] => (m, [])
  | o :: ops => let (m, x) := spec_step m o in let (m, xs) := spec_run m ops in (m, x :: xs)
  end.

(* iteration order is unspecified *)
Definition same_out (a b : out K V) : Prop :=
  match a, b with
  | OList _ _ l, OList _ _ l' => Permutation l l'
  | _, _ => a = b
  end.

(* what a user must supply: an equivalence and a compatible hash *)
Definition key_laws (hash : K -> N) : Prop :=
  (forall a, keq a a = true) /\
  (forall a b, keq a b = true -> keq b a = true) /\
  (forall a b c, keq a b = true -> keq b c = true -> keq a c = true) /\
  (forall a b, keq a b = true -> hash a = hash b).

(* number of operations of a history that may add an entry *)
Definition ins_of (o : op K V) : nat :=
  match o with Emplace _ _ _ _ | Assign _ _ _ _ | Bracket _ _ _ => 1 | _ => 0 end.
Definition inserts (ops : list (op K V)) : nat := list_sum (map ins_of ops).

(* equal maps: same keys, and values equal under veq *)
Definition map_equal (veq : V -> V -> bool) (a b : fmap) : Prop :=
  length a = length b /\
  forall k e, lookup a k = Some e -> exists e', lookup b k = Some e' /\ veq (snd e) (snd e') = true.
End Spec.

(* allocations of at most max_cap entries succeed, larger ones throw; no size computation wraps *)
Definition cap_bounded (max_cap : nat) : Prop := (N.of_nat max_cap < 2 ^ 60)%N.
