(* C47: the comparison operators of nested values are those of one total order *)
From Verif Require Import Base OrdModel OrdSpec OrdProofs.

(* C47: for any two values of one type (without NaN and without valueless variants) the six
   operators answer: equal, different, smaller, ... in the lexicographic order [less]. *)
Theorem C47_operators_partial : forall t a b, has_type t a -> has_type t b ->
  answers (rel t Oeq a b) (a = b) /\ answers (rel t One a b) (a <> b) /\
  answers (rel t Olt a b) (less a b) /\ answers (rel t Ole a b) (less a b \/ a = b) /\
  answers (rel t Ogt a b) (less b a) /\ answers (rel t Oge a b) (less b a \/ a = b).
Proof. exact operators. Qed.
Print Assumptions C47_operators_partial.

(* C47: that order is a strict total order on the values of each type. *)
Theorem C47_total_order : 
  (forall a, ~ less a a) /\ (forall a b c, less a b -> less b c -> less a c) /\
  (forall t a b, has_type t a -> has_type t b -> less a b \/ a = b \/ less b a).
Proof.
  split; [intros a H; exact (less_irr _ _ H eq_refl)|].
  split; [intros a b c H K; exact (less_trans _ _ H _ K)|exact total].
Qed.
Print Assumptions C47_total_order.

(* C47: this much holds for all values, with NaN and valueless variants too: != is the opposite of ==, a > b is b < a, a >= b is b <= a,
   and a smaller value is neither larger nor equal. *)
Theorem C47_any_values : forall t a b,
  rel t One a b = neg (rel t Oeq a b) /\ rel t Ogt a b = rel t Olt b a /\ rel t Oge a b = rel t Ole b a /\
  (rel t Olt a b = Ok true -> rel t Olt b a = Ok false /\ rel t Oeq a b <> Ok true).
Proof. exact all_coherent. Qed.
Print Assumptions C47_any_values.
Example C47_any_values_example :
  let t := TRec [TFloat; TVar [TInt; TFloat]; TInt] in
  let v n := VList [VFloat None; VVar 1 (VFloat None); VInt n] in
  rel t Olt (v 1%Z) (v 2%Z) = Ok true /\ rel t Oeq (v 1%Z) (v 1%Z) = Ok false /\ rel t One (v 1%Z) (v 1%Z) = Ok true.
Proof. vm_compute. auto. Qed.

(* Finding: with a NaN inside, <= of a vector, tuple or struct says true where neither < nor == does;
   the variant of the same number says false. *)
Theorem C47_nan_refuted :
  (exists t a, rel t Ole a a = Ok true /\ rel t Olt a a = Ok false /\ rel t Oeq a a = Ok false) /\
  exists x, rel (TVec TFloat) Ole (VList [x]) (VList [x]) <> rel (TVar [TFloat]) Ole (VVar 0 x) (VVar 0 x).
Proof.
  split; [exists (TVec TFloat), (VList [VFloat None]); auto|].
  exists (VFloat None). vm_compute. discriminate.
Qed.
Print Assumptions C47_nan_refuted.

(* Finding: and < of structs is no longer a strict weak ordering (std::sort, std::map need one):
   (1) and (NaN) are unordered, (NaN) and (2) are unordered, but (1) < (2). *)
Theorem C47_nan_order_refuted : exists t a b c,
  rel t Olt a b = Ok false /\ rel t Olt b a = Ok false /\ rel t Olt b c = Ok false /\ rel t Olt c b = Ok false /\
  rel t Olt a c = Ok true.
Proof.
  exists (TRec [TFloat]), (VList [VFloat (Some 1%Z)]), (VList [VFloat None]), (VList [VFloat (Some 2%Z)]). vm_compute. auto.
Qed.
Print Assumptions C47_nan_order_refuted.

(* Finding: comparing two valueless variants (default constructed ones are valueless) runs into unreachable code; comparing one with a value works. *)
Theorem C47_valueless_refuted : 
  (forall ts o, rel (TVar ts) o VNone VNone = UB) /\
  (forall ts i v, i < length ts -> rel (TVar ts) Olt (VVar i v) VNone = Ok true).
Proof.
  split; [reflexivity|]. intros ts i v H. cbn [rel irel]. f_equal. apply Z.ltb_lt. lia.
Qed.
Print Assumptions C47_valueless_refuted.

Definition demo_t : ty := TRec [TStr; TVec (TVar [TInt; TStr]); TTup [TInt; TFloat]].
Definition demo (s : list N) (n : Z) (vs : list val) : val :=
  VList [VStr s; VList vs; VList [VInt n; VFloat (Some 3%Z)]].

Example C47_example :
  has_type demo_t (demo [104; 105]%N 1 [VVar 0 (VInt 7); VVar 1 (VStr [255]%N)]) /\
  rel demo_t Olt (demo [104; 105]%N 1 [VVar 0 (VInt 7)]) (demo [104; 105]%N 0 [VVar 0 (VInt 7); VVar 1 (VStr [])]) = Ok true /\
  rel demo_t Ogt (demo [104; 200]%N 1 []) (demo [104; 105]%N 1 [VVar 0 (VInt 7)]) = Ok true /\
  rel demo_t Oge (demo [104]%N 1 [VVar 1 (VStr [1]%N)]) (demo [104]%N 1 [VVar 0 (VInt 7)]) = Ok true /\
  rel demo_t One (demo [104]%N 1 []) (demo [104]%N 1 []) = Ok false.
Proof.
  split; [|vm_compute; auto].
  apply ht_rec. apply Forall2_cons; [apply ht_str|]. apply Forall2_cons.
  - apply ht_vec. apply Forall_cons; [eapply ht_var; [reflexivity|apply ht_int]|].
    apply Forall_cons; [|apply Forall_nil]. eapply ht_var; [reflexivity|apply ht_str].
  - apply Forall2_cons; [|apply Forall2_nil]. apply ht_tup.
    apply Forall2_cons; [apply ht_int|]. apply Forall2_cons; [apply ht_float|apply Forall2_nil].
Qed.
