(* C36: equal keys hash equally. *)
From Coq Require Import ZArith Lia.
From Verif Require Import Base FnvModel KeyModel KeySpec KeyProofs.
From Verif Require HashModel HashSpec HashProps BitModel.

(* C36. For any two keys of the same type (integers, floating point numbers, pointers, strings in every representation, containers,
   structs, pairs, tuples, variants, strong types, optionals, bitsets, nested to any depth): the default equality, and operator==, hold exactly
   when the keys mean the same, and then the default hash is defined and the same for both, from any seed. *)
Theorem C36_equal_keys_hash_equally :
  forall std_hash, std_hash_ok std_hash -> forall t a b, has_ty a t -> has_ty b t ->
  (eqt a b = true <-> den a = den b) /\ (eqop a b = true <-> den a = den b) /\
  (eqt a b = true -> forall seed, exists h, hashv std_hash a seed = Ok h /\ hashv std_hash b seed = Ok h).
Proof. exact equal_hash. Qed.
Print Assumptions C36_equal_keys_hash_equally.

(* C36. The same when the key looked up has another type than the stored keys: a char pointer, a string literal, an integer of another width. *)
Theorem C36_lookup_by_other_type :
  forall std_hash, std_hash_ok std_hash -> forall t a k, has_ty a t -> looks k t ->
  (eqt a k = true <-> den a = den k) /\ (eqt a k = true -> forall seed, hashv std_hash a seed = hashv std_hash k seed).
Proof. exact looks_good. Qed.
Print Assumptions C36_lookup_by_other_type.

(* C36. So a hash_map with the default hash and equality behaves as a finite map (C11) for every key type: it never misses a present key. *)
Theorem C36_default_map_is_finite_map :
  forall std_hash t V dv max_cap, std_hash_ok std_hash -> HashSpec.cap_bounded max_cap ->
  forall ops, 3 * HashSpec.inserts (key t) V ops + 2 <= max_cap ->
  exists tb xs, HashModel.run (key t) V (fun k => hash_of std_hash (proj1_sig k)) (fun a b => eqt (proj1_sig a) (proj1_sig b)) dv max_cap
      (HashModel.empty_tbl (key t) V) ops = Ok (tb, xs) /\
    Forall2 (HashSpec.same_out (key t) V) xs (snd (HashSpec.spec_run (key t) V (fun a b => eqt (proj1_sig a) (proj1_sig b)) dv [] ops)).
Proof. exact map_default. Qed.
Print Assumptions C36_default_map_is_finite_map.

(* ---- where the property fails ---- *)
Definition h0 : val -> N := fun _ => 0%N.
Definition abc : list N := [97; 98; 99]%N.
(* a char array longer than its string: it compares equal to the stored string, but hashes differently, so the key is missed *)
Theorem C36_char_array_refuted :
  exists a k, has_ty a TStr /\ eqt a k = true /\ den a = den k /\ hashv h0 a BASE_HASH <> hashv h0 k BASE_HASH.
Proof. exists (VStr abc), (VArr (abc ++ [0;0;0;0;0]%N)). split; [constructor|]. split; [vm_compute; reflexivity|]. split; [vm_compute; reflexivity|]. vm_compute. discriminate. Qed.
Print Assumptions C36_char_array_refuted.
(* looking up int{-1} among uint32_t keys: == holds for 4294967295, the hashes differ *)
Theorem C36_mixed_signs_refuted :
  exists a k, has_ty a (TInt false 4) /\ has_ty k (TInt true 4) /\ eqt a k = true /\ hashv h0 a BASE_HASH <> hashv h0 k BASE_HASH.
Proof.
  exists (VInt false 4 4294967295), (VInt true 4 (-1)). split; [constructor; [lia|vm_compute; intuition congruence]|]. split; [constructor; [lia|vm_compute; intuition congruence]|].
  split; [vm_compute; reflexivity|]. vm_compute. discriminate.
Qed.
Print Assumptions C36_mixed_signs_refuted.
(* floating point keys: hashing -1.0 or 2^64 is undefined behaviour; not-a-number is not found again *)
Theorem C36_float_refuted :
  hashv h0 (VNum true 1 0) BASE_HASH = UB /\ hashv h0 (VNum false 1 64) BASE_HASH = UB /\ hashv h0 VNan BASE_HASH = UB /\ eqt VNan VNan = false.
Proof. split; [vm_compute; reflexivity|]. split; [vm_compute; reflexivity|]. split; [vm_compute; reflexivity|]. vm_compute. reflexivity. Qed.
Print Assumptions C36_float_refuted.
(* bitsets with unused bits set, as operator~ and max() make them: ~bitset<1>{} == bitset<1>{"1"}, but as keys they are two different
   ones, and as members of a cista::pair they are equal keys with different hashes *)
Theorem C36_bitset_refuted :
  let a := VBits 1 (BitModel.flip [0%N]) in let b := VBits 1 [1%N] in
  eqop a b = true /\ eqt a b = false /\
  eqt (VPair a (VInt true 4 0)) (VPair b (VInt true 4 0)) = true /\
  hashv h0 (VPair a (VInt true 4 0)) BASE_HASH <> hashv h0 (VPair b (VInt true 4 0)) BASE_HASH.
Proof. split; [vm_compute; reflexivity|]. split; [vm_compute; reflexivity|]. split; [vm_compute; reflexivity|]. vm_compute. discriminate. Qed.
Print Assumptions C36_bitset_refuted.

(* ---- the hypotheses are met ---- *)
(* struct { vector<pair<string, int16_t>>; variant<double, optional<strong<uint32_t>>>; bitset<3> } *)
Definition ex_t : ty := TStruct [TSeq (TPair TStr (TInt true 2)); TVar false [TNum; TOpt false (TStrong (TInt false 4))]; TBits 3].
Definition ex_k (m : N) (e : Z) : val := VStruct [VSeq [VPair (VStr abc) (VInt true 2 (-7)); VPair (VStr []) (VInt true 2 3)]; VVar false 0 (VNum false m e); VBits 3 [5%N]].
Lemma ex_ty m e : num_range false m e -> has_ty (ex_k m e) ex_t.
Proof.
  intros H. unfold ex_k, ex_t. constructor. constructor.
  - constructor. constructor; [constructor; [constructor|constructor; [lia|vm_compute; intuition congruence]]|]. constructor; [constructor; [constructor|constructor; [lia|vm_compute; intuition congruence]]|constructor].
  - constructor; [econstructor; [reflexivity|constructor; exact H]|]. constructor; [constructor; reflexivity|constructor].
Qed.
(* 5 * 2^-1 and 10 * 2^-2: the same number in two representations *)
Example ex_equal : has_ty (ex_k 5 (-1)) ex_t /\ has_ty (ex_k 10 (-2)) ex_t /\ eqt (ex_k 5 (-1)) (ex_k 10 (-2)) = true /\ eqt (ex_k 5 (-1)) (ex_k 5 (-2)) = false.
Proof. split; [apply ex_ty; vm_compute; reflexivity|]. split; [apply ex_ty; vm_compute; reflexivity|]. split; vm_compute; reflexivity. Qed.
Example ex_hash_defined : exists h, hashv h0 (ex_k 5 (-1)) BASE_HASH = Ok h /\ hashv h0 (ex_k 10 (-2)) BASE_HASH = Ok h.
Proof. eexists. split; vm_compute; reflexivity. Qed.
Example ex_std : std_hash_ok h0 /\ std_hash_ok (fun v => match v with VInt _ _ z => u64 z | VStr s => hash s 1%N | _ => 0%N end).
Proof. split; [intros t a b _ _ _; reflexivity|]. intros t a b Ha Hb E. inversion Ha; subst; inversion Hb; subst; cbn [den] in E; congruence. Qed.
Example ex_looks : looks (VArr (abc ++ [0%N])) TStr /\ looks (VCstr (abc ++ [0; 7]%N)) TStr /\ eqt (VStr abc) (VCstr (abc ++ [0; 7]%N)) = true /\ looks (VInt true 8 (-7)) (TInt true 2).
Proof.
  split; [apply LArr; cbn; intuition congruence|]. split; [apply LCstr; cbn; tauto|]. split; [vm_compute; reflexivity|]. apply LInt; [lia|lia|vm_compute; intuition congruence].
Qed.
