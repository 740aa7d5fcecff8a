(* C37: the type hash separates different layouts. *)
From Coq Require Import String.
From Verif Require Import Base TypeModel TypeSpec TypeProofs.
Local Open Scope string_scope.

(* C37. Two types, recursive ones included, that nest alike (corresponding structs, variants, tuples have equally many members), and in
   which no two different types share a name and a size: if the sequences of values that are fed into the two type hashes are the same, then
   the layouts are the same at every depth, in every integer width, scalar type, array size, kind of container. So with different layouts,
   equal type hashes need a collision of the 64-bit hash. What is missing: types that nest differently (refuted below), signedness, size types,
   pointer kinds (refuted below). *)
Theorem C37_type_hash_separates_partial :
  forall e t e' u f g a d1 b e1, names_ok e t -> names_ok e' u -> (forall n, alike n e t e' u) ->
  walk opening closing e f t [] = Ok (a, d1) -> walk opening closing e' g u [] = Ok (b, e1) -> a = b ->
  forall n, shape false n e t = shape false n e' u.
Proof. exact hash_separates. Qed.
Print Assumptions C37_type_hash_separates_partial.

(* C37. Structs without nested structs, variants, tuples and pairs need no assumption on the number of their members. *)
Theorem C37_flat_structs_separate_partial :
  forall e i e' j f g a d1 b e1, names_ok e (CStruct i) -> names_ok e' (CStruct j) -> flat e i -> flat e' j ->
  walk opening closing e f (CStruct i) [] = Ok (a, d1) -> walk opening closing e' g (CStruct j) [] = Ok (b, e1) -> a = b ->
  forall n, shape false n e (CStruct i) = shape false n e' (CStruct j).
Proof. exact flat_separates. Qed.
Print Assumptions C37_flat_structs_separate_partial.

(* C37. Computing the type hash ends, for recursive types too. *)
Theorem C37_type_hash_terminates :
  forall e t, exists f, forall g, f <= g ->
  exists h h', type_hash f e t = Ok h /\ type_hash g e t = Ok h /\ static_type_hash g e t = Ok h'.
Proof. exact hash_total. Qed.
Print Assumptions C37_type_hash_terminates.

(* ---- where the property fails: the hashes are the same numbers, the layouts differ ---- *)
Definition i8 := CInt "signed char" 1 1.
Definition i32 := CInt "int" 1 4.
Definition u32 := CInt "unsigned int" 0 4.
Definition f32 := CScalar "float" 4.
Definition collide (e : env) (t : cty) (e' : env) (u : cty) : Prop :=
  (exists h, type_hash 20 e t = Ok h /\ type_hash 20 e' u = Ok h) /\ exists n, shape true n e t <> shape true n e' u.
Definition static_collide (e : env) (t : cty) (e' : env) (u : cty) : Prop :=
  (exists h, static_type_hash 20 e t = Ok h /\ static_type_hash 20 e' u = Ok h) /\ exists n, shape true n e t <> shape true n e' u.
Ltac coll := split; [eexists; split; vm_compute; reflexivity|exists 4; vm_compute; discriminate].
(* moving a member from a struct into the struct in front of it: struct a { struct b { int x; int8_t y; } p; int8_t z; } and
   struct a { struct b { int x; int8_t y; int8_t z; } p; }: z is at offset 8 and 5 *)
Theorem C37_member_moved_refuted :
  collide [Sdef "a" 12 [CStruct 1; i8]; Sdef "b" 8 [i32; i8]] (CStruct 0) [Sdef "a" 8 [CStruct 1]; Sdef "b" 8 [i32; i8; i8]] (CStruct 0).
Proof. coll. Qed.
Print Assumptions C37_member_moved_refuted.
(* struct { variant<int, float> v; int8_t c; } and struct { variant<int, float, int8_t> v; } *)
Theorem C37_variant_refuted :
  collide [Sdef "a" 12 [CVar [i32; f32]; i8]] (CStruct 0) [Sdef "a" 8 [CVar [i32; f32; i8]]] (CStruct 0).
Proof. coll. Qed.
Print Assumptions C37_variant_refuted.
(* hash_map<int, float> and pair<hash_set<int>, float>; vector<pair<int, float>> and pair<vector<int>, float> *)
Theorem C37_pair_refuted :
  collide [] (CUn KHash 0 (CPair i32 f32)) [] (CPair (CUn KHash 0 i32) f32) /\
  collide [] (CUn KVector 0 (CPair i32 f32)) [] (CPair (CUn KVector 0 i32) f32).
Proof. split; coll. Qed.
Print Assumptions C37_pair_refuted.
(* what never enters the hash: signedness, 32-bit or 64-bit sizes in vectors, raw or offset pointers *)
Theorem C37_representation_refuted :
  collide [] i32 [] u32 /\ collide [] (CUn KVector 32 i32) [] (CUn KVector 64 i32).
Proof. split; coll. Qed.
Print Assumptions C37_representation_refuted.
(* names: "struct" and "const" are removed everywhere, so the types my and mystruct of the same size are taken for one, and
   the members of the second do not count *)
Theorem C37_name_refuted :
  collide [Sdef "a" 8 [CStruct 1; CStruct 2]; Sdef "my" 4 [f32]; Sdef "mystruct" 4 [f32]] (CStruct 0)
          [Sdef "a" 8 [CStruct 1; CStruct 2]; Sdef "my" 4 [f32]; Sdef "mystruct" 4 [i32]] (CStruct 0).
Proof. coll. Qed.
Print Assumptions C37_name_refuted.
(* the static type hash: vector<array<int, 2>> and array<vector<int>, 2> *)
Theorem C37_static_array_refuted :
  static_collide [] (CUn KVector 0 (CArr 2 i32)) [] (CArr 2 (CUn KVector 0 i32)).
Proof. coll. Qed.
Print Assumptions C37_static_array_refuted.

(* ---- the hypotheses are met: a recursive struct with a nested struct, one leaf changed ---- *)
Definition ex_env (x : cty) : env :=
  [Sdef "node" 48 [CPtr "node *" 0 (CStruct 0); CUn KVector 0 (CStruct 1); CVar [i8; CPair i32 i8]; i8]; Sdef "point" 8 [i32; x]].
Lemma ex_occ x v : fixed x = true -> kids (ex_env x) x = [] -> occurs (ex_env x) (CStruct 0) v ->
  In v [CStruct 0; CPtr "node *" 0 (CStruct 0); CUn KVector 0 (CStruct 1); CVar [i8; CPair i32 i8]; i8; CStruct 1; CPair i32 i8; i32; x].
Proof.
  intros F K H. induction H as [|u v H IH I]; [cbn; auto|]. cbn [In] in IH. decompose [or] IH; subst; try contradiction; try (rewrite K in I; contradiction);
    cbn [kids ex_env sget nth s_fields In i8 i32] in I; decompose [or] I; subst; try contradiction; cbn [In]; tauto.
Qed.
Lemma ex_names x : x = u32 \/ x = f32 -> names_ok (ex_env x) (CStruct 0).
Proof.
  intros X u v k Hu Hv Ku Kv. apply ex_occ in Hu; [|destruct X; subst; auto|destruct X; subst; auto]. apply ex_occ in Hv; [|destruct X; subst; auto|destruct X; subst; auto].
  cbn [In] in Hu, Hv. destruct X; subst x; decompose [or] Hu; subst; try contradiction; try discriminate Ku; decompose [or] Hv; subst; try contradiction; try discriminate Kv; try reflexivity;
    exfalso; revert Ku Kv; vm_compute; congruence.
Qed.
Example ex_alike : forall n, alike n (ex_env u32) (CStruct 0) (ex_env f32) (CStruct 0).
Proof.
  assert (R : forall n, alike n (ex_env u32) (CStruct 1) (ex_env f32) (CStruct 1)).
  { intros [|n]; cbn [alike]; auto. right. split; [auto|]. split; [auto|]. constructor; [destruct n; cbn; auto|]. constructor; [destruct n; cbn; auto|constructor]. }
  assert (V : forall n, alike n (ex_env u32) (CVar [i8; CPair i32 i8]) (ex_env f32) (CVar [i8; CPair i32 i8])).
  { intros [|n]; cbn [alike]; auto. right. split; [auto|]. split; [auto|]. constructor; [destruct n; cbn; auto|]. constructor; [|constructor].
    destruct n as [|n]; cbn [alike]; auto. right. split; [auto|]. split; [auto|]. constructor; [destruct n; cbn; auto|]. constructor; [destruct n; cbn; auto|constructor]. }
  induction n as [n IH] using lt_wf_ind. destruct n as [|n]; cbn [alike]; auto. right. split; [auto|]. split; [auto|]. constructor; [|constructor; [|constructor; [|constructor; [|constructor]]]].
  - destruct n as [|n]; cbn [alike]; auto. right. split; [auto|]. split; [auto|]. constructor; [apply IH; lia|constructor].
  - destruct n as [|n]; cbn [alike]; auto. right. split; [auto|]. split; [auto|]. constructor; [apply R|constructor].
  - apply V.
  - destruct n; cbn; auto.
Qed.
Example ex_differ : type_hash 20 (ex_env u32) (CStruct 0) <> type_hash 20 (ex_env f32) (CStruct 0) /\ exists h, type_hash 20 (ex_env u32) (CStruct 0) = Ok h.
Proof. split; [vm_compute; discriminate|eexists; vm_compute; reflexivity]. Qed.
Example ex_flat : flat [Sdef "a" 24 [i32; CUn KVector 0 (CPtr "int*" 0 i32); CStr 0; CStrong "tag" f32]] 0.
Proof. repeat constructor. Qed.
