(* vecvec.h, fws_multimap.h and nvec.h with index types of w bits: what FlatModel leaves out. Every value stored in
   an index vector is converted to its element type, and size() to index_value_type.
   The states are those of FlatModel, their index values are below 2^w. The number of elements of a vector itself
   (its size type) is not limited here, see C14. *)
From Coq Require Import ZArith.
From Verif Require Import Base FlatModel.

Section Narrow.
Variable A : Type.
Variable dflt : A.
Variable w : N.
(* conversion to index_value_type *)
Definition cut (n : nat) : nat := N.to_nat (N.of_nat n mod 2 ^ w).

(* ---- vecvec.h ---- *)
(* 374, 382, 391-392 static_cast<index_value_type>(...), 75 ++, 89 +=, 410 = data_.size() *)
Definition vv_narrow (m : vv A) : vv A := VV (vv_data m) (map cut (vv_starts m)).
Definition vv_stored (r : res (vv A)) : res (vv A) := let* m := r in Ok (vv_narrow m).
(* 354-356 size() *)
Definition nvv_size (m : vv A) : nat := cut (vv_size A m).
(* 114-116 size() of a bucket: e - b in index_value_type (int for less than 32 bits), converted to std::size_t *)
Definition nvv_sub (e b : nat) : nat :=
  let d := (Z.of_nat e - Z.of_nat b)%Z in
  Z.to_nat ((if (w <? 32)%N then d else d mod 2 ^ Z.of_N w) mod 2 ^ 64)%Z.
Definition nvv_bucket_size (m : vv A) (k : nat) : res nat :=
  let* b := vv_begin A m k in let* e := vv_end A m k in Ok (nvv_sub e b).
(* 80-91 grow *)
Definition nvv_grow (m : vv A) (k n : nat) (x : A) : res (vv A) :=
  let* s := nvv_bucket_size m k in
  let* _ := verify (s <=? n) in
  vv_stored (vv_insert_end A m k (repeat x (n - s))).
(* 103-111 at of a bucket *)
Definition nvv_bucket_at (m : vv A) (k i : nat) : res A :=
  let* s := nvv_bucket_size m k in
  let* _ := verify (i <? s) in
  let* b := vv_begin A m k in idx (vv_data m) (b + i).
(* 349, 352 back *)
Definition nvv_back (m : vv A) : res (list A) :=
  if nvv_size m =? 0 then Throw else vv_at A m (nvv_size m - 1).
(* 415-421 from begin() to end() *)
Definition nvv_all (m : vv A) : res (list (list A)) := vv_all_from A m 0 (nvv_size m).
Definition nvv_step (m : vv A) (o : vv_op A) : res (vv A * vout A) :=
  match o with
  | VEmplace xs => Ok (vv_narrow (vv_emplace_back A m xs), XNone)
  | VAddSized n => Ok (vv_narrow (vv_add_back_sized A dflt m n), XNone)
  | VResize n => Ok (vv_narrow (vv_resize A m n), XNone)
  | VPush k x => become A m (vv_stored (vv_push A m k x))
  | VGrow k n x => become A m (nvv_grow m k n x)
  | VBucketAt k i => answer A m (nvv_bucket_at m k i) XVal
  | VBucketSize k => answer A m (nvv_bucket_size m k) XNum
  | VBack => answer A m (nvv_back m) XList
  | VSize => Ok (m, XNum (nvv_size m))
  | VAll => answer A m (nvv_all m) XAll
  | _ => vv_step A dflt m o                   (* no conversion *)
  end.

(* ---- fws_multimap.h ---- *)
(* 161-173 current_key, finish_key, finish_map *)
Definition nfw_finish_key (m : fw A) : fw A :=
  FW (fw_data m) (fw_index m ++ [fw_cur m]) (cut (length (fw_data m))) (fw_complete m).
Definition nfw_finish_map (m : fw A) : fw A :=
  FW (fw_data m) (fw_index m ++ [cut (length (fw_data m))]) (fw_cur m) true.
(* 184-185 begin, end *)
Definition nfw_all (m : fw A) : res (list (list A)) :=
  if length (fw_index m) =? 0 then UB else fw_all_from A m 0 (cut (length (fw_index m) - 1)).
Definition nfw_step (m : fw A) (o : fw_op A) : res (fw A * vout A) :=
  match o with
  | FFinishKey => if fw_complete m then UB else Ok (nfw_finish_key m, XNone)
  | FFinishMap => if fw_complete m then UB else Ok (nfw_finish_map m, XNone)
  | FCurrentKey => Ok (m, XNum (cut (length (fw_index m))))
  | FAll => answer A m (nfw_all m) XAll
  | _ => fw_step A m o
  end.

(* ---- nvec.h ---- *)
(* 540-553 add<L>: static_cast<size_type>, then the element type of the index; w is the smaller width *)
Fixpoint nnv_add (L : nat) (m : nv A) (c : nest A) {struct c} : res (nv A) :=
  match L, c with
  | O, Leaf xs =>
      let* i := push_at (nv_index m) 0 (cut (length (nv_data m) + length xs)) in
      Ok (NV (nv_data m ++ xs) i)
  | S L', Node ns =>
      let* low := idx (nv_index m) L' in
      let* i := push_at (nv_index m) L (cut (length low + length ns - 1)) in
      (fix all (m : nv A) (ns : list (nest A)) : res (nv A) :=
         match ns with
         | [] => Ok m
         | n :: ns => let* m := nnv_add L' m n in all m ns
         end) (NV (nv_data m) i) ns
  | _, _ => UB
  end.
(* 470-478 emplace_back *)
Definition nnv_emplace_back (N : nat) (m : nv A) (c : nest A) : res (nv A) :=
  let* low := idx (nv_index m) 0 in
  let m := if length low =? 0 then NV (nv_data m) (map (fun i => i ++ [0]) (nv_index m)) else m in
  nnv_add (N - 1) m c.
Fixpoint nnv_build (N : nat) (m : nv A) (cs : list (nest A)) : res (nv A) :=
  match cs with [] => Ok m | c :: cs => let* m := nnv_emplace_back N m c in nnv_build N m cs end.
(* 483-485 size() *)
Definition nnv_size (N : nat) (m : nv A) : res nat := let* k := nv_size A N m in Ok (cut k).
End Narrow.
