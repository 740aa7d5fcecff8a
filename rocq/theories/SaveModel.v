(* How the nested containers lie in memory, so that they can be saved and loaded: their members as serialization.h
   sees them (reflection of aggregates, reflection/for_each_field.h; cista_members() where it exists), in the layout
   of a 64 bit platform with 32 bit sizes. The vectors are offset::vector or raw vector. Element types are any type of the
   type universe (SerialModel), by their number in the list of types. *)
From Coq Require Import ZArith.
From Verif Require Import Base FlatModel MmModel PagedModel SerialModel SerialSpec.
From Verif Require BitModel HashModel.
Local Open Scope Z_scope.

Definition vec (n : nat) : ty := TVec 4 false n.       (* 24 bytes: pointer, used and allocated size, flag *)
(* array<T, n>, one element each sz bytes: serialization.h:401-409 *)
Definition arr (t : ty) (n : nat) : ty :=
  TAgg (map (fun i => (Z.of_nat i * size_of t, t)) (seq 0 n)) (Z.of_nat n * size_of t) (align_of t).
Definition up8 (z : Z) : Z := (z + 7) / 8 * 8.

(* vecvec.h:432-433 data_, bucket_starts_ *)
Definition vv_ty (e i : nat) : ty := TAgg [(0, vec e); (24, vec i)] 48 8.
(* fws_multimap.h:197-200 data_, index_, current_start_, complete_ *)
Definition fw_ty (e i : nat) : ty := TAgg [(0, vec e); (24, vec i); (48, TInt 4); (52, TInt 1)] 56 8.
(* mutable_fws_multimap.h:32-36 index_type: begin_, size_, capacity_ *)
Definition ix_ty : ty := TAgg [(0, TInt 4); (4, TInt 4); (8, TInt 4)] 12 4.
(* 622-625 index_, data_, free_buckets_, element_count_; serialization.h:242-256 *)
Definition mm_ty (lmax e x : nat) : ty :=
  let n := Z.of_nat (lmax + 1) in
  TAgg [(0, vec x); (24, vec e); (48, arr (vec x) (lmax + 1)); (48 + 24 * n, TInt 4)] (48 + 24 * n + 8) 8.
(* paged.h:15-22 page: size_, capacity_, start_; 149 node: next_ *)
Definition page_ty : ty := TAgg [(0, TInt 2); (2, TInt 2); (4, TInt 4)] 8 4.
Definition node_ty : ty := TAgg [(0, TInt 4)] 4 4.
(* paged.h:152-153 data_, free_list_; paged_vecvec.h:356-357 paged_, idx_ *)
Definition pg_size (lmin : nat) : Z := up8 (24 + 4 * Z.of_nat (free_list_size lmin)).
Definition pg_ty (lmin e : nat) : ty :=
  TAgg [(0, vec e); (24, arr node_ty (free_list_size lmin))] (pg_size lmin) 8.
Definition pv_ty (lmin e p : nat) : ty := TAgg [(0, pg_ty lmin e); (pg_size lmin, vec p)] (pg_size lmin + 24) 8.
(* nvec.h:514 cista_members, 570-571 index_, data_ *)
Definition nv_ty (n e i : nat) : ty := TAgg [(0, arr (vec i) n); (24 * Z.of_nat n, vec e)] (24 * Z.of_nat n + 24) 8.
(* flat_matrix.h:106-107 n_rows_, n_columns_, entries_ *)
Definition fm_ty (e : nat) : ty := TAgg [(0, TInt 4); (4, TInt 4); (8, vec e)] 32 8.

(* ---- the contents of the members for a state of the container models ---- *)
Definition num (n : nat) : val := VInt (N.of_nat n).
Definition vv_val (m : vv val) : val := VAgg [VVec (vv_data m); VVec (map num (vv_starts m))].
Definition fw_val (m : fw val) : val :=
  VAgg [VVec (fw_data m); VVec (map num (fw_index m)); num (fw_cur m); VInt (if fw_complete m then 1 else 0)%N].
Definition ix_val (x : ix) : val := VAgg [num (ib x); num (isz x); num (ic x)].
Definition mm_val (m : mm val) : val :=
  VAgg [VVec (map ix_val (mm_index m)); VVec (mm_data m); VAgg (map (fun l => VVec (map ix_val l)) (mm_free m)); num (mm_count m)].
Definition nv_val (m : nv val) : val := VAgg [VAgg (map (fun l => VVec (map num l)) (nv_index m)); VVec (nv_data m)].
Definition fm_val (m : fm val) : val := VAgg [VInt (fm_rows m); VInt (fm_cols m); VVec (fm_entries m)].

(* paged_vecvec of integers of w bytes. A free page holds the number of the next one in its first four bytes, written
   by memcpy (paged.h:94-98) whatever the element type is; 2^32 - 1 at the end of the list *)
Definition next_num (n : option nat) : N := match n with Some p => N.of_nat p | None => (2 ^ 32 - 1)%N end.
(* the number that read<size_type>(p) finds (86-92) if the elements have the values vs, on a host of byte order be *)
Definition link_at (be : bool) (w : nat) (vs : list N) (p : nat) : N :=
  to_int be (firstn 4 (flat_map (of_int be w) (skipn p vs))).
Definition page_val (x : ix) : val := VAgg [num (isz x); num (ic x); num (ib x)].
(* the values vs of the elements are those of the cells *)
Definition cell_is (be : bool) (w : nat) (vs : list N) (p : nat) (c : cell N) : Prop :=
  match c with
  | Val a => nth_error vs p = Some a
  | Link n => link_at be w vs p = next_num n
  | Junk => True
  end.
Definition pv_val (be : bool) (w : nat) (m : pv N) (v : val) : Prop :=
  exists vs, length vs = length (pg_data (pv_pg m)) /\ Forall (fun x => x < 256 ^ N.of_nat w)%N vs /\
    (forall p c, nth_error (pg_data (pv_pg m)) p = Some c -> cell_is be w vs p c) /\
    v = VAgg [VAgg [VVec (map VInt vs); VAgg (map (fun n => VAgg [VInt (next_num n)]) (pg_nodes (pv_pg m)))];
              VVec (map page_val (pv_idx m))].

(* bitvec.h:481-482 size_, blocks_. cista_members (47) leaves out size_, so its bytes are copied with the object and never
   swapped, like those of a scalar that is no integer *)
Definition bv_ty (b : nat) : ty := TAgg [(0, TRaw 4); (8, vec b)] 32 8.
Definition bv_val (be : bool) (v : BitModel.bitvec) : val :=
  VAgg [VRaw (of_int be 4 (N.of_nat (BitModel.v_size v))); VVec (map VInt (BitModel.v_blocks v))].

(* hash_storage.h:671-674; the type is THash. enc: the contents of an entry. The contents list capacity_ + 1 + WIDTH control bytes;
   of the empty group that tables without memory share, serialize writes all 16 bytes (serialization.h:343-345). *)
Definition ht_val {K V} (enc : K * V -> val) (t : HashModel.tbl K V) : val :=
  VTab (HashModel.t_size K V t) (HashModel.t_growth K V t) (firstn (HashModel.t_cap K V t + 9) (HashModel.t_ctrl K V t))
    (map (option_map enc) (HashModel.t_ent K V t)).
(* the table whose members have given contents; dcd: the entry that has given contents *)
Definition ht_of {K V} (dcd : val -> K * V) (v : val) : HashModel.tbl K V :=
  match v with
  | VTab size growth ctrl l => HashModel.Tbl K V (map (option_map dcd) l) ctrl size (length l) growth
  | _ => HashModel.empty_tbl K V
  end.
