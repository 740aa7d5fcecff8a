(* Model of the containers of containers when the allocator runs out of memory: vecvec.h, fws_multimap.h,
   mutable_fws_multimap.h, paged_vecvec.h, flat_matrix.h and nvec.h on top of vector.h.
   A call of a vector that has to grow either does all it should or throws std::bad_alloc and leaves that
   vector alone, because reserve (vector.h:338-369) allocates before it touches anything; the elements are
   trivially copyable. Which call finds no memory is part of the history: every call comes with the
   number of the growth point that fails, if any. Simplification: the capacities of the vectors are not
   modelled, so a growth point may fail in the model even where the vector had room left. The histories
   of the model include every history of the program. *)
From Verif Require Import Base FlatModel MmModel PagedModel.

Definition failure := option nat.
Definition fails (f : failure) (n : nat) : bool := match f with Some k => k =? n | None => false end.
(* an answer, or None for a bad_alloc that leaves the call *)
Definition done {S X} (r : res (S * X)) : res (S * option X) := let* ' (s, x) := r in Ok (s, Some x).
Definition bad {S X} (s : S) : res (S * option X) := Ok (s, None).
(* a program that uses a container: it may react to every answer, and to every bad_alloc *)
Inductive client (O X : Type) := Stop | Call (o : O) (f : failure) (next : option X -> client O X).
Arguments Stop {O X}. Arguments Call {O X}.
(* the state in the end, and the calls that were made with their answers *)
Fixpoint orun {S O X} (step : S -> O -> failure -> res (S * option X)) (s : S) (c : client O X)
  : res (S * list (O * failure * option X)) :=
  match c with
  | Stop => Ok (s, [])
  | Call o f next => let* ' (s, x) := step s o f in let* ' (s, t) := orun step s (next x) in Ok (s, (o, f, x) :: t)
  end.
(* a client that makes its calls whatever they answer, and one that makes each call again after a bad_alloc *)
Definition line {O X} (ops : list (O * failure)) : client O X :=
  fold_right (fun '(o, f) c => Call o f (fun _ => c)) Stop ops.
Definition retry {O X} (ops : list (O * failure)) : client O X :=
  fold_right (fun '(o, f) c => Call o f (fun r => match r with Some _ => c | None => Call o None (fun _ => c) end)) Stop ops.

Section Vv.
Variable A : Type.
Variable dflt : A.
(* 364-375 emplace_back of a container and 377-384 add_back_sized (without the bucket it returns).
   Growth points: 0 the first index, 1 the elements, 2 the index of the bucket *)
Definition vvo_add (m : vv A) (xs : list A) (f : failure) : res (vv A * option (vout A)) :=
  if (length (vv_starts m) =? 0) && fails f 0 then bad m
  else if fails f 1 then bad (VV (vv_data m) (vv_started A m))
  else if fails f 2 then bad (VV (vv_data m ++ xs) (vv_started A m))
  else Ok (vv_emplace_back A m xs, Some XNone).
(* 386-397 emplace_back of an initializer list. Growth points: 0 the first index, 1 the index of the bucket,
   2 the elements *)
Definition vvo_init (m : vv A) (xs : list A) (f : failure) : res (vv A * option (vout A)) :=
  if (length (vv_starts m) =? 0) && fails f 0 then bad m
  else if fails f 1 then bad (VV (vv_data m) (vv_started A m))
  else
    let s := vv_started A m ++ [length (vv_data m) + length xs] in
    if fails f 2 then bad (VV (vv_data m) s) else Ok (VV (vv_data m ++ xs) s, Some XNone).
Inductive vvo_op := WOp (o : vv_op A) | WInit (xs : list A).
(* 71-78 push_back, 80-91 grow of a bucket: data_.insert first, then the indexes are moved; 405-412 resize.
   The one growth point is 0 *)
Definition vvo_step (m : vv A) (o : vvo_op) (f : failure) : res (vv A * option (vout A)) :=
  match o with
  | WInit xs => vvo_init m xs f
  | WOp (VEmplace xs) => vvo_add m xs f
  | WOp (VAddSized n) => vvo_add m (repeat dflt n) f
  | WOp (VResize n) =>
      if fails f 0 && (length (vv_starts m) <? n + 1) then bad m else done (vv_step A dflt m (VResize n))
  | WOp (VPush k x) => if fails f 0 then bad m else done (vv_step A dflt m (VPush k x))
  | WOp (VGrow k n x) =>
      (* 81 checks the size first *)
      let* s := vv_bucket_size A m k in
      if fails f 0 && (s <=? n) then bad m else done (vv_step A dflt m (VGrow k n x))
  | WOp o => done (vv_step A dflt m o)
  end.

(* fws_multimap.h:151-173 push_back, finish_key, finish_map: the vector grows before anything else changes *)
Definition fwo_step (m : fw A) (o : fw_op A) (f : failure) : res (fw A * option (vout A)) :=
  match o with
  | FPush _ | FFinishKey | FFinishMap =>
      if fails f 0 && negb (fw_complete m) then bad m else done (fw_step A m o)
  | _ => done (fw_step A m o)
  end.
End Vv.
Arguments WOp {A}. Arguments WInit {A}.

Section Mm.
Variable A : Type.
Variable dflt : A.
Variable lmax : nat.
(* mutable_fws_multimap.h:509-555 grow_bucket: the state a bad_alloc leaves behind, None if there is none.
   Growth points: 0 the elements (538, 543), 1 the list of free buckets in release_bucket (578).
   release_bucket works on a copy of the bucket here *)
Definition mmo_grow (m : mm A) (k req : nat) (f : failure) : res (option (mm A)) :=
  let* x := idx (mm_index m) k in
  let nc := cap_for req in
  if order_of nc <=? lmax then
    match mm_pop (mm_free m) (order_of nc) with
    | Some (b, free) =>
        (* the free bucket is taken off its list and filled, then the old bucket cannot be put on a list *)
        if negb (ic x =? 0) && fails f 1 then
          let* d := bcopy (mm_data m) (ib b) (ib x) (isz x) in
          Ok (Some (MM (mm_index m) d free (mm_count m)))
        else Ok None
    | None =>
        if fails f 0 then Ok (Some m)
        else if (ib x + ic x =? length (mm_data m)) || (ic x =? 0) then Ok None
        else if fails f 1 then
          (* the bucket has moved already *)
          let nb := length (mm_data m) in
          let* d := bcopy (mm_data m ++ repeat dflt nc) nb (ib x) (isz x) in
          Ok (Some (MM (upd k (Ix nb (isz x) nc) (mm_index m)) d (mm_free m) (mm_count m)))
        else Ok None
    end
  else Ok None.
(* the call of grow_bucket that an operation makes: 493-503 insert_new_entry, 160-165 reserve, 249-259
   prepare_insert, 167-186 resize *)
Definition mmo_request (m : mm A) (o : mm_op A) : res (option (nat * nat)) :=
  match o with
  | BPush k _ => let* x := idx (mm_index m) k in Ok (if isz x =? ic x then Some (k, ic x + 1) else None)
  | BInsert k _ _ => let* x := idx (mm_index m) k in Ok (if ic x <? isz x + 1 then Some (k, isz x + 1) else None)
  | BReserve k n | BResize k n _ => let* x := idx (mm_index m) k in Ok (if ic x <? n then Some (k, n) else None)
  | _ => Ok None
  end.
Definition mmo_step (m : mm A) (o : mm_op A) (f : failure) : res (mm A * option (vout A)) :=
  match o with
  (* 384-389, 421-430: index_ grows. Growth point 0 *)
  | BTouch _ | BGetOrCreate _ => if fails f 0 then bad m else done (mm_step A dflt lmax m o)
  (* 432-436 erase(key), 573-581 release_bucket on the bucket itself: its size is set to 0 before the list
     of free buckets grows. Growth point 1 *)
  | BEraseKey k =>
      match nth_error (mm_index m) k with
      | Some x => if negb (ic x =? 0) && fails f 1
                  then bad (MM (upd k (Ix (ib x) 0 (ic x)) (mm_index m)) (mm_data m) (mm_free m) (mm_count m))
                  else done (mm_step A dflt lmax m o)
      | None => done (mm_step A dflt lmax m o)
      end
  | _ =>
      let* q := mmo_request m o in
      match q with
      | None => done (mm_step A dflt lmax m o)
      | Some (k, req) =>
          let* r := mmo_grow m k req f in
          match r with Some m' => bad m' | None => done (mm_step A dflt lmax m o) end
      end
  end.
End Mm.

Section Paged.
Variable A : Type.
Variable dflt : A.
Variable lmin lw : nat.
(* paged.h:63-75 create_page: whether it takes new storage *)
Definition pg_fresh (m : pg A) (size : nat) : bool :=
  let i := free_list_index lmin (page_capacity lmin (N.of_nat size)) in
  (i <? N.of_nat (free_list_size lmin))%N &&
  match nth_error (pg_nodes m) (N.to_nat i) with Some None => true | _ => false end.
(* paged_vecvec.h:310-342. Growth points: 0 the elements, 1 the list of pages *)
Definition pvo_add (m : pv A) (size : nat) (made : res (pg A * ix)) (all : res (pv A * option (vout A))) (f : failure)
  : res (pv A * option (vout A)) :=
  if fails f 0 && pg_fresh (pv_pg m) size then bad m
  else if fails f 1 then match made with Ok (g, _) => bad (PV g (pv_idx m)) | _ => all end
  else all.
(* 158-170 push_back and insert of a bucket: resize_page (paged.h:52-61) creates a page only if the old one
   is full; 344-349 resize: pages are given back only if the list of pages does not grow *)
Definition pvo_step (m : pv A) (o : pv_op A) (f : failure) : res (pv A * option (vout A)) :=
  let all := done (pv_step A dflt lmin lw m o) in
  match o with
  | PEmplace xs | PInsert _ xs => pvo_add m (cut16 (length xs)) (pv_make A dflt lmin m xs) all f
  | PEmplaceEmpty => pvo_add m 0 (pg_create A dflt lmin (pv_pg m) 0) all f
  | PResize n => if fails f 1 && (length (pv_idx m) <? n) then bad m else all
  | PPush k _ | PBInsert k _ _ =>
      let* x := idx (pv_idx m) k in
      let n := cut16 (isz x + 1) in
      if fails f 0 && (ic x <? n) && pg_fresh (pv_pg m) n then bad m else all
  | _ => all
  end.
End Paged.

Section Fm.
Variable A : Type.
Variable dflt : A.
(* flat_matrix.h:96-100 resize: the new numbers of rows and columns are stored before the entries grow. Growth point 0.
   A matrix that make_flat_matrix (116-123, 132-139) cannot build is not assigned *)
Definition fmo_step (m : fm A) (o : fm_op A) (f : failure) : res (fm A * option (vout A)) :=
  match o with
  | MResize r c =>
      if fails f 0 && (length (fm_entries m) <? N.to_nat (wrap32 (r * c))) then bad (FM r (wrap32 c) (fm_entries m))
      else done (fm_step A dflt m o)
  | MMake _ _ _ => if fails f 0 then bad m else done (fm_step A dflt m o)
  | _ => done (fm_step A dflt m o)
  end.
End Fm.

Section Nv.
Variable A : Type.
(* nvec: the growth points of a call are counted as they are met. None: this one fails *)
Definition tick (f : failure) : option failure :=
  match f with Some 0 => None | Some (S n) => Some (Some n) | None => Some None end.
(* nvec.h:540-553 add<L>; the second component is None after a bad_alloc *)
Fixpoint nvo_add (L : nat) (m : nv A) (c : nest A) (f : failure) {struct c} : res (nv A * option failure) :=
  match L, c with
  | O, Leaf xs =>
      match tick f with
      | None => Ok (m, None)
      | Some f =>
          let* i := push_at (nv_index m) 0 (length (nv_data m) + length xs) in
          match tick f with None => Ok (NV (nv_data m) i, None) | Some f => Ok (NV (nv_data m ++ xs) i, Some f) end
      end
  | S L', Node ns =>
      let* low := idx (nv_index m) L' in
      match tick f with
      | None => Ok (m, None)
      | Some f =>
          let* i := push_at (nv_index m) L (length low + length ns - 1) in
          (fix all (m : nv A) (ns : list (nest A)) (f : failure) : res (nv A * option failure) :=
             match ns with
             | [] => Ok (m, Some f)
             | n :: ns => let* ' (m, r) := nvo_add L' m n f in
                          match r with None => Ok (m, None) | Some f => all m ns f end
             end) (NV (nv_data m) i) ns f
      end
  | _, _ => UB
  end.
(* 472-476: every list of indexes gets its 0 *)
Fixpoint nvo_zero (is : list (list nat)) (f : failure) : list (list nat) * option failure :=
  match is with
  | [] => ([], Some f)
  | i :: is => match tick f with
               | None => (i :: is, None)
               | Some f => let '(is, r) := nvo_zero is f in ((i ++ [0]) :: is, r)
               end
  end.
(* 470-478 emplace_back *)
Definition nvo_emplace (N : nat) (m : nv A) (c : nest A) (f : failure) : res (nv A * option failure) :=
  let* low := idx (nv_index m) 0 in
  if length low =? 0 then
    match nvo_zero (nv_index m) f with
    | (i, None) => Ok (NV (nv_data m) i, None)
    | (i, Some f) => nvo_add (N - 1) (NV (nv_data m) i) c f
    end
  else nvo_add (N - 1) m c f.
(* a sequence of emplace_back calls; true: the call returned, false: it threw bad_alloc *)
Fixpoint nvo_build (N : nat) (m : nv A) (cs : list (nest A * failure)) : res (nv A * list bool) :=
  match cs with
  | [] => Ok (m, [])
  | (c, f) :: cs =>
      let* ' (m, r) := nvo_emplace N m c f in
      let* ' (m, t) := nvo_build N m cs in
      Ok (m, (match r with Some _ => true | None => false end) :: t)
  end.
End Nv.
