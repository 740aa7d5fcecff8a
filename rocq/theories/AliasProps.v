(* C66: elements and buckets of a nested container as arguments of the container's own functions. *)
From Verif Require Import Base FlatModel FlatSpec MmModel MmSpec PagedModel PagedSpec AliasModel AliasProofs.
From Verif Require FlatProofs.

(* vecvec: after any history, adding an element of the container to one of its buckets is the same as adding a copy
   of it, and appending one of its own buckets leaves the other buckets alone, provided the data vector has memory
   left (cap). The elements of a bucket that is not const are moved out of it. Partial: without memory left the
   arguments dangle (C66_vecvec_realloc_refuted), and a bucket that is not const loses its elements
   (C66_vecvec_moves_refuted). *)
Theorem C66_vecvec_partial : forall (A : Type) (dflt : A) (moved : A -> A) ops l outs m,
  shist A (vv_spec A dflt) [] ops = Some (l, outs) -> hist A (vv_step A dflt) vv_new ops = Ok (m, outs) ->
  forall cap,
  (forall k j i x, nth_error (nth j l []) i = Some x -> length (concat l) + 1 <= cap ->
     vv_push_own A cap m k j i = vv_push A m k x) /\
  (forall k n j i x, k < length l -> nth_error (nth j l []) i = Some x -> length (concat l) + (n - length (nth k l [])) <= cap ->
     vv_grow_own A cap m k n j i = vv_grow A m k n x) /\
  (forall cst j, j < length l -> length (concat l) + length (nth j l []) <= cap ->
     exists m', vv_emplace_own A moved cap cst m j = Ok m' /\
       vv_all A m' = Ok ((if cst then l else upd j (map moved (nth j l [])) l) ++ [nth j l []])).
Proof.
  intros A dflt moved ops l outs m E1 E2 cap. pose proof (vv_reached A dflt ops l outs m E1 E2) as R. split; [|split].
  - intros k j i x. apply (vv_push_own_ok A moved cap m l k j i x R).
  - intros k n j i x. apply (vv_grow_own_ok A moved cap m l k n j i x R).
  - intros cst j Hj Hc. destruct (vv_emplace_own_ok A dflt moved cap cst m l j R Hj Hc) as (m' & E & R'). exists m'. split; auto.
    apply FlatProofs.vv_all_ok. auto.
Qed.
Print Assumptions C66_vecvec_partial.
Definition vv_case : list (vv_op nat) := [VEmplace [1;2;3]; VEmplace []; VEmplace [4;5]; VPush 1 6].
Definition vv_after : vv nat := match hist nat (vv_step nat 0) vv_new vv_case with Ok (m, _) => m | _ => vv_new end.
Example C66_vecvec_case :
  match shist nat (vv_spec nat 0) [] vv_case with Some (l, _) => l = [[1;2;3]; [6]; [4;5]] | None => False end /\
  match vv_push_own nat 8 vv_after 0 2 1 with Ok m => vv_all nat m = Ok [[1;2;3;5]; [6]; [4;5]] | _ => False end /\
  match vv_grow_own nat 8 vv_after 1 3 0 0 with Ok m => vv_all nat m = Ok [[1;2;3]; [6;1;1]; [4;5]] | _ => False end /\
  match vv_emplace_own nat (fun x => x) 9 false vv_after 0 with Ok m => vv_all nat m = Ok [[1;2;3]; [6]; [4;5]; [1;2;3]] | _ => False end.
Proof. vm_compute. repeat split. Qed.

(* With the data vector full, the same calls read through dangling pointers; std::vector allows
   v.push_back(v[i]) and the reader would expect the same here. *)
Theorem C66_vecvec_realloc_refuted : exists cap k j i x l,
  vv_all nat vv_after = Ok l /\ nth_error (nth j l []) i = Some x /\ length (vv_data vv_after) <= cap /\
  vv_push_own nat cap vv_after k j i = UB /\ vv_grow_own nat cap vv_after k 3 j i = UB /\
  vv_emplace_own nat (fun x => x) cap true vv_after j = UB.
Proof. exists 6, 1, 0, 0, 1, [[1;2;3]; [6]; [4;5]]. vm_compute. repeat split. auto. Qed.
Print Assumptions C66_vecvec_realloc_refuted.

(* emplace_back moves the elements out of the container it is given, even if that is a named object: strings
   (moved-from ones are empty) disappear from a bucket that is appended again, and from the caller's own container. *)
Definition vs_case : list (vv_op (list nat)) := [VEmplace [[1;2]; [3]]; VEmplace [[4]]].
Definition vs_after : vv (list nat) := match hist _ (vv_step _ []) vv_new vs_case with Ok (m, _) => m | _ => vv_new end.
Theorem C66_vecvec_moves_refuted :
  (exists m', vv_emplace_own _ (fun _ => []) 10 false vs_after 0 = Ok m' /\
     vv_all _ vs_after = Ok [[[1;2]; [3]]; [[4]]] /\ vv_all _ m' = Ok [[[]; []]; [[4]]; [[1;2]; [3]]]) /\
  (exists xs, xs <> [] /\ snd (vv_emplace_from _ (fun _ => []) false vs_after xs) <> xs /\
     snd (vv_emplace_from _ (fun _ => []) true vs_after xs) = xs).
Proof.
  split.
  - eexists. split; [vm_compute; reflexivity|]. vm_compute. auto.
  - exists [[7;8]; [9]]. vm_compute. repeat split; discriminate.
Qed.
Print Assumptions C66_vecvec_moves_refuted.

(* mutable_fws_multimap: after any history, adding an element of the map to one of its buckets, at the end or in front
   of position q, is the same as adding a copy of it, provided the data vector has memory left; an inserted element
   of the same bucket must not lie behind q. Partial: C66_multimap_realloc_refuted, C66_multimap_insert_refuted. *)
Theorem C66_multimap_partial : forall (A : Type) (dflt : A) (lmax : nat), lmax < 32 ->
  forall ops l e outs m,
  shist A (mm_spec A lmax) ([], 0) ops = Some ((l, e), outs) -> hist A (mm_step A dflt lmax) (mm_new lmax) ops = Ok (m, outs) ->
  forall cap k j i v, k < length l -> nth_error (nth j l []) i = Some v ->
  ((forall m', mm_push A dflt lmax m k v = Ok m' -> length (mm_data m') <= cap) ->
     mm_push_own A dflt lmax cap m k j i = mm_push A dflt lmax m k v) /\
  (forall q, q <= length (nth k l []) -> j <> k \/ i <= q ->
     (forall m', mm_insert A dflt lmax m k q v = Ok m' -> length (mm_data m') <= cap) ->
     mm_insert_own A dflt lmax cap m k q j i = mm_insert A dflt lmax m k q v).
Proof.
  intros A dflt lmax HL ops l e outs m E1 E2 cap k j i v Hk Hv. pose proof (mm_reached A dflt lmax ops l e outs m HL E1 E2) as I. split.
  - intros Hc. apply (mm_push_own_ok A dflt lmax HL cap m l); auto.
  - intros q Hq Hj Hc. apply (mm_insert_own_ok A dflt lmax HL cap m l); auto.
Qed.
Print Assumptions C66_multimap_partial.
Definition mm_case : list (mm_op nat) :=
  [BTouch 0; BPush 0 1; BPush 0 2; BPush 0 3; BTouch 1; BPush 1 4; BPush 1 5].
Definition mm_after : mm nat := match hist nat (mm_step nat 0 8) (mm_new 8) mm_case with Ok (m, _) => m | _ => mm_new 8 end.
Example C66_multimap_case :
  mm_all nat mm_after = Ok [[1;2;3]; [4;5]] /\ length (mm_data mm_after) = 6 /\
  match mm_push_own nat 0 8 8 mm_after 1 0 2 with Ok m => mm_all nat m = Ok [[1;2;3]; [4;5;3]] | _ => False end /\
  match mm_push_own nat 0 8 8 mm_after 1 1 0 with Ok m => mm_all nat m = Ok [[1;2;3]; [4;5;4]] | _ => False end /\
  match mm_insert_own nat 0 8 8 mm_after 0 2 0 0 with Ok m => mm_all nat m = Ok [[1;2;1;3]; [4;5]] | _ => False end /\
  match mm_insert_own nat 0 8 8 mm_after 0 1 1 1 with Ok m => mm_all nat m = Ok [[1;5;2;3]; [4;5]] | _ => False end.
Proof. vm_compute. repeat split. Qed.

Theorem C66_multimap_realloc_refuted : exists cap k j i,
  length (mm_data mm_after) <= cap /\ mm_get nat mm_after j i = Ok 4 /\
  mm_push_own nat 0 8 cap mm_after k j i = UB /\ mm_insert_own nat 0 8 cap mm_after k 2 j i = UB.
Proof. exists 6, 1, 1, 0. vm_compute. repeat split. auto. Qed.
Print Assumptions C66_multimap_realloc_refuted.
(* inserting an element of the bucket in front of position q inserts its predecessor instead, if it lies behind q
   and the bucket has room: nothing is reported *)
Theorem C66_multimap_insert_refuted : exists cap m', length (mm_data mm_after) <= cap /\
  mm_get nat mm_after 0 2 = Ok 3 /\ mm_insert_own nat 0 8 cap mm_after 0 0 0 2 = Ok m' /\
  mm_all nat m' = Ok [[2;1;2;3]; [4;5]].
Proof. exists 8. eexists. split; [vm_compute; auto|]. split; [vm_compute; reflexivity|]. split; [vm_compute; reflexivity|]. vm_compute. auto. Qed.
Print Assumptions C66_multimap_insert_refuted.

(* paged_vecvec: after any history, appending or inserting one of its own buckets, and inserting one of its own
   elements into a bucket, is the same as with a copy, whether the data vector is reallocated or not. Adding an element
   at the end of a bucket is, if the data vector has memory left, and the element is another bucket's, or the bucket
   has room, or it lies behind the cells (lw) the free list's link takes. Partial: C66_paged_push_refuted. *)
Theorem C66_paged_partial : forall (A : Type) (dflt : A) (lmin lw : nat), 1 <= lmin <= 15 -> 1 <= lw <= 2 ^ lmin ->
  forall ops l outs m,
  shist A (pv_spec A) [] ops = Some (l, outs) -> hist A (pv_step A dflt lmin lw) (pv_new A lmin) ops = Ok (m, outs) ->
  (forall j, j < length l -> pv_emplace_own A dflt lmin m j = pv_emplace A dflt lmin m (nth j l []) /\
     forall k, pv_insert_own A dflt lmin m k j = pv_insert A dflt lmin m k (nth j l [])) /\
  (forall k q j i v, nth_error (nth j l []) i = Some v ->
     pv_binsert_own A dflt lmin lw m k q j i = pv_binsert A dflt lmin lw m k q v) /\
  (forall cap k j i v, k < length l -> nth_error (nth j l []) i = Some v ->
     j <> k \/ lw <= i \/ (exists x, nth_error (pv_idx m) k = Some x /\ isz x < ic x) ->
     (forall m', pv_push A dflt lmin lw m k v = Ok m' -> length (pg_data (pv_pg m')) <= cap) ->
     pv_push_own A dflt lmin lw cap m k j i = pv_push A dflt lmin lw m k v).
Proof.
  intros A dflt lmin lw H1 H2 ops l outs m E1 E2. pose proof (pv_reached A dflt lmin lw ops l outs m H1 H2 E1 E2) as R. split; [|split].
  - intros j Hj. split; [|intros k]; [apply (pv_emplace_own_ok A dflt lmin lw H1 H2 m l)|apply (pv_insert_own_ok A dflt lmin lw H1 H2 m l)]; auto.
  - intros k q j i v Hv. apply (pv_binsert_own_ok A dflt lmin lw H1 H2 m l); auto.
  - intros cap k j i v Hk Hv Hj Hc. apply (pv_push_own_ok A dflt lmin lw H1 H2 cap m l); auto.
Qed.
Print Assumptions C66_paged_partial.
Definition pv_case : list (pv_op nat) := [PEmplace [1;2]; PEmplace [3;4;5]; PEmplace [6]].
Definition pv_after : pv nat := match hist nat (pv_step nat 0 1 1) (pv_new nat 1) pv_case with Ok (m, _) => m | _ => pv_new nat 1 end.
Example C66_paged_case :
  pv_all nat pv_after = Ok [[1;2]; [3;4;5]; [6]] /\ length (pg_data (pv_pg pv_after)) = 8 /\
  match pv_emplace_own nat 0 1 pv_after 1 with Ok m => pv_all nat m = Ok [[1;2]; [3;4;5]; [6]; [3;4;5]] | _ => False end /\
  match pv_insert_own nat 0 1 pv_after 1 0 with Ok m => pv_all nat m = Ok [[1;2]; [1;2]; [3;4;5]; [6]] | _ => False end /\
  match pv_binsert_own nat 0 1 1 pv_after 0 0 0 1 with Ok m => pv_all nat m = Ok [[2;1;2]; [3;4;5]; [6]] | _ => False end /\
  match pv_push_own nat 0 1 1 12 pv_after 0 0 1 with Ok m => pv_all nat m = Ok [[1;2;2]; [3;4;5]; [6]] | _ => False end /\
  match pv_push_own nat 0 1 1 8 pv_after 1 1 0 with Ok m => pv_all nat m = Ok [[1;2]; [3;4;5;3]; [6]] | _ => False end.
Proof. vm_compute. repeat split. Qed.

(* the first element of a full page is overwritten with the free list's link before it is read, even if the data
   vector has memory left; without memory left the reference dangles *)
Theorem C66_paged_push_refuted :
  (exists cap, 100 < cap /\ pv_get nat pv_after 0 0 = Ok 1 /\ pv_push_own nat 0 1 1 cap pv_after 0 0 0 = UB) /\
  (exists cap, length (pg_data (pv_pg pv_after)) <= cap /\ pv_get nat pv_after 1 0 = Ok 3 /\ pv_push_own nat 0 1 1 cap pv_after 0 1 0 = UB).
Proof. split; [exists 101|exists 8]; vm_compute; auto 200. Qed.
Print Assumptions C66_paged_push_refuted.

(* The memory is needed exactly: after any history, each of these calls that would need the data vector to be reallocated
   reads through a dangling reference, whatever the arguments. (paged_vecvec: see C66_paged_push_refuted for calls that
   fail though there is memory.) Partial: as above. *)
Theorem C66_vecvec_when_partial : forall (A : Type) (dflt : A) (moved : A -> A) ops l outs m,
  shist A (vv_spec A dflt) [] ops = Some (l, outs) -> hist A (vv_step A dflt) vv_new ops = Ok (m, outs) ->
  forall cap, length (concat l) <= cap ->
  (forall k j i x, k < length l -> nth_error (nth j l []) i = Some x ->
     (vv_push_own A cap m k j i <> UB <-> length (concat l) + 1 <= cap)) /\
  (forall k n j i x, k < length l -> nth_error (nth j l []) i = Some x -> length (nth k l []) <= n ->
     (vv_grow_own A cap m k n j i <> UB <-> length (concat l) + (n - length (nth k l [])) <= cap)) /\
  (forall cst j, j < length l ->
     (vv_emplace_own A moved cap cst m j <> UB <-> length (concat l) + length (nth j l []) <= cap)).
Proof.
  intros A dflt moved ops l outs m E1 E2 cap H0. pose proof (vv_reached A dflt ops l outs m E1 E2) as R. split; [|split].
  - intros k j i x Hk Hx. split; intros G.
    + destruct (Nat.le_gt_cases (length (concat l) + 1) cap) as [|Y]; auto. destruct G. apply (vv_push_out A cap m l k j i x); auto.
    + rewrite (vv_push_own_ok A moved cap m l k j i x R Hx G). unfold vv_push.
      destruct (FlatProofs.vv_insert_end_ok A m l k [x] R Hk) as (m' & -> & _). discriminate.
  - intros k n j i x Hk Hx Hn. split; intros G.
    + destruct (Nat.le_gt_cases (length (concat l) + (n - length (nth k l []))) cap) as [|Y]; auto. destruct G.
      apply (vv_grow_out A cap m l k n j i x); auto. lia.
    + rewrite (vv_grow_own_ok A moved cap m l k n j i x R Hk Hx G). unfold vv_grow.
      destruct (FlatProofs.vv_bucket_ok A m l k R Hk) as (_ & _ & ->). cbn [bind]. unfold verify.
      destruct (Nat.leb_spec (length (nth k l [])) n); [|lia]. cbn [bind].
      destruct (FlatProofs.vv_insert_end_ok A m l k (repeat x (n - length (nth k l []))) R Hk) as (m' & -> & _). discriminate.
  - intros cst j Hj. split; intros G.
    + destruct (Nat.le_gt_cases (length (concat l) + length (nth j l [])) cap) as [|Y]; auto. destruct G.
      apply (vv_emplace_out A moved cap cst m l j); auto.
    + destruct (vv_emplace_own_ok A dflt moved cap cst m l j R Hj G) as (m' & -> & _). discriminate.
Qed.
Print Assumptions C66_vecvec_when_partial.
Theorem C66_multimap_when_partial : forall (A : Type) (dflt : A) (lmax : nat), lmax < 32 ->
  forall ops l e outs m,
  shist A (mm_spec A lmax) ([], 0) ops = Some ((l, e), outs) -> hist A (mm_step A dflt lmax) (mm_new lmax) ops = Ok (m, outs) ->
  forall cap k j i v, k < length l -> nth_error (nth j l []) i = Some v ->
  (forall m', mm_push A dflt lmax m k v = Ok m' ->
     (mm_push_own A dflt lmax cap m k j i <> UB <-> length (mm_data m') <= cap)) /\
  (forall q m', q <= length (nth k l []) -> j <> k \/ i <= q -> mm_insert A dflt lmax m k q v = Ok m' ->
     (mm_insert_own A dflt lmax cap m k q j i <> UB <-> length (mm_data m') <= cap)).
Proof.
  intros A dflt lmax HL ops l e outs m E1 E2 cap k j i v Hk Hv. pose proof (mm_reached A dflt lmax ops l e outs m HL E1 E2) as I. split.
  - intros m' E. split; intros G.
    + destruct (Nat.le_gt_cases (length (mm_data m')) cap) as [|Y]; auto. destruct G. eapply mm_push_out; eauto.
    + rewrite (mm_push_own_ok A dflt lmax HL cap m l k j i v I Hk Hv), E; [discriminate|]. intros m1 X. congruence.
  - intros q m' Hq Hj E. split; intros G.
    + destruct (Nat.le_gt_cases (length (mm_data m')) cap) as [|Y]; auto. destruct G. eapply mm_insert_out; eauto.
    + rewrite (mm_insert_own_ok A dflt lmax HL cap m l k q j i v), E; auto; [discriminate|]. intros m1 X. congruence.
Qed.
Print Assumptions C66_multimap_when_partial.
Theorem C66_paged_when_partial : forall (A : Type) (dflt : A) (lmin lw : nat), 1 <= lmin <= 15 -> 1 <= lw <= 2 ^ lmin ->
  forall ops l outs m,
  shist A (pv_spec A) [] ops = Some (l, outs) -> hist A (pv_step A dflt lmin lw) (pv_new A lmin) ops = Ok (m, outs) ->
  forall cap k j i v m', nth_error (nth j l []) i = Some v -> pv_push A dflt lmin lw m k v = Ok m' ->
  cap < length (pg_data (pv_pg m')) -> pv_push_own A dflt lmin lw cap m k j i = UB.
Proof.
  intros A dflt lmin lw H1 H2 ops l outs m E1 E2 cap k j i v m' Hv E Hc. pose proof (pv_reached A dflt lmin lw ops l outs m H1 H2 E1 E2) as R.
  eapply pv_push_out; eauto.
Qed.
Print Assumptions C66_paged_when_partial.

(* What insert does with an element of the same bucket behind the position, whenever the bucket has room: it is the same as
   inserting a copy of that element's predecessor. Partial: the property asks for a copy of the element itself
   (C66_multimap_insert_refuted). *)
Theorem C66_multimap_insert_behind_partial : forall (A : Type) (dflt : A) (lmax : nat), lmax < 32 ->
  forall ops l e outs m,
  shist A (mm_spec A lmax) ([], 0) ops = Some ((l, e), outs) -> hist A (mm_step A dflt lmax) (mm_new lmax) ops = Ok (m, outs) ->
  forall cap k q i x v w, nth_error (mm_index m) k = Some x -> isz x < ic x -> q < i ->
  nth_error (nth k l []) i = Some v -> nth_error (nth k l []) (i - 1) = Some w -> length (mm_data m) <= cap ->
  mm_insert_own A dflt lmax cap m k q k i = mm_insert A dflt lmax m k q w.
Proof.
  intros A dflt lmax HL ops l e outs m E1 E2 cap k q i x v w. intros. eapply mm_insert_shifted; eauto.
  apply (mm_reached A dflt lmax ops l e outs m HL E1 E2).
Qed.
Print Assumptions C66_multimap_insert_behind_partial.
Example C66_when_case :
  vv_push_own nat 6 vv_after 0 2 1 = UB /\ vv_push_own nat 7 vv_after 0 2 1 <> UB /\
  vv_grow_own nat 6 vv_after 1 1 0 0 <> UB /\ vv_emplace_own nat (fun x => x) 8 true vv_after 0 = UB.
Proof. split; [vm_compute; reflexivity|]. split; [vm_compute; discriminate|]. split; [vm_compute; discriminate|vm_compute; reflexivity]. Qed.
Example C66_behind_case :
  match nth_error (mm_index mm_after) 0 with Some x => isz x <? ic x | None => false end = true /\
  mm_get nat mm_after 0 2 = Ok 3 /\ mm_get nat mm_after 0 1 = Ok 2 /\
  mm_insert_own nat 0 8 8 mm_after 0 0 0 2 = mm_insert nat 0 8 mm_after 0 0 2.
Proof. split; [vm_compute; reflexivity|]. split; [vm_compute; reflexivity|]. split; vm_compute; reflexivity. Qed.

(* An element of a vecvec that is moved into one of its buckets, after any history: with memory left the bucket gets the
   element, its old place holds a moved-from value, nothing else changes. Partial: as C66_vecvec_partial. *)
Theorem C66_vecvec_move_partial : forall (A : Type) (dflt : A) (moved : A -> A) ops l outs m,
  shist A (vv_spec A dflt) [] ops = Some (l, outs) -> hist A (vv_step A dflt) vv_new ops = Ok (m, outs) ->
  forall cap k j i x, k < length l -> nth_error (nth j l []) i = Some x -> length (concat l) + 1 <= cap ->
  let l1 := upd j (upd i (moved x) (nth j l [])) l in
  exists m', vv_push_moved A moved cap m k j i = Ok m' /\ vv_all A m' = Ok (upd k (nth k l1 [] ++ [x]) l1).
Proof.
  intros A dflt moved ops l outs m E1 E2 cap k j i x Hk Hx Hc l1. pose proof (vv_reached A dflt ops l outs m E1 E2) as R.
  destruct (vv_push_moved_ok A moved cap m l k j i x R Hk Hx Hc) as (m' & E & R'). exists m'. split; auto. apply FlatProofs.vv_all_ok. auto.
Qed.
Print Assumptions C66_vecvec_move_partial.
Example C66_vecvec_move_case :
  match vv_push_moved nat (fun _ => 0) 7 vv_after 0 2 1 with Ok m => vv_all nat m | _ => UB end = Ok [[1;2;3;5]; [6]; [4;0]] /\
  match vv_push_moved nat (fun _ => 0) 7 vv_after 0 0 1 with Ok m => vv_all nat m | _ => UB end = Ok [[1;0;3;2]; [6]; [4;5]] /\
  vv_push_moved nat (fun _ => 0) 6 vv_after 0 2 1 = UB.
Proof. vm_compute. repeat split. Qed.
