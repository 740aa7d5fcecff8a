(* Model of containers/rtree.h: basic_rtree.
   Simplifications: a rectangle is a list of (min, max) pairs, one for each dimension. Of the entry arrays of a node only the used part
   (count_ entries) is kept. The union of children_ and data_ is kept as two lists. The field count_ of a node in the free list, where it
   holds the number of the next one, is the field link. DataType is trivial. The references to nodes that node_insert holds while nodes_
   grows are not used afterwards in the code (they are fetched again), so there are no references in the model. The coordinates are
   any ordered type; the arithmetic behind the choice of subtrees and of the split axis is left open (float rounding). *)
From Verif Require Import Base.

Section Rtree.
Variables (C : Type) (lt : C -> C -> bool) (c0 : C).      (* NumType, operator<, NumType{0} *)
Variables (D : Type) (diff : C -> C -> D) (mulD subD : D -> D -> D) (oneD infD : D) (ltD : D -> D -> bool).   (* differences, areas *)
Variables (V : Type).                                     (* DataType *)
Variables (Dims MaxItems Hints : nat).                    (* Hints: the size of path_hint_, 16 in the code *)

Definition rect := list (C * C).
Definition cmin (a b : C) : C := if lt b a then b else a.     (* std::min *)
Definition cmax (a b : C) : C := if lt a b then b else a.     (* std::max *)
(* rtree.h 42-49 *)
Definition united_area (r o : rect) : D := fold_left (fun x p => mulD x (diff (cmax (snd (fst p)) (snd (snd p))) (cmin (fst (fst p)) (fst (snd p))))) (combine r o) oneD.
(* rtree.h 51-57 *)
Definition area (r : rect) : D := fold_left (fun x p => mulD x (diff (snd p) (fst p))) r oneD.
(* rtree.h 59-66 *)
Definition contains (r o : rect) : bool := forallb (fun p => negb (lt (fst (snd p)) (fst (fst p))) && negb (lt (snd (fst p)) (snd (snd p)))) (combine r o).
(* rtree.h 68-75 *)
Definition intersects (r o : rect) : bool := forallb (fun p => negb (lt (snd (fst p)) (fst (snd p))) && negb (lt (snd (snd p)) (fst (fst p)))) (combine r o).
(* rtree.h 40 *)
Definition feq (a b : C) : bool := negb (lt a b || lt b a).
(* rtree.h 77-85 *)
Definition onedge (r o : rect) : bool := existsb (fun p => feq (fst (fst p)) (fst (snd p)) || feq (snd (fst p)) (snd (snd p))) (combine r o).
(* rtree.h 87-92 *)
Definition expand (r n : rect) : rect := map (fun p => (cmin (fst (fst p)) (fst (snd p)), cmax (snd (fst p)) (snd (snd p)))) (combine r n).
(* rtree.h 94-105 *)
Definition largest_axis (r : rect) : nat :=
  match r with
  | [] => 0
  | p :: r => snd (fst (fold_left (fun a p => let '(nl, axis, i) := a in let l := diff (snd p) (fst p) in if ltD nl l then (l, i, S i) else (nl, axis, S i)) r (diff (snd p) (fst p), 0, 1)))
  end.
(* rtree.h 107-122 *)
Definition equals (r o : rect) : bool := forallb (fun p => feq (fst (fst p)) (fst (snd p)) && feq (snd (fst p)) (snd (snd p))) (combine r o).
Definition rect0 : rect := repeat (c0, c0) Dims.

(* ---- entries of one node; X: child index or data ---- *)
Section Ents.
Variable X : Type.
Notation ents := (list (rect * X)).
Definition ent (l : ents) (i : nat) : res (rect * X) := match nth_error l i with Some x => Ok x | None => UB end.
Definition set_ent (l : ents) (i : nat) (x : rect * X) : ents := firstn i l ++ x :: skipn (S i) l.
(* rtree.h 205-212 *)
Definition swap (l : ents) (i j : nat) : res ents :=
  let* a := ent l i in let* b := ent l j in Ok (set_ent (set_ent l i b) j a).
Definition coord (l : ents) (i axis : nat) (mx : bool) : res C :=
  let* e := ent l i in match nth_error (fst e) axis with Some p => Ok (if mx then snd p else fst p) | None => UB end.
(* rtree.h 152-166: the loop; k: iterations left *)
Fixpoint partition (k : nat) (l : ents) (start nrects i lft axis : nat) (mx rev : bool) : res (ents * nat) :=
  match k with
  | O => Ok (l, lft)
  | S k =>
      let* a := coord l (start + i) axis mx in
      let* p := coord l (start + (nrects - 1)) axis mx in
      if (if rev then lt p a else lt a p)
      then let* l := swap l (start + i) (start + lft) in partition k l start nrects (S i) (S lft) axis mx rev
      else partition k l start nrects (S i) lft axis mx rev
  end.
(* rtree.h 135-170 *)
Fixpoint qsort (fuel : nat) (l : ents) (start end_ axis : nat) (mx rev : bool) : res ents :=
  match fuel with
  | O => Fuel
  | S f =>
      let nrects := end_ - start in
      if nrects <? 2 then Ok l else
      let* l := swap l (start + nrects / 2) (start + (nrects - 1)) in
      let* '(l, lft) := partition nrects l start nrects 0 0 axis mx rev in
      let* l := swap l (start + lft) (start + (nrects - 1)) in
      let* l := qsort f l start (start + lft) axis mx rev in
      qsort f l (start + lft + 1) end_ axis mx rev
  end.
(* rtree.h 126-131 *)
Definition sort_by_axis (l : ents) (axis : nat) (rev mx : bool) : res ents := qsort (S (length l)) l 0 (length l) axis mx rev.
(* rtree.h 172-187 *)
Definition choose_least (l : ents) (r : rect) : nat :=
  snd (fst (fold_left (fun a e => let '(je, j, i) := a in let enl := subD (united_area (fst e) r) (area (fst e)) in if ltD enl je then (enl, i, S i) else (je, j, S i)) l (infD, 0, 0))).
(* remove entry i: the last one takes its place *)
Definition remove_at (l : ents) (i : nat) : res ents :=
  let* _ := ent l i in let* z := ent l (length l - 1) in Ok (removelast (set_ent l i z)).
(* rtree.h 190-202 *)
Definition move_into (l into : ents) (i : nat) : res (ents * ents) :=
  let* x := ent l i in let* l := remove_at l i in if length into <? MaxItems then Ok (l, into ++ [x]) else UB.
(* rtree.h 214-221; an empty node keeps a rectangle from before, modelled by rect0 (its bounding box is never used) *)
Definition bounding_box (l : ents) : rect := match l with [] => rect0 | e :: l => fold_left (fun b e => expand b (fst e)) l (fst e) end.
(* rtree.h 350-360 *)
Fixpoint split_loop (fuel : nat) (nr : rect) (axis : nat) (l rgt : ents) (i : nat) : res (ents * ents) :=
  match fuel with
  | O => Fuel
  | S f =>
      if i <? length l then
        let* e := ent l i in
        match nth_error (fst e) axis, nth_error nr axis with
        | Some p, Some q =>
            if ltD (diff (snd q) (snd p)) (diff (fst p) (fst q))
            then let* '(l, rgt) := move_into l rgt i in split_loop f nr axis l rgt i
            else split_loop f nr axis l rgt (S i)
        | _, _ => UB
        end
      else Ok (l, rgt)
  end.
(* rtree.h 27-29 *)
Definition min_items : nat := MaxItems * 10 / 100 + 1.
(* rtree.h 366-368, 372-374: move the last entries until there are enough *)
Fixpoint refill (fuel : nat) (from to : ents) : res (ents * ents) :=
  match fuel with
  | O => Fuel
  | S f => let* '(from, to) := move_into from to (length from - 1) in if length to <? min_items then refill f from to else Ok (from, to)
  end.
(* rtree.h 343-379, on the entries *)
Definition split_ents (branch : bool) (nr : rect) (l : ents) : res (ents * ents) :=
  let axis := largest_axis nr in
  let* '(old, rgt) := split_loop (S (length l)) nr axis l [] 0 in
  let* '(old, rgt) :=
    if length old <? min_items then
      let* rgt := sort_by_axis rgt axis true false in
      let* '(rgt, old) := refill (S min_items) rgt old in Ok (old, rgt)
    else if length rgt <? min_items then
      let* old := sort_by_axis old axis true true in refill (S min_items) old rgt
    else Ok (old, rgt) in
  if branch then let* old := sort_by_axis old 0 true false in let* rgt := sort_by_axis rgt 0 true false in Ok (old, rgt)
  else Ok (old, rgt).
End Ents.
Arguments ent {X} _ _. Arguments set_ent {X} _ _ _. Arguments remove_at {X} _ _. Arguments bounding_box {X} _. Arguments split_ents {X} _ _ _. Arguments choose_least {X} _ _.

(* ---- nodes ---- *)
Inductive kind := KLeaf | KBranch | KEnd.
Record node := Node { n_kind : kind; n_data : list (rect * V); n_kids : list (rect * nat); n_link : nat }.
Definition n_count (n : node) : nat := match n_kind n with KLeaf => length (n_data n) | KBranch => length (n_kids n) | KEnd => 0 end.
Definition leaf (l : list (rect * V)) : node := Node KLeaf l [] 0.
Definition branch (l : list (rect * nat)) : node := Node KBranch [] l 0.
(* rtree.h 622-629; count_, height_ unbounded *)
Record tree := Tree { nodes : list node; root : option nat; free : option nat; m_rect : rect; m_count : nat; height : nat; hints : list nat }.
Definition empty : tree := Tree [] None None rect0 0 0 (repeat 0 Hints).
Definition with_nodes (t : tree) (ns : list node) : tree := Tree ns (root t) (free t) (m_rect t) (m_count t) (height t) (hints t).
Definition with_free (t : tree) (f : option nat) : tree := Tree (nodes t) (root t) f (m_rect t) (m_count t) (height t) (hints t).
Definition with_hints (t : tree) (h : list nat) : tree := Tree (nodes t) (root t) (free t) (m_rect t) (m_count t) (height t) h.

Definition get_node (t : tree) (id : nat) : res node := match nth_error (nodes t) id with Some n => Ok n | None => UB end.
Definition set_node (t : tree) (id : nat) (n : node) : tree := with_nodes t (firstn id (nodes t) ++ n :: skipn (S id) (nodes t)).
Definition get_hint (t : tree) (d : nat) : res nat := match nth_error (hints t) d with Some h => Ok h | None => UB end.
Definition set_hint (t : tree) (d h : nat) : res tree :=
  let* _ := get_hint t d in Ok (with_hints t (firstn d (hints t) ++ h :: skipn (S d) (hints t))).

(* rtree.h 409-426 *)
Definition node_new (t : tree) (k : kind) : res (tree * nat) :=
  match free t with
  | None => Ok (with_nodes t (nodes t ++ [Node k [] [] 0]), length (nodes t))
  | Some id =>
      let* n := get_node t id in
      let t := with_free t (match n_kind n with KEnd => None | _ => Some (n_link n) end) in
      Ok (set_node t id (Node k [] [] 0), id)
  end.
(* rtree.h 609-616 *)
Definition add_to_free_list (t : tree) (id : nat) : res tree :=
  let* n := get_node t id in
  Ok (with_free (set_node t id (match free t with None => Node KEnd [] [] 0 | Some f => Node (n_kind n) [] [] f end)) (Some id)).
(* rtree.h 381-402 *)
Fixpoint first_containing {X} (l : list (rect * X)) (r : rect) (i : nat) : option nat :=
  match l with [] => None | e :: l => if contains (fst e) r then Some i else first_containing l r (S i) end.
Definition node_choose (t : tree) (l : list (rect * nat)) (r : rect) (depth : nat) : res (tree * nat) :=
  let* h := get_hint t depth in
  let quick := match nth_error l h with Some e => contains (fst e) r | None => false end in
  if quick then Ok (t, h) else
  let i := match first_containing l r 0 with Some i => i | None => choose_least l r end in
  let* t := set_hint t depth i in Ok (t, i).
(* rtree.h 343-379 *)
Definition node_split (t : tree) (nr : rect) (id : nat) : res (tree * nat) :=
  let* n := get_node t id in
  let* '(t, rgt) := node_new t (n_kind n) in
  match n_kind n with
  | KLeaf => let* '(a, b) := split_ents false nr (n_data n) in Ok (set_node (set_node t id (leaf a)) rgt (leaf b), rgt)
  | KBranch => let* '(a, b) := split_ents true nr (n_kids n) in Ok (set_node (set_node t id (branch a)) rgt (branch b), rgt)
  | KEnd => UB
  end.
Definition node_bbox (t : tree) (id : nat) : res rect :=
  let* n := get_node t id in
  match n_kind n with KLeaf => Ok (bounding_box (n_data n)) | KBranch => Ok (bounding_box (n_kids n)) | KEnd => UB end.
Definition get_kids (t : tree) (id : nat) : res (list (rect * nat)) :=
  let* n := get_node t id in match n_kind n with KBranch => Ok (n_kids n) | _ => UB end.

(* rtree.h 299-341; true: the node has to be split *)
Fixpoint node_insert (fuel : nat) (t : tree) (id : nat) (r : rect) (v : V) (depth : nat) : res (tree * bool) :=
  match fuel with
  | O => Fuel
  | S f =>
      let* n := get_node t id in
      match n_kind n with
      | KLeaf => if length (n_data n) =? MaxItems then Ok (t, true) else Ok (set_node t id (leaf (n_data n ++ [(r, v)])), false)
      | KEnd => UB
      | KBranch =>
          let* '(t, i) := node_choose t (n_kids n) r depth in
          let* e := ent (n_kids n) i in
          let* '(t, split) := node_insert f t (snd e) r v (S depth) in
          let* l := get_kids t id in
          let* e := ent l i in
          if negb split then Ok (set_node t id (branch (set_ent l i (expand (fst e) r, snd e))), false)
          else if length l =? MaxItems then Ok (t, true)
          else
            let* '(t, rgt) := node_split t (fst e) (snd e) in
            let* b1 := node_bbox t (snd e) in
            let* b2 := node_bbox t rgt in
            node_insert f (set_node t id (branch (set_ent l i (b1, snd e) ++ [(b2, rgt)]))) id r v depth
      end
  end.
(* rtree.h 265-297: the loop; every turn makes the tree higher, and a tree higher than path_hint_ is undefined behaviour, which bounds the turns *)
Fixpoint insert_loop (fuel : nat) (t : tree) (r : rect) (v : V) : res tree :=
  match fuel with
  | O => Fuel
  | S f =>
      let* t := match root t with
                | Some _ => Ok t
                | None => let* '(t, id) := node_new t KLeaf in Ok (Tree (nodes t) (Some id) (free t) r (m_count t) 1 (hints t))
                end in
      match root t with
      | None => UB
      | Some id =>
          let* '(t, split) := node_insert ((height t + 1) * (MaxItems + 2)) t id r v 0 in
          if negb split then Ok (Tree (nodes t) (root t) (free t) (expand (m_rect t) r) (m_count t + 1) (height t) (hints t))
          else
            let* '(t, new) := node_new t KBranch in
            let* '(t, rgt) := node_split t (m_rect t) id in
            let* b1 := node_bbox t id in
            let* b2 := node_bbox t rgt in
            let t := set_node t new (branch [(b1, id); (b2, rgt)]) in
            insert_loop f (Tree (nodes t) (Some new) (free t) (m_rect t) (m_count t) (height t + 1) (hints t)) r v
      end
  end.
Definition insert (t : tree) (r : rect) (v : V) : res tree := insert_loop (Hints + 3) t r v.

(* rtree.h 428-451; fn: the callback's answer; result: the calls of fn, and whether to go on *)
Fixpoint report (l : list (rect * V)) (q : rect) (fn : rect * V -> bool) : list (rect * V) * bool :=
  match l with
  | [] => ([], true)
  | e :: l => if intersects (fst e) q then if fn e then let '(x, go) := report l q fn in (e :: x, go) else ([e], false) else report l q fn
  end.
Fixpoint node_search (fuel : nat) (t : tree) (id : nat) (q : rect) (fn : rect * V -> bool) : res (list (rect * V) * bool) :=
  match fuel with
  | O => Fuel
  | S f =>
      let* n := get_node t id in
      match n_kind n with
      | KLeaf => Ok (report (n_data n) q fn)
      | KEnd => UB
      | KBranch =>
          (fix go (l : list (rect * nat)) : res (list (rect * V) * bool) :=
             match l with
             | [] => Ok ([], true)
             | e :: l => if intersects (fst e) q then
                           let* '(x, c) := node_search f t (snd e) q fn in
                           if c then let* '(y, c) := go l in Ok (x ++ y, c) else Ok (x, false)
                         else go l
             end) (n_kids n)
      end
  end.
(* rtree.h 453-459 *)
Definition search (t : tree) (q : rect) (fn : rect * V -> bool) : res (list (rect * V)) :=
  match root t with None => Ok [] | Some id => let* '(x, _) := node_search (height t + 1) t id q fn in Ok x end.

(* rtree.h 470-549; fn: which entry to delete; result: tree, the rectangle of the node, removed, shrunk *)
Fixpoint first_fn (l : list (rect * V)) (fn : rect * V -> bool) (i : nat) : option nat :=
  match l with [] => None | e :: l => if fn e then Some i else first_fn l fn (S i) end.
(* rtree.h 527-547 *)
Definition after_removal (t : tree) (nr : rect) (id h depth : nat) (crect : rect) (shrunk : bool) : res (tree * rect * bool * bool) :=
  let* l := get_kids t id in
  let* e := ent l h in
  let* n := get_node t (snd e) in
  if n_count n =? 0 then
    let* t := add_to_free_list t (snd e) in
    let* l := remove_at l h in
    Ok (set_node t id (branch l), bounding_box l, true, true)
  else
    let* t := set_hint t depth h in
    if shrunk && negb (equals (fst e) crect) then Ok (t, bounding_box l, true, true) else Ok (t, nr, true, false).
Fixpoint node_delete (fuel : nat) (t : tree) (nr : rect) (id : nat) (input : rect) (depth : nat) (fn : rect * V -> bool) : res (tree * rect * bool * bool) :=
  match fuel with
  | O => Fuel
  | S f =>
      let* n := get_node t id in
      match n_kind n with
      | KLeaf =>
          match first_fn (n_data n) fn 0 with
          | None => Ok (t, nr, false, false)
          | Some i =>
              let* l := remove_at (n_data n) i in
              let t := set_node t id (leaf l) in
              if onedge input nr then Ok (t, bounding_box l, true, true) else Ok (t, nr, true, false)
          end
      | KEnd => UB
      | KBranch =>
          (* delete in child h; the child's rectangle is updated in place *)
          let child t h :=
            let* l := get_kids t id in
            let* e := ent l h in
            let* '(t, r, removed, shrunk) := node_delete f t (fst e) (snd e) input (S depth) fn in
            let* l := get_kids t id in
            let* e := ent l h in
            Ok (set_node t id (branch (set_ent l h (r, snd e))), removed, shrunk) in
          let* hint := get_hint t depth in
          let* '(t, removed, shrunk) :=
            match nth_error (n_kids n) hint with
            | Some e => if contains (fst e) input then child t hint else Ok (t, false, false)
            | None => Ok (t, false, false)
            end in
          if (removed : bool) then after_removal t nr id hint depth rect0 shrunk else
          (fix loop (k : nat) (t : tree) (h : nat) : res (tree * rect * bool * bool) :=
             match k with
             | O => Ok (t, nr, false, false)
             | S k =>
                 let* l := get_kids t id in
                 let* e := ent l h in
                 if contains (fst e) input then
                   let* '(t, removed, shrunk) := child t h in
                   if (removed : bool) then after_removal t nr id h depth (fst e) shrunk else loop k t (S h)
                 else loop k t (S h)
             end) (length (n_kids n)) t 0
      end
  end.
(* rtree.h 571-579 *)
Fixpoint lower_root (fuel : nat) (t : tree) (id : nat) : res tree :=
  match fuel with
  | O => Fuel
  | S f =>
      let* n := get_node t id in
      match n_kind n with
      | KBranch =>
          if m_count t =? 1 then
            let* e := ent (n_kids n) 0 in
            let* t := add_to_free_list t id in
            lower_root f (Tree (nodes t) (Some (snd e)) (free t) (m_rect t) (m_count t) (height t - 1) (hints t)) (snd e)
          else Ok t
      | _ => Ok t
      end
  end.
(* rtree.h 551-585 *)
Definition delete_0 (t : tree) (input : rect) (fn : rect * V -> bool) : res tree :=
  match root t with
  | None => Ok t
  | Some id =>
      let* '(t, r, removed, shrunk) := node_delete (height t + 1) t (m_rect t) id input 0 fn in
      if negb removed then Ok t else
      let t := Tree (nodes t) (root t) (free t) r (m_count t - 1) (height t) (hints t) in
      if m_count t =? 0 then
        let* t := add_to_free_list t id in
        Ok (Tree (nodes t) None (free t) (m_rect t) (m_count t) 0 (hints t))
      else
        let* t := lower_root (height t + 1) t id in
        match root t with
        | None => UB
        | Some id => if (shrunk : bool) then let* b := node_bbox t id in Ok (Tree (nodes t) (root t) (free t) b (m_count t) (height t) (hints t)) else Ok t
        end
  end.
(* rtree.h 587-600 *)
Definition delete_element (veq : V -> V -> bool) (t : tree) (r : rect) (v : V) : res tree :=
  delete_0 t r (fun e => equals r (fst e) && veq v (snd e)).

Inductive op := Insert (r : rect) (v : V) | Delete (r : rect) (v : V) | DeleteIf (r : rect) (fn : rect * V -> bool) | Search (q : rect) (fn : rect * V -> bool) | Size.
Inductive out := OUnit | OCalls (l : list (rect * V)) | OSize (n : nat).
Definition step (veq : V -> V -> bool) (t : tree) (o : op) : res (tree * out) :=
  match o with
  | Insert r v => let* t := insert t r v in Ok (t, OUnit)
  | Delete r v => let* t := delete_element veq t r v in Ok (t, OUnit)
  | DeleteIf r fn => let* t := delete_0 t r fn in Ok (t, OUnit)
  | Search q fn => let* l := search t q fn in Ok (t, OCalls l)
  | Size => Ok (t, OSize (m_count t))
  end.
Fixpoint run (veq : V -> V -> bool) (t : tree) (ops : list op) : res (tree * list out) :=
  match ops with [] => Ok (t, []) | o :: ops => let* '(t, x) := step veq t o in let* '(t, xs) := run veq t ops in Ok (t, x :: xs) end.
End Rtree.
