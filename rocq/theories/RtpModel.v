(* An rtree in files: mm_rtree (rtree.h 633-636) keeps its nodes in a mmap_vec, and m_ in a second file written by
   write_meta and read by read_meta (618-619).
   Simplifications: the file of nodes contains the nodes, as C39 shows for mmap_vec; after the end of the process
   without destructors it also contains what mmap::resize reserved (mmap.h 96-103), which mmap_vec's constructor
   (mmap_vec.h 25-27) takes for nodes: any nodes here. That reading the file of meta data gives what was written, or
   throws if writing was interrupted, is shown in C01 and C60. The system itself does not crash.
   A used node has no link to a next free node (n_link) in RtModel; in the code it is the same number as count_. This
   matters only for a tree with an old list of free nodes, from the second node that is taken from this list. *)
From Verif Require Import Base RtModel.

Section Persist.
Variables (C : Type) (lt : C -> C -> bool) (c0 : C).
Variables (D : Type) (diff : C -> C -> D) (mulD subD : D -> D -> D) (oneD infD : D) (ltD : D -> D -> bool).
Variables (V : Type) (Dims MaxItems Hints : nat) (veq : V -> V -> bool).
(* rtree.h 621-628 struct meta *)
Record meta := Meta { mt_root : option nat; mt_free : option nat; mt_rect : rect C; mt_count : nat; mt_height : nat; mt_hints : list nat }.
Definition meta_of (t : tree C V) : meta := Meta (root _ _ t) (free _ _ t) (m_rect _ _ t) (m_count _ _ t) (height _ _ t) (hints _ _ t).
(* a tree with the nodes of one file and the meta data of the other *)
Definition load (m : meta) (ns : list (node C V)) : tree C V := Tree C V ns (mt_root m) (mt_free m) (mt_rect m) (mt_count m) (mt_height m) (mt_hints m).
(* the second file: missing, unreadable or complete *)
Inductive mfile := MNone | MBroken | MGood (m : meta).
Inductive pop :=
  | POp (o : op C V)
  | PSave                                  (* write_meta *)
  | PSaveKilled                            (* the process ends within write_meta; io.h 21-27, mmap.h 34-36: "w+" empties the file first *)
  | PReopen (g : list (node C V)).         (* the process ends, g: the unused nodes in the file; a new one opens the files and calls read_meta *)
Definition pstate : Type := tree C V * mfile.
Definition reopen (st : pstate) (g : list (node C V)) : res pstate :=
  let '(t, f) := st in
  match f with MGood m => Ok (load m (nodes _ _ t ++ g), f) | MNone | MBroken => Throw end.
Definition pstep (st : pstate) (o : pop) : res (pstate * out C V) :=
  let '(t, f) := st in
  match o with
  | POp o => let* '(t, x) := step C lt c0 D diff mulD subD oneD infD ltD V Dims MaxItems Hints veq t o in Ok ((t, f), x)
  | PSave => Ok ((t, MGood (meta_of t)), OUnit _ _)
  | PSaveKilled => Ok ((t, MBroken), OUnit _ _)
  | PReopen g => let* st := reopen st g in Ok (st, OUnit _ _)
  end.
Fixpoint prun (st : pstate) (ops : list pop) : res (pstate * list (out C V)) :=
  match ops with [] => Ok (st, []) | o :: ops => let* '(st, x) := pstep st o in let* '(st, xs) := prun st ops in Ok (st, x :: xs) end.
(* rtree.h 453-459 without a bound taken from m_.height_, which search does not read; n: the depth of the recursion *)
Definition search_deep (n : nat) (t : tree C V) (q : rect C) (fn : rect C * V -> bool) : res (list (rect C * V)) :=
  match root _ _ t with None => Ok [] | Some id => let* '(x, _) := node_search C lt V n t id q fn in Ok x end.
End Persist.
Arguments MNone {C}. Arguments MBroken {C}. Arguments MGood {C}.
Arguments POp {C V}. Arguments PSave {C V}. Arguments PSaveKilled {C V}. Arguments PReopen {C V}.
