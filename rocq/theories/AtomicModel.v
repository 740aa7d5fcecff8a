(* Concurrent use of include/cista/atomic.h and of bitvec's get_next and set<true>.
   A machine has one shared cell (or one shared block sequence) and a list of threads; a schedule
   lists which thread takes the next step. Loads, compare_exchange_weak and the fetch_or/fetch_and
   builtins are single steps: this is what the hardware guarantees for one location under every
   memory order used here. compare_exchange_weak may fail although the values agree: the schedule
   says when. *)
From Verif Require Import Base BitModel.

Definition sched := list (nat * bool).   (* thread, "a compare-exchange in this step fails spuriously" *)

(* ---- atomic.h:33-44 fetch_min and 46-57 fetch_max ---- *)
Inductive fphase : Type :=
| FIdle                       (* before the load of the next call *)
| FCas (old : Z).             (* in the while loop, old as last loaded *)
(* queue of arguments of the calls still to do; the head is the call in progress *)
Record fthread := FT { f_phase : fphase; f_todo : list Z }.
(* log: calls that took effect (argument, returned value), latest first *)
Record fstate := FS { f_cell : Z; f_threads : list fthread; f_log : list (Z * Z) }.

Section Fetch.
Variable op : Z -> Z -> Z.    (* std::min resp. std::max *)
Definition fstep (s : fstate) (t : nat) (spurious : bool) : fstate :=
  match nth_error (f_threads s) t with
  | Some (FT ph (v :: todo)) =>
      match ph with
      | FIdle =>
          let old := f_cell s in                       (* auto old = a->load() *)
          if (old >? v)%Z                               (* if (old > val), in both functions *)
          then FS (f_cell s) (upd t (FT (FCas old) (v :: todo)) (f_threads s)) (f_log s)
          else FS (f_cell s) (upd t (FT FIdle todo) (f_threads s)) ((v, old) :: f_log s)
      | FCas old =>
          if negb spurious && (f_cell s =? old)%Z
          then FS (op old v) (upd t (FT FIdle todo) (f_threads s)) ((v, old) :: f_log s)
          else FS (f_cell s) (upd t (FT (FCas (f_cell s)) (v :: todo)) (f_threads s)) (f_log s)
      end
  | _ => s
  end.
Fixpoint frun (s : fstate) (sch : sched) : fstate :=
  match sch with [] => s | (t, b) :: sch => frun (fstep s t b) sch end.
End Fetch.
Definition fetch_min_run := frun Z.min.
Definition fetch_max_run := frun Z.max.
Definition finit (x : Z) (calls : list (list Z)) : fstate := FS x (map (FT FIdle) calls) [].
Definition fdone (s : fstate) : bool := forallb (fun t => match f_todo t with [] => true | _ => false end) (f_threads s).

(* ---- bitvec.h:219-230 get_next: threads sharing a counter; the bits do not change ---- *)
Inductive gphase : Type :=
| GLoop                        (* at the top of while (true), or between two calls *)
| GTry (expected idx : nat).   (* loaded and found a set bit, about to compare-exchange *)
(* log: (thread, result) of finished calls, latest first. The counter is a size_t converted to the
   bitvec's 32-bit index type: this model is for counters below 2^32, where that changes nothing. *)
Record gstate := GS { g_next : nat; g_threads : list gphase; g_log : list (nat * option nat) }.
Definition gstep (v : bitvec) (s : gstate) (t : nat) (spurious : bool) : res gstate :=
  match nth_error (g_threads s) t with
  | Some GLoop =>
      let* o := next_set_bit v (g_next s) in
      match o with
      | None => Ok (GS (g_next s) (g_threads s) ((t, None) :: g_log s))
      | Some idx => Ok (GS (g_next s) (upd t (GTry (g_next s) idx) (g_threads s)) (g_log s))
      end
  | Some (GTry expected idx) =>
      if negb spurious && (g_next s =? expected)
      then Ok (GS (idx + 1) (upd t GLoop (g_threads s)) ((t, Some idx) :: g_log s))
      else Ok (GS (g_next s) (upd t GLoop (g_threads s)) (g_log s))
  | None => Ok s
  end.
Fixpoint grun (v : bitvec) (s : gstate) (sch : sched) : res gstate :=
  match sch with [] => Ok s | (t, b) :: sch => let* s := gstep v s t b in grun v s sch end.
Definition ginit (start threads : nat) : gstate := GS start (repeat GLoop threads) [].

(* ---- bitvec.h:99-121 set<true>: each thread has a list of calls (index, value) ---- *)
Record bstate := BS { b_blocks : list N; b_todo : list (list (nat * bool)) }.
(* fetch_or / fetch_and on the block: one step *)
Definition atomic_set (b : list N) (i : nat) (v : bool) : res (list N) :=
  let* x := rdb b (i / BPB) in
  if v then wrb b (i / BPB) (N.lor x (bit_mask (i mod BPB)))
  else wrb b (i / BPB) (N.land x (N.lxor u64_max (bit_mask (i mod BPB)))).
Definition bstep (s : bstate) (t : nat) : res bstate :=
  match nth_error (b_todo s) t with
  | Some ((i, v) :: todo) =>
      let* b := atomic_set (b_blocks s) i v in Ok (BS b (upd t todo (b_todo s)))
  | _ => Ok s
  end.
Fixpoint brun (s : bstate) (sch : list nat) : res bstate :=
  match sch with [] => Ok s | t :: sch => let* s := bstep s t in brun s sch end.
Definition bdone (s : bstate) : bool := forallb (fun l => match l with [] => true | _ => false end) (b_todo s).

(* bitvec.h:114-119 set<false> used by several threads: the load and the store of the block are
   separate steps *)
Record nthread := NT { n_loaded : option N; n_todo : list (nat * bool) }.
Record nstate := NS { n_blocks : list N; n_threads : list nthread }.
Definition nstep (s : nstate) (t : nat) : res nstate :=
  match nth_error (n_threads s) t with
  | Some (NT None ((i, v) :: todo)) =>
      let* x := rdb (n_blocks s) (i / BPB) in
      Ok (NS (n_blocks s) (upd t (NT (Some x) ((i, v) :: todo)) (n_threads s)))
  | Some (NT (Some x) ((i, v) :: todo)) =>
      let m := bit_mask (i mod BPB) in
      let* b := wrb (n_blocks s) (i / BPB) (if v then N.lor x m else N.land x (N.lxor u64_max m)) in
      Ok (NS b (upd t (NT None todo) (n_threads s)))
  | _ => Ok s
  end.
Fixpoint nrun (s : nstate) (sch : list nat) : res nstate :=
  match sch with [] => Ok s | t :: sch => let* s := nstep s t in nrun s sch end.
