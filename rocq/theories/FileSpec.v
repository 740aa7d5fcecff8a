(* What serialization targets and memory mapped files mean. *)
From Verif Require Import Base FlatModel FlatSpec TupleModel FnvModel FileModel.

(* A target is a sequence of bytes. Writing appends at the next offset that is a multiple of the alignment, the gap is zero;
   patching overwrites bytes that are there; the checksum is the hash of the bytes from start on. *)
Definition next_off (n a : nat) : nat := if 1 <? a then n + (a - n mod a) mod a else n.
Definition overwrite (b : bytes) (pos : nat) (bs : bytes) : bytes := firstn pos b ++ bs ++ skipn (pos + length bs) b.
Definition target_spec (b : bytes) (o : top * nat) : option (bytes * tans) :=
  match fst o with
  | TWrite bs a =>
      let off := next_off (length b) a in
      (* writing nothing with an alignment: see C34_nothing_refuted *)
      guard (negb (length bs =? 0) || (a <=? 1) && negb (length b =? 0)) (b ++ repeat 0%N (off - length b) ++ bs, TOff off)
  | TPatch pos bs => guard ((pos + length bs <=? length b) && negb (length b =? 0)) (overwrite b pos bs, TNone)
  | TSum start => guard (start <? length b) (b, THash (hash (skipn start b) BASE_HASH))
  end.
(* the memory of the target is aligned well enough *)
Definition aligned (ops : list (top * nat)) : Prop :=
  forall bs a base, In (TWrite bs a, base) ops -> 1 < a -> base mod a = 0.

(* A memory mapped file is a sequence of bytes; a byte is None when nothing is said about it. high is the largest size it ever had:
   growing beyond that gives zeros, growing below that whatever was there (see C38_shrink_refuted). *)
Record mstate := MS { sprot : prot; high : nat; svals : list (option N) }.
Definition grow (n high : nat) (s : list (option N)) : list (option N) :=
  s ++ repeat None (Nat.min n high - length s) ++ repeat (Some 0%N) (n - Nat.max (length s) high).
Definition sopen (f : bytes) (p : prot) : mstate := let f := match p with WRITE => [] | _ => f end in MS p (length f) (map Some f).
Fixpoint known (l : list (option N)) : option bytes :=
  match l with [] => Some [] | Some b :: l => option_map (cons b) (known l) | None :: _ => None end.
Definition mm_spec (t : mstate) (o : mop) : option (mstate * mans) :=
  match o with
  | MResize n fails =>
      if fails then None           (* see C38_failed_resize_refuted *)
      else match sprot t with
           | READ => Some (t, MThrow)
           | p => Some (MS p (Nat.max n (high t)) (firstn n (grow n (high t) (svals t))), MNone)
           end
  | MReserve n fails => if fails then None else Some (t, match sprot t with READ => MThrow | _ => MNone end)
  | MWrite off bs => match sprot t with
                     | READ => None
                     | p => guard ((off + length bs <=? length (svals t)) && negb (length (svals t) =? 0))
                              (MS p (high t) (firstn off (svals t) ++ map Some bs ++ skipn (off + length bs) (svals t)), MNone)
                     end
  | MRead off n => if (off + n <=? length (svals t)) && negb (length (svals t) =? 0)
                   then match known (firstn n (skipn off (svals t))) with Some bs => Some (t, MBytes bs) | None => None end else None
  | MSync => Some (t, MNone)
  | MSize => Some (t, MNum (length (svals t)))
  end.
(* f has the bytes that s knows *)
Definition agrees (s : list (option N)) (f : bytes) : Prop := forall i b, nth_error s i = Some (Some b) -> nth_error f i = Some b.
(* what a power failure may leave of a file that was as in hist since it was last written to the disk: any of the
   lengths, and for each byte any of the values it had *)
Definition power_loss (hist : list bytes) (d : bytes) : Prop :=
  (exists f, In f hist /\ length d = length f) /\
  forall i b, nth_error d i = Some b -> exists f, In f hist /\ (nth_error f i = Some b \/ length f <= i /\ b = 0%N).
Definition touches (i : nat) (o : mop) : bool := match o with MWrite off bs => (off <=? i) && (i <? off + length bs) | _ => false end.
