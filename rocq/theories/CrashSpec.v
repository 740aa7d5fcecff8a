(* What is left of a file when saving is interrupted. *)
From Verif Require Import Base Bytes CrashModel.

(* bytes written at a position; what lies between the old end and the position reads as zero *)
Definition over (b : list N) (o : wop) : list N := put (fst o) (snd o) (b ++ zeros (fst o + length (snd o) - length b)).
Definition image (ops : list wop) : list N := fold_left over ops [].
(* part of a write *)
Definition torn (o : wop) (k : nat) : wop := (fst o, firstn k (snd o)).

(* A file written with file.h: all writes before some point, and a part of the next one. *)
Definition left_in_file (ops : list wop) (b : list N) : Prop :=
  exists pre o post k, ops = pre ++ o :: post /\ b = over (image pre) (torn o k).
(* A file written through a memory map (mmap.h): the map is larger than what was written, the rest reads as zero. Words of up to eight bytes are
   stored at once. *)
Definition left_in_map (ops : list wop) (b : list N) : Prop :=
  exists pre o post k z, ops = pre ++ o :: post /\ b = over (image pre) (torn o k) ++ zeros z /\
    (length (snd o) <= 8 -> k = 0 \/ length (snd o) <= k).
