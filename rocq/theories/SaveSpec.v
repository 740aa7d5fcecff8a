(* What it means that an object survives a file: saved from memory of one host, loaded on another. *)
From Coq Require Import ZArith.
From Verif Require Import Base HeaderModel HeaderSpec SerialModel SerialSpec.
Local Open Scope Z_scope.

(* serialize() wrote the bytes out; the source object at address a, on a host of byte order be_src, had the contents v *)
Definition saved (env : list ty) (A : Z) (t : ty) (be_src : bool) (m th : N) (f : nat) (v : val) (out : list N) : Prop :=
  exists rel src a tr,
    types_ok A env t /\ total_mem src /\ writer_mode m /\ (th < W64)%N /\ Z.of_nat (data_start m) mod align_of t = 0 /\
    graph_at env be_src rel src f t a v tr /\
    serialize env be_src rel m th src f t a = Ok out /\ Z.of_nat (length out) < 2 ^ 62.
(* on a host of the file's byte order the checked reader accepts the bytes at every aligned address, and the object has the
   contents v *)
Definition file_be (m : N) : bool := is_mode_enabled m SERIALIZE_BIG_ENDIAN.
Definition loads (env : list ty) (A : Z) (t : ty) (m th : N) (f : nat) (v : val) (out : list N) : Prop :=
  forall B, 0 < B < 2 ^ 62 -> (A | B) ->
    let root := B + Z.of_nat (data_start m) in
    (forall strict, deserialize env (file_be m) strict m th f t B out = Ok root) /\
    exists tr, image_at env (file_be m) B out clean_table f t root v tr.
