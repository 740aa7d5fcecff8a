(* Helper for FlatwProps.v. *)
From Verif Require Import Base FlatModel FlatSpec.

(* Whether a vecvec was never given a bucket, nor resized, since it was made or cleared: b says whether it was not before. *)
Definition unused1 {A} (b : bool) (o : vv_op A) : bool :=
  match o with VEmplace _ | VAddSized _ | VResize _ => false | VClear => true | _ => b end.
Fixpoint unused {A} (b : bool) (ops : list (vv_op A)) : bool :=
  match ops with [] => b | o :: ops => unused (unused1 b o) ops end.
