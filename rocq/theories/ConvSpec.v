(* What the converting reader must achieve. *)
From Verif Require Import Base Bytes HeaderModel SerialModel SerialSpec ConvModel.
Local Open Scope Z_scope.

(* The object graph at address a of memory m as a program on the host sees it: integers in the
   host's byte order, pointers as addresses (raw) or as offsets; n bytes of buffer at B. *)
Definition host_image (env : list ty) (hb raw : bool) (B n : Z) (m : mem)
  (tab : N -> N -> N -> list N -> bool) (f : nat) (t : ty) (a : Z) (v : val) (tr : list ev) : Prop :=
  dec env (plain hb m (negb raw) (Some (B, B + n)) tab) f t a = Some (v, tr).

(* No byte belongs to two members of the graph. *)
Definition places (tr : list ev) : list (Z * Z) :=
  flat_map (fun e => match e with Rd a n => [(a, n)] | PtrAt s _ _ _ => [(s, 8)] | _ => [] end) tr.
Definition unshared (tr : list ev) : Prop :=
  ForallOrdPairs (fun x y => apart (fst x) (snd x) (fst y) (snd y)) (places tr).

(* The memory outside of the n bytes at B is not changed. *)
Definition outside_same (B n : Z) (m m' : mem) : Prop := forall z, ~ (B <= z < B + n) -> m' z = m z.

(* Modes that agree on the layout of the file. *)
Definition same_format (m m' : N) : Prop :=
  Forall (fun flag => is_mode_enabled m' flag = is_mode_enabled m flag)
    [WITH_VERSION; WITH_STATIC_VERSION; WITH_INTEGRITY; SKIP_VERSION; SKIP_INTEGRITY; SERIALIZE_BIG_ENDIAN].

(* Types whose objects own no memory elsewhere (strings: apart from their characters). *)
Inductive inline : ty -> Prop :=
| il_int w : inline (TInt w)
| il_raw w : inline (TRaw w)
| il_ptr n : inline (TPtr n)
| il_agg fs sz al : Forall (fun ft => inline (snd ft)) fs -> inline (TAgg fs sz al)
| il_opt t off sz al : inline t -> inline (TOpt t off sz al)
| il_var ts off sz al : Forall inline ts -> inline (TVar ts off sz al)
| il_str : inline TStr
| il_cstr : inline TCStr.
(* Types in which the entries of all hash tables are inline. *)
Section Tables.
Variable env : list ty.
Inductive flat_tables : ty -> Prop :=
| ft_int w : flat_tables (TInt w)
| ft_raw w : flat_tables (TRaw w)
| ft_ptr n : flat_tables (TPtr n)
| ft_agg fs sz al : Forall (fun ft => flat_tables (snd ft)) fs -> flat_tables (TAgg fs sz al)
| ft_opt t off sz al : flat_tables t -> flat_tables (TOpt t off sz al)
| ft_var ts off sz al : Forall flat_tables ts -> flat_tables (TVar ts off sz al)
| ft_uniq n : flat_tables (TUniq n)
| ft_vec w ix n : flat_tables (TVec w ix n)
| ft_str : flat_tables TStr
| ft_cstr : flat_tables TCStr
| ft_hash n : inline (tyof env n) -> flat_tables (THash n).
Definition inline_tables (t : ty) : Prop := flat_tables t /\ Forall flat_tables env.
End Tables.
