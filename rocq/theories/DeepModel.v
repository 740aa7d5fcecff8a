(* Model of mode::DEEP_CHECK of include/cista/serialization.h: after the first pass over the buffer
   ([conv], ConvModel.v) a second one follows the pointers as well. It changes nothing. *)
From Verif Require Import Base Bytes ArithModel HeaderModel HashModel SerialModel ConvModel.
Local Open Scope Z_scope.

(* 664 checked_: the set of (type hash of the pointer type, address of the pointer) *)
Definition visited := list (N * Z).
Definition seen (k : N) (a : Z) (st : visited) : bool :=
  existsb (fun e => (fst e =? k)%N && (snd e =? a)) st.

Section Deep.
Variable env : list ty.
Notation tyof := (tyof env).
Variable keys : list N. (* type_hash of the type "pointer to type n of env" *)
Definition key (n : nat) : N := nth n keys 0%N.
Variables hb raw chk strict_i64 : bool. (* as in [conv] *)
Variables from to : Z.
Variable m : mem. (* the memory after the first pass *)

(* 737-746 deserialize(c1, el) in the second pass: check_ptr, check_state, recurse *)
Fixpoint dchk (f : nat) (t : ty) (a : Z) (st : visited) {struct f} : res visited :=
  match f with
  | O => Fuel
  | S f =>
    let* _ := when chk (check_raw from to a (size_of t) (align_of t)) in
    match t with
    | TInt _ | TRaw _ | TCStr => Ok st
    | TPtr n => (* 702-712, 724-728, 768-786; 660-662 add_checked *)
        let* _ := when chk (check_slot hb raw strict_i64 from to m a (size_of (tyof n)) (align_of (tyof n))) in
        let* p := cptr hb raw strict_i64 m a in
        match p with
        | None => Ok st
        | Some q => if seen (key n) a st then Ok st else dchk f (tyof n) q ((key n, a) :: st)
        end
    | TAgg fs _ _ => foldM (fun ft st => dchk f (snd ft) (a + fst ft) st) fs st
    | TOpt t off _ _ => (* 1033-1042 *)
        let* v := if chk then check_bool hb m a else dint hb m a 1 in
        if v =? 0 then Ok st else dchk f t (a + off) st
    | TVar ts off _ _ => (* 1016-1029 *)
        let* i := dint hb m a 1 in
        let* _ := when chk (verify (i <? Z.of_nat (length ts))) in
        match nth_error ts (Z.to_nat i) with
        | Some t => dchk f t (a + off) st
        | None => UB
        end
    | TUniq n => (* 888-898 *)
        let* _ := when chk (let* b := check_bool hb m (a + 8) in verify (b =? 0)) in
        let* p := cptr hb raw strict_i64 m a in
        match p with None => Ok st | Some q => dchk f (tyof n) q st end
    | TVec w _ n => (* 797-815 *)
        let T := tyof n in
        let* _ := when chk (check_vec hb raw strict_i64 from to m a w T) in
        let* used := dint hb m (a + 8) w in
        let* p := cptr hb raw strict_i64 m a in
        match p with
        | None => if used =? 0 then Ok st else UB
        | Some q => foldM (fun i st => dchk f T (q + Z.of_nat i * size_of T) st) (seq 0 (Z.to_nat used)) st
        end
    | TStr => (* 827-837 *)
        let* _ := when chk (check_str hb raw strict_i64 from to m a) in Ok st
    | THash n => (* 928-999 *)
        let T := tyof n in
        let* _ := when chk (check_hash hb raw strict_i64 from to m a T) in
        let* cap := dint hb m (a + 24) 8 in
        let* pe := cptr hb raw strict_i64 m a in
        let* pc := cptr hb raw strict_i64 m (a + 8) in
        match pc with
        | None => UB
        | Some c =>
            let* ctrl := dbytes m c (Z.to_nat (cap + 9)) in
            let* l := slots (Tbl unit unit [] ctrl 0 (Z.to_nat cap) 0) in
            foldM (fun i st => match pe with
                               | None => UB
                               | Some e => dchk f T (e + Z.of_nat i * size_of T) st
                               end) l st
        end
    end
  end.
End Deep.

(* 1064-1085 deserialize<T, Mode> with DEEP_CHECK: the buffer [b] is at address B; f bounds the
   recursion of the first pass, g that of the second *)
Definition deserialize_deep (env : list ty) (keys : list N) (host_be raw strict_i64 : bool) (m : N) (type_hash : N)
  (f g : nat) (t : ty) (B : Z) (b : list N) : res (Z * mem) :=
  let* r := convert env host_be raw strict_i64 m type_hash f t B b in
  let* _ := dchk env keys host_be raw (negb (is_mode_enabled m UNCHECKED)) strict_i64
              B (B + Z.of_nat (length b)) (snd r) g t (fst r) [] in
  Ok r.
