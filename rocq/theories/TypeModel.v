(* Model of type_hash/type_hash.h (and static_type_hash.h): the hash over the structure of a type that is written in front of serialized data
   with WITH_VERSION (WITH_STATIC_VERSION). What is fed into the hash, one 64-bit value after the other, is kept symbolic (tok). *)
From Coq Require Import String Ascii.
From Verif Require Import Base FnvModel.
Local Open Scope string_scope.

(* type_name.h 19-24: remove_all; the search goes on where the erased text was *)
Fixpoint strip (fuel : nat) (sub s : string) : string :=
  match fuel with
  | O => s
  | S f => match s with
           | "" => ""
           | String c r => if String.prefix sub s then strip f sub (substring (String.length sub) (String.length s - String.length sub) s) else String c (strip f sub r)
           end
  end.
Definition remove_all (s sub : string) : string := strip (S (String.length s)) sub s.
(* type_name.h 26-33 *)
Definition canonical (s : string) : string :=
  fold_left remove_all ["{anonymous}::"; "(anonymous namespace)::"; "`anonymous-namespace'::"; "struct"; "const"; " "] s.

(* Types. nm: the name as the compiler prints it. rep: what a type has in addition, without influence on the hash: signedness of integers,
   size type and pointer kind (raw, offset) of containers, strings, pointers. A struct is an index into the list of all structs.
   indexed<T> is treated like T and is not in the list. *)
Inductive unary := KVector | KUnique | KHash | KOptional.
Inductive cty :=
  | CInt (nm : string) (rep : N) (sz : N)           (* integral types *)
  | CScalar (nm : string) (sz : N)                  (* other scalars: floating point, enum *)
  | CVoid (nm : string) (rep : N)                   (* ptr<void> *)
  | CPtr (nm : string) (rep : N) (t : cty)          (* ptr<T> *)
  | CStruct (i : nat)
  | CArr (n : N) (t : cty)                          (* array<T, n> *)
  | CUn (k : unary) (rep : N) (t : cty)             (* vector<T>, unique_ptr<T>, hash_storage<T>, optional<T> *)
  | CStr (rep : N)                                  (* string, string_view, generic_string *)
  | CStrong (tag : string) (t : cty)                (* strong<T, tag> *)
  | CDur (per : string) (t : cty)                   (* duration<T, per> *)
  | CTime (clk : string) (t : cty)                  (* time_point<clk, T> *)
  | CVar (ts : list cty) | CTup (ts : list cty)     (* variant<ts...>, tuple<ts...> *)
  | CPair (a b : cty)                               (* cista::pair *)
  | CMm (log2 : N) (rep : N) (s t : cty).           (* dynamic_fws_multimap_base<t, s, vector, log2> *)
Record sdef := Sdef { s_name : string; s_size : N; s_fields : list cty }.
Definition env := list sdef.
Definition sget (e : env) (i : nat) : sdef := nth i e (Sdef "" 0 []).

(* one step of the hash: hash_combine(h, x) with x the hash of a keyword, a number, a type name with size; hash_combine(x, h) with x a
   hashed name, a number *)
Inductive tok := Kw (s : string) | Num (n : N) | Ty (nm : string) (sz : N) | TagT (s : string) | NumT (n : N).
Inductive hd :=
  | HInt (sz : N) | HScalar (nm : string) (sz : N) | HVoid | HPtr | HStruct | HArr (n : N) | HUn (k : unary) | HStr | HStrong (tag : string)
  | HDur (per : string) | HTime (clk : string) | HVar | HTup | HPair | HMm (log2 : N).
Definition head (t : cty) : hd :=
  match t with
  | CInt _ _ sz => HInt sz | CScalar nm sz => HScalar (canonical nm) sz | CVoid _ _ => HVoid | CPtr _ _ _ => HPtr | CStruct _ => HStruct
  | CArr n _ => HArr n | CUn k _ _ => HUn k | CStr _ => HStr | CStrong tag _ => HStrong (canonical tag) | CDur p _ => HDur (canonical p)
  | CTime c _ => HTime (canonical c) | CVar _ => HVar | CTup _ => HTup | CPair _ _ => HPair | CMm l _ _ _ => HMm l
  end.
Definition kids (e : env) (t : cty) : list cty :=
  match t with
  | CInt _ _ _ | CScalar _ _ | CVoid _ _ | CStr _ => []
  | CPtr _ _ t | CArr _ t | CUn _ _ t | CStrong _ t | CDur _ t | CTime _ t => [t]
  | CStruct i => s_fields (sget e i)
  | CVar ts | CTup ts => ts
  | CPair a b => [a; b]
  | CMm _ rep s t => [CUn KVector rep s; CUn KVector rep t]
  end.
Definition unary_name (k : unary) : string :=
  match k with KVector => "vector" | KUnique => "unique_ptr" | KHash => "hash_storage" | KOptional => "optional" end.
(* type_hash.h 23-201: what each overload feeds in before and after the element types *)
Definition opening (h : hd) : list tok :=
  match h with
  | HInt sz => [Kw "i"; Num sz]                 (* 69 *)
  | HScalar nm sz => [Ty nm sz]                 (* 71 *)
  | HVoid => [Kw "void*"]                       (* 63 *)
  | HPtr => [Kw "pointer"]                      (* 66 *)
  | HStruct => [Kw "struct"]                    (* 74 *)
  | HArr n => [Kw "array"; Num n]               (* 44-45 *)
  | HUn k => [Kw (unary_name k)]                (* 94, 101, 109, 179 *)
  | HStr => [Kw "string"]                       (* 132-150 *)
  | HStrong _ => [Kw "strong"]                  (* 164 *)
  | HDur _ => [Kw "duration"]                   (* 26 *)
  | HTime _ => [Kw "timepoint"]                 (* 35 *)
  | HVar => [Kw "variant"]                      (* 116 *)
  | HTup => [Kw "tuple"]                        (* 124 *)
  | HPair => []
  | HMm _ => [Kw "dynamic_fws_multimap"]        (* 189 *)
  end.
Definition closing (h : hd) : list tok :=
  match h with
  | HStrong tag => [TagT tag]                   (* 166 *)
  | HDur per => [TagT per]                      (* 28 *)
  | HTime clk => [TagT clk]                     (* 37 *)
  | HPair => [Kw "pair"]                        (* 87 *)
  | HMm log2 => [NumT log2]                     (* 192 *)
  | _ => []
  end.
(* static_type_hash.h 166-170, 239-243, 255-265, differences only (cista::pair is hashed like a struct there) *)
Definition static_opening (h : hd) : list tok := match h with HArr _ | HStrong _ => [] | _ => opening h end.
Definition static_closing (h : hd) : list tok :=
  match h with HArr n => [Kw "array"; Num n] | HMm log2 => [Num log2] | HStrong _ => [] | _ => closing h end.

(* type_hash.h 49-56: the types that are numbered when they are met first: the key under which they are kept in `done` *)
Definition tkey (e : env) (t : cty) : option (string * N) :=
  match t with
  | CInt nm _ sz => Some (canonical nm, sz)
  | CScalar nm sz => Some (canonical nm, sz)
  | CVoid nm _ => Some (canonical nm, 8%N)
  | CPtr nm _ _ => Some (canonical nm, 8%N)
  | CStruct i => Some (canonical (s_name (sget e i)), s_size (sget e i))
  | _ => None
  end.
Definition key_eqb (a b : string * N) : bool := String.eqb (fst a) (fst b) && (snd a =? snd b)%N.
Fixpoint index_of (k : string * N) (d : list (string * N)) (i : N) : option N :=
  match d with [] => None | x :: d => if key_eqb k x then Some i else index_of k d (i + 1)%N end.

Section Walk.
Variables (op cl : hd -> list tok) (e : env).
(* type_hash(T, h, done): what is fed in, and `done` after it (the keys in the order of their numbers) *)
Fixpoint walk (fuel : nat) (t : cty) (d : list (string * N)) : res (list tok * list (string * N)) :=
  match fuel with
  | O => Fuel
  | S f =>
      let expand d :=
        let* '(x, d) := (fix go (l : list cty) (d : list (string * N)) : res (list tok * list (string * N)) :=
                  match l with
                  | [] => Ok ([], d)
                  | t :: l => let* '(x, d) := walk f t d in let* '(y, d) := go l d in Ok ((x ++ y)%list, d)
                  end) (kids e t) d in
        Ok ((op (head t) ++ x ++ cl (head t))%list, d) in
      match tkey e t with
      | Some k => match index_of k d 0 with Some i => Ok ([Num i], d) | None => expand (d ++ [k])%list end
      | None => expand d
      end
  end.
End Walk.

(* what the steps compute *)
Definition bytes_of (s : string) : list N := map N_of_ascii (list_ascii_of_string s).
Definition hstr (s : string) : N := hash (bytes_of s) BASE_HASH.
Definition feed (h : N) (t : tok) : N :=
  match t with
  | Kw s => hash_combine h (hstr s)
  | Num n => hash_combine h n
  | Ty nm sz => hash_combine h (hash_combine (hstr nm) sz)
  | TagT s => hash_combine (hstr s) h
  | NumT n => hash_combine n h
  end.
(* type_hash.h 196-200, static_type_hash.h 268-270 *)
Definition type_hash (fuel : nat) (e : env) (t : cty) : res N :=
  let* '(x, _) := walk opening closing e fuel t [] in Ok (fold_left feed x BASE_HASH).
Definition static_type_hash (fuel : nat) (e : env) (t : cty) : res N :=
  let* '(x, _) := walk static_opening static_closing e fuel t [] in Ok (fold_left feed x BASE_HASH).
