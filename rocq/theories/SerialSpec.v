(* What it means that an object graph of a given type can be read from memory: the vocabulary
   in which C01-C05 and C40 are stated. Independent of serializer and deserializer. *)
From Verif Require Import Base Bytes HashModel SerialModel.
Local Open Scope Z_scope.

Notation "'let?' x ':=' r 'in' k" := (match r with Some x => k | None => None end)
  (at level 200, x pattern, r at level 100, k at level 200, right associativity).
Notation "'require' c 'in' k" := (if c then k else None)
  (at level 200, c at level 100, k at level 200, right associativity).

(* Observable contents of an object, without addresses. *)
Inductive val : Type :=
| VInt (x : N)
| VRaw (l : list N)
| VPtr                               (* a non-owning pointer; its target is in the events *)
| VAgg (l : list val)
| VNone | VSome (v : val)            (* optional *)
| VAlt (i : N) (v : val)             (* variant *)
| VNull | VObj (v : val)             (* unique_ptr *)
| VVec (l : list val)
| VStr (l : list N)
| VTab (size growth : N) (ctrl : list N) (l : list (option val)).  (* hash table *)

(* What is met on the way, in reading order. *)
Inductive ev : Type :=
| Rd (a n : Z)                              (* bytes [a, a+n) are read *)
| PtrAt (slot : Z) (p : option Z) (sz al : Z) (* a non-owning pointer to p stored at slot; size and
                                              alignment of the pointee type *)
| Res (a : Z)                               (* spare memory of an empty indexed vector *)
| Blk (ix : bool) (a len al : Z).           (* an owned block other pointers may point to: the target
                                              of a unique_ptr (ix = false) or the elements of an
                                              indexed vector (ix = true) *)

Fixpoint mapM {A X} (g : A -> option (X * list ev)) (l : list A) : option (list X * list ev) :=
  match l with
  | [] => Some ([], [])
  | a :: l => let? (x, t) := g a in
              let? (xs, ts) := mapM g l in
              Some (x :: xs, t ++ ts)
  end.

(* a NUL-terminated string of at most 15 characters *)
Fixpoint cstr (l : list N) : list N :=
  match l with [] => [] | c :: l => if (c =? 0)%N then [] else c :: cstr l end.

Record env_of_reader := Reader {
  r_be : bool;                      (* byte order of the memory *)
  r_mem : mem;
  r_ptr : Z -> option (option Z);   (* how a non-owning pointer is read from its slot *)
  r_rel : bool;                     (* owning pointers are offset_ptr / raw pointers *)
  r_ck : option (Z * Z);            (* Some (lo, hi): additionally everything is inside [lo, hi) and
                                       in serialized form (not self-allocated, no spare capacity) *)
  r_tab : N -> N -> N -> list N -> bool;  (* admissible hash tables: size, capacity, growth_left, ctrl *)
}.

Section Dec.
Variable env : list ty.
Variable R : env_of_reader.

Definition rint (a : Z) (w : nat) : option N :=
  let? l := rdn (r_mem R) a w in Some (to_int (r_be R) l).
Definition rptr (rel : bool) (a : Z) : option (option Z) :=
  let? x := rint a 8 in Some (ptr_of rel a x).
(* checked readers only: *)
Definition inside (a n al : Z) : bool :=
  match r_ck R with None => true | Some (lo, hi) => (lo <=? a) && (a + n <=? hi) && (a mod al =? 0) end.
Definition strict (c : bool) : bool := match r_ck R with None => true | _ => c end.
(* strict readers look at flag bytes that must be 0 *)
Definition zero_at (a : Z) : option (list ev) :=
  match r_ck R with
  | None => Some []
  | Some _ => let? b := rint a 1 in require (b =? 0)%N in Some [Rd a 1]
  end.

Fixpoint dec (f : nat) (t : ty) (a : Z) {struct f} : option (val * list ev) :=
  match f with
  | O => None
  | S f =>
    require (a mod align_of t =? 0) && inside a (size_of t) (align_of t) in
    match t with
    | TInt w => let? x := rint a w in Some (VInt x, [Rd a (Z.of_nat w)])
    | TRaw w => let? l := rdn (r_mem R) a w in Some (VRaw l, [Rd a (Z.of_nat w)])
    | TPtr n =>
        let T := tyof env n in
        let? p := r_ptr R a in
        require match p with None => true | Some q => inside q (size_of T) (align_of T) end in
        Some (VPtr, [PtrAt a p (size_of T) (align_of T)])
    | TAgg fs _ _ =>
        let? (vs, tr) := mapM (fun ft => dec f (snd ft) (a + fst ft)) fs in
        Some (VAgg vs, tr)
    | TOpt t off _ _ =>
        let? b := rint a 1 in
        if (b =? 0)%N then Some (VNone, [Rd a 1])
        else require (b =? 1)%N in
             let? (v, tr) := dec f t (a + off) in
             Some (VSome v, Rd a 1 :: tr)
    | TVar ts off _ _ =>
        let? i := rint a 1 in
        let? t := nth_error ts (N.to_nat i) in
        let? (v, tr) := dec f t (a + off) in
        Some (VAlt i v, Rd a 1 :: tr)
    | TUniq n =>
        let T := tyof env n in
        let? p := rptr (r_rel R) a in
        let? z := zero_at (a + 8) in
        match p with
        | None => Some (VNull, Rd a 8 :: z)
        | Some q => let? (v, tr) := dec f T q in
                    Some (VObj v, Rd a 8 :: z ++ Blk false q (size_of T) (align_of T) :: tr)
        end
    | TVec w ix n =>
        let T := tyof env n in
        let? p := rptr (r_rel R) a in
        let? used := rint (a + 8) w in
        let? alloc := match r_ck R with None => Some used | _ => rint (a + 8 + Z.of_nat w) w end in
        require (alloc =? used)%N in
        let? z := zero_at (a + 8 + 2 * Z.of_nat w) in
        let own := Rd a 8 :: Rd (a + 8) (Z.of_nat w) ::
                   match r_ck R with None => [] | _ => [Rd (a + 8 + Z.of_nat w) (Z.of_nat w)] end ++ z in
        if (used =? 0)%N
        then require strict match p with None => true | _ => false end in
             Some (VVec [], own ++ match p with Some q => if ix then [Res q] else [] | None => [] end)
        else let? q := p in
             require inside q (size_of T * Z.of_N used) (align_of T) in
             let? (vs, tr) := mapM (fun i => dec f T (q + Z.of_nat i * size_of T))
                                   (seq 0 (N.to_nat used)) in
             Some (VVec vs, own ++ (if ix then [Blk true q (size_of T * Z.of_N used) (align_of T)]
                                    else []) ++ tr)
    | TStr =>
        let? b := rint a 1 in
        if negb (b =? 0)%N
        then require (b =? 1)%N in
             let? l := rdn (r_mem R) (a + 1) 15 in
             Some (VStr (cstr l), [Rd a 1; Rd (a + 1) 15])
        else let? p := rptr (r_rel R) (a + 8) in
             let? size := rint (a + 4) 4 in
             let? z := zero_at (a + 1) in
             let own := Rd a 1 :: Rd (a + 8) 8 :: Rd (a + 4) 4 :: z in
             match p with
             | None => require (size =? 0)%N in Some (VStr [], own)
             | Some q =>
                 require negb (size =? 0)%N && inside q (Z.of_N size) 1 in
                 let? l := rdn (r_mem R) q (N.to_nat size) in
                 Some (VStr l, own ++ [Rd q (Z.of_N size)])
             end
    | TCStr =>
        let? rem := rint (a + 15) 1 in
        if (rem <? 128)%N
        then require (rem <=? 15)%N in
             let? l := rdn (r_mem R) a (15 - N.to_nat rem) in
             Some (VStr l, [Rd (a + 15) 1; Rd a 15])
        else let? p := rptr (r_rel R) a in
             let? size := rint (a + 8) 4 in
             let own := [Rd (a + 15) 1; Rd a 8; Rd (a + 8) 4] in
             if (size =? 0)%N then Some (VStr [], own)
             else let? q := p in
                  let? l := rdn (r_mem R) q (N.to_nat size) in
                  Some (VStr l, own ++ [Rd q (Z.of_N size)])
    | THash n =>
        let T := tyof env n in
        let? pe := rptr (r_rel R) a in
        let? pc := rptr (r_rel R) (a + 8) in
        let? size := rint (a + 16) 8 in
        let? cap := rint (a + 24) 8 in
        let? growth := rint (a + 32) 8 in
        let? z := zero_at (a + 40) in
        let? c := pc in
        require (Z.of_N cap * size_of T + Z.of_N cap <? 2 ^ 62) && inside c (Z.of_N cap + 9) 1 in
        let? ctrl := rdn (r_mem R) c (N.to_nat cap + 9) in
        require r_tab R size cap growth ctrl in
        let own := Rd a 8 :: Rd (a + 8) 8 :: Rd (a + 16) 8 :: Rd (a + 24) 8 :: Rd (a + 32) 8 ::
                   z ++ [Rd c (Z.of_N cap + 9)] in
        match pe with
        | None => require (cap =? 0)%N && (size =? 0)%N in Some (VTab size growth ctrl [], own)
        | Some e =>
            require (c =? e + Z.of_N cap * size_of T) && negb ((cap =? 0)%N && (size =? 0)%N) &&
                    inside e (Z.of_N cap * size_of T + (Z.of_N cap + 9)) (align_of T) in
            let? (vs, tr) := mapM (fun i => if is_full (nth i ctrl EMPTY)
                                            then let? (v, tr) := dec f T (e + Z.of_nat i * size_of T) in
                                                 Some (Some v, tr)
                                            else Some (None, []))
                                  (seq 0 (N.to_nat cap)) in
            Some (VTab size growth ctrl vs, own ++ tr)
        end
    end
  end.
End Dec.

(* The pointers and the owned blocks met, in reading order. *)
Definition ptrs (l : list ev) : list (Z * option Z * Z * Z) :=
  flat_map (fun e => match e with PtrAt s p z al => [(s, p, z, al)] | _ => [] end) l.
Definition blks (l : list ev) : list (bool * Z * Z * Z) :=
  flat_map (fun e => match e with Blk ix a n al => [(ix, a, n, al)] | _ => [] end) l.

Definition spares (l : list ev) : list Z :=
  flat_map (fun e => match e with Res a => [a] | _ => [] end) l.

(* Two readings of equal contents meet corresponding blocks in the same order.
   [image C p o]: address p of the first graph is in (or at the start of) an owned block and o is
   the same place in the corresponding block of the second. *)
Definition blk := (bool * Z * Z * Z)%type.
Definition image (C : list (blk * blk)) (p o : Z) : Prop :=
  exists ix a n al a' n' al', In ((ix, a, n, al), (ix, a', n', al')) C /\
    if ix then a <= p < a + n /\ o = a' + (p - a) else p = a /\ o = a'.

(* p' is where the copy's pointer must point: the image of p, or null if p does not point into
   anything the graph owns. *)
Definition pointer_image (C : list (blk * blk)) (p p' : option Z) : Prop :=
  match p, p' with
  | None, None => True
  | None, Some _ => False
  | Some q, Some o => image C q o
  | Some q, None => forall o, ~ image C q o
  end.
(* the graph read with events tr' is a copy of the one read with events tr *)
Definition mirrors (tr tr' : list ev) : Prop :=
  Forall2 (fun x y : blk => match x, y with (ix, _, n, al), (ix', _, n', al') => ix' = ix /\ n' = n /\ al' = al end)
          (blks tr) (blks tr') /\
  Forall2 (fun x y : Z * option Z * Z * Z =>
             pointer_image (combine (blks tr) (blks tr')) (snd (fst (fst x))) (snd (fst (fst y))))
          (ptrs tr) (ptrs tr').

(* An ordinary view of memory: all pointers are read from the same memory. *)
Definition plain (be : bool) (m : mem) (rel : bool) (ck : option (Z * Z)) (tab : N -> N -> N -> list N -> bool)
  : env_of_reader :=
  Reader be m (fun a => let? l := rdn m a 8 in Some (ptr_of rel a (to_int be l))) rel ck tab.

(* Owned blocks are separate allocations, and so is the spare memory of empty vectors. *)
Definition disjoint_blocks (l : list ev) : Prop :=
  ForallOrdPairs (fun x y : blk => match x, y with (_, a, n, _), (_, b, k, _) =>
                                     a + n <= b \/ b + k <= a end) (blks l) /\
  forall ix a n al q, In (Blk ix a n al) l -> In (Res q) l -> q < a \/ a + n <= q.
(* A pointer into an owned block points to an object inside it. *)
Definition pointers_fit (l : list ev) : Prop :=
  forall slot q sz al ix a n al', In (PtrAt slot (Some q) sz al) l -> In (Blk ix a n al') l ->
    (if ix then a <= q < a + n else q = a) -> q + sz <= a + n /\ (al | al') /\ (al | q - a).

(* Layouts a C++ compiler can choose; A = a common multiple of all alignments. *)
Definition al_ok (A al : Z) : Prop := 0 < al /\ (al | A).
Definition apart (a n b k : Z) : Prop := a + n <= b \/ b + k <= a.
Inductive wf (A : Z) : ty -> Prop :=
| wf_int w : In w [1; 2; 4; 8]%nat -> wf A (TInt w)
| wf_raw w : In w [1; 2; 4; 8]%nat -> wf A (TRaw w)
| wf_ptr n : wf A (TPtr n)
| wf_agg fs sz al :
    al_ok A al -> 0 < sz -> (al | sz) ->
    (forall o t, In (o, t) fs -> wf A t /\ 0 <= o /\ o + size_of t <= sz /\
                                (align_of t | o) /\ (align_of t | al)) ->
    ForallOrdPairs (fun x y => apart (fst x) (size_of (snd x)) (fst y) (size_of (snd y))) fs ->
    wf A (TAgg fs sz al)
| wf_opt t off sz al :
    al_ok A al -> (al | sz) -> wf A t -> 1 <= off -> off + size_of t <= sz ->
    (align_of t | off) -> (align_of t | al) -> wf A (TOpt t off sz al)
| wf_var ts off sz al :
    al_ok A al -> (al | sz) -> 1 <= off -> 1 <= sz -> (length ts < 255)%nat ->
    (forall t, In t ts -> wf A t /\ off + size_of t <= sz /\ (align_of t | off) /\ (align_of t | al)) ->
    wf A (TVar ts off sz al)
| wf_uniq n : wf A (TUniq n)
| wf_vec w ix n : In w [4; 8]%nat -> wf A (TVec w ix n)
| wf_str : wf A TStr
| wf_cstr : wf A TCStr
| wf_hash n : wf A (THash n).
Definition wf_env (A : Z) (env : list ty) : Prop := (8 | A) /\ 0 < A /\ Forall (wf A) env.

(* Everything an event talks about is inside [lo, hi) and aligned. *)
Definition in_buffer (lo hi : Z) (e : ev) : Prop :=
  match e with
  | Rd a n => lo <= a /\ a + n <= hi
  | PtrAt s p sz al => lo <= s /\ s + 8 <= hi /\
      match p with None => True | Some q => lo <= q /\ q + sz <= hi /\ q mod al = 0 end
  | Res _ => False
  | Blk _ a n al => lo <= a /\ a + n <= hi /\ a mod al = 0
  end.
(* The same event in a buffer that was moved by d bytes. *)
Definition moved (d : Z) (e : ev) : ev :=
  match e with
  | Rd a n => Rd (a + d) n
  | PtrAt s p sz al => PtrAt (s + d) match p with None => None | Some q => Some (q + d) end sz al
  | Res a => Res (a + d)
  | Blk ix a n al => Blk ix (a + d) n al
  end.

(* types without generic_cstring *)
Inductive cstr_free : ty -> Prop :=
| cf_int w : cstr_free (TInt w)
| cf_raw w : cstr_free (TRaw w)
| cf_ptr n : cstr_free (TPtr n)
| cf_agg fs sz al : Forall (fun ft => cstr_free (snd ft)) fs -> cstr_free (TAgg fs sz al)
| cf_opt t off sz al : cstr_free t -> cstr_free (TOpt t off sz al)
| cf_var ts off sz al : Forall cstr_free ts -> cstr_free (TVar ts off sz al)
| cf_uniq n : cstr_free (TUniq n)
| cf_vec w ix n : cstr_free (TVec w ix n)
| cf_str : cstr_free TStr
| cf_hash n : cstr_free (THash n).

(* the type and everything it can refer to *)
Definition no_cstring (env : list ty) (t : ty) : Prop := cstr_free t /\ Forall cstr_free env.

(* A hash table as it is in memory, without tombstones: capacity + 9 control bytes; every slot is
   empty or full; as many full slots as the size says; the rest of the growth budget is left. *)
Definition clean_table (size cap growth : N) (ctrl : list N) : bool :=
  let n := N.to_nat cap in
  let slot_ok c := is_empty c || is_full c in
  (length ctrl =? n + 9)%nat &&
  forallb slot_ok (firstn n ctrl) &&
  (nth n ctrl 0 =? END)%N &&
  forallb (fun c => slot_ok c || (c =? END)%N) (skipn n ctrl) &&
  (size =? count is_full (firstn n ctrl))%N &&
  (size + growth =? N.of_nat (capacity_to_growth n))%N &&
  (negb (n =? 0)%nat || if list_eq_dec N.eq_dec ctrl (firstn 9 empty_group) then true else false).

(* Types as a C++ compiler lays them out. A: a common multiple of the alignments. *)
Definition types_ok (A : Z) (env : list ty) (t : ty) : Prop :=
  wf_env A env /\ A < 2 ^ 62 /\ wf A t /\ Forall (fun t => size_of t < 2 ^ 62) (t :: env).

(* The object graph at address a: contents v, events tr. *)
Definition graph_at (env : list ty) (be rel : bool) (src : mem) (f : nat) (t : ty) (a : Z) (v : val) (tr : list ev) : Prop :=
  dec env (plain be src rel None clean_table) f t a = Some (v, tr) /\ disjoint_blocks tr /\ pointers_fit tr.
(* The object graph at address a of a buffer b loaded at B. *)
Definition image_at (env : list ty) (be : bool) (B : Z) (b : list N) (tab : N -> N -> N -> list N -> bool)
  (f : nat) (t : ty) (a : Z) (v : val) (tr : list ev) : Prop :=
  dec env (plain be (at_base B b) true (Some (B, B + Z.of_nat (length b))) tab) f t a = Some (v, tr).
(* every address holds a byte: reading the source never fails *)
Definition total_mem (src : mem) : Prop := forall z, exists b, src z = Some b /\ (b < 256)%N.

(* Types whose objects are nested at most k deep: no recursion through owning members. *)
Inductive nesting (env : list ty) : nat -> ty -> Prop :=
| ne_int k w : nesting env (S k) (TInt w)
| ne_raw k w : nesting env (S k) (TRaw w)
| ne_ptr k n : nesting env (S k) (TPtr n)
| ne_agg k fs sz al : Forall (fun ft => nesting env k (snd ft)) fs -> nesting env (S k) (TAgg fs sz al)
| ne_opt k t off sz al : nesting env k t -> nesting env (S k) (TOpt t off sz al)
| ne_var k ts off sz al : Forall (nesting env k) ts -> nesting env (S k) (TVar ts off sz al)
| ne_uniq k n : nesting env k (tyof env n) -> nesting env (S k) (TUniq n)
| ne_vec k w ix n : nesting env k (tyof env n) -> nesting env (S k) (TVec w ix n)
| ne_str k : nesting env (S k) TStr
| ne_cstr k : nesting env (S k) TCStr
| ne_hash k n : nesting env k (tyof env n) -> nesting env (S k) (THash n).
