(* Proofs about reflection over the members of a struct. *)
From Coq Require Import String.
From Verif Require Import Base ReflModel ReflSpec.
Open Scope nat_scope.
Open Scope list_scope.

(* ---------------- aggregate initialization ---------------- *)
Lemma times_slots : forall f m, (forall k k', f k = Some k' -> k <= k' + m) ->
  forall n k k', times f n k = Some k' -> k <= k' + n * m.
Proof.
  intros f m F. induction n as [|n IH]; intros k k' E; cbn in E.
  - injection E as ->. lia.
  - destruct (f k) as [j|] eqn:J; [|discriminate]. apply F in J. apply IH in E. cbn. lia.
Qed.

Lemma init_slots : forall t k k', init t k = Some k' -> k <= k' + slots t.
Proof.
  induction t as [p d|n t IH]; intros k k' E; destruct k as [|k]; try lia; cbn [init] in E.
  - destruct p; [|discriminate]. injection E as ->. cbn. lia.
  - apply (times_slots _ _ IH) in E. cbn [slots]. lia.
Qed.

Lemma slots_all_cons : forall t ts, slots_all (t :: ts) = slots t + slots_all ts.
Proof. reflexivity. Qed.

Lemma init_all_slots : forall ts k k', init_all ts k = Some k' -> k <= k' + slots_all ts.
Proof.
  induction ts as [|t ts IH]; intros k k' E; cbn in E.
  - injection E as ->. lia.
  - destruct (init t k) as [j|] eqn:J; [|discriminate]. apply init_slots in J. apply IH in E.
    rewrite slots_all_cons. lia.
Qed.

Lemma compiles_slots : forall s k, compiles s k = true -> k <= slots_all (elements s).
Proof.
  unfold compiles. intros s k E. destruct (init_all (elements s) k) as [[|j]|] eqn:J; try discriminate.
  apply init_all_slots in J. lia.
Qed.

Lemma arity_impl_spec : forall s fuel n, n <= slots_all (elements s) -> slots_all (elements s) < n + fuel ->
  exists a, arity_impl fuel s n = Ok a /\ n <= a /\ compiles s (a + 1) = false
            /\ (forall k, n < k <= a -> compiles s k = true).
Proof.
  intros s. induction fuel as [|fuel IH]; intros n L F; [lia|]. cbn [arity_impl].
  destruct (compiles s (n + 1)) eqn:C.
  - pose proof (compiles_slots _ _ C). destruct (IH (n + 1)) as (a & -> & A & B & D); try lia.
    exists a. split; [reflexivity|]. split; [lia|]. split; [exact B|].
    intros k K. destruct (Nat.eq_dec k (n + 1)) as [->|]; [exact C|]. apply D. lia.
  - exists n. split; [reflexivity|]. split; [lia|]. split; [exact C|]. intros. lia.
Qed.

Lemma arity_spec : forall s, exists a, arity s = Ok a /\ compiles s (a + 1) = false
  /\ (forall k, 0 < k <= a -> compiles s k = true).
Proof.
  intros s. unfold arity. destruct (arity_impl_spec s (S (slots_all (elements s))) 0) as (a & E & _ & B & C); try lia.
  exists a. split; [exact E|]. split; [exact B|]. intros k K. apply C. lia.
Qed.

(* ---------------- structured bindings ---------------- *)
Lemma members_of_nil : forall c fs, members_of c fs = [] -> fs = [].
Proof. intros c [|f fs]; [reflexivity|]. cbn. discriminate. Qed.

Lemma bindable_members : forall cls c ms, bindable c cls = Some ms -> ms = members_from c cls.
Proof.
  induction cls as [|fs rest IH]; intros c ms E; cbn in E.
  - injection E as <-. reflexivity.
  - destruct (bindable (S c) rest) as [l|] eqn:B; [|discriminate]. apply IH in B. cbn [members_from]. rewrite <- B.
    destruct fs as [|f fs]; [injection E as <-; reflexivity|].
    destruct l; [|discriminate]. injection E as <-. rewrite app_nil_r. reflexivity.
Qed.

Lemma members_from_class : forall cls c m, In m (members_from c cls) -> c <= fst m.
Proof.
  induction cls as [|fs rest IH]; intros c m I; [destruct I|]. cbn in I. apply in_app_or in I. destruct I as [I|I].
  - apply in_map_iff in I. destruct I as (i & <- & _). cbn. lia.
  - apply IH in I. lia.
Qed.

Lemma NoDup_app_ : forall (A : Type) (l r : list A), NoDup l -> NoDup r -> (forall x, In x l -> ~ In x r) -> NoDup (l ++ r).
Proof.
  intros A l r Nl Nr D. induction Nl as [|x l X Nl IH]; [exact Nr|]. cbn. constructor.
  - intros I. apply in_app_or in I. destruct I as [I|I]; [auto|]. apply (D x); [left; reflexivity|exact I].
  - apply IH. intros y Y. apply D. right. exact Y.
Qed.

Lemma NoDup_map_pair : forall c l, NoDup l -> NoDup (map (fun i : nat => (c, i) : member) l).
Proof.
  intros c l N. induction N as [|x l X N IH]; cbn; constructor; [|exact IH].
  intros I. apply in_map_iff in I. destruct I as (y & E & I). injection E as ->. contradiction.
Qed.

Lemma members_from_NoDup : forall cls c, NoDup (members_from c cls).
Proof.
  induction cls as [|fs rest IH]; intros c; cbn; [constructor|]. apply NoDup_app_.
  - apply NoDup_map_pair, seq_NoDup.
  - apply IH.
  - intros m I J. apply members_from_class in J. apply in_map_iff in I. destruct I as (i & <- & _). cbn in J. lia.
Qed.

Lemma all_members_NoDup : forall s, NoDup (all_members s).
Proof. intros s. apply members_from_NoDup. Qed.

Lemma to_tuple_cases : forall s ms, to_tuple s = Tie ms ->
  ms = all_members s \/ (ms = [] /\ compiles s 1 = false).
Proof.
  intros s ms E. unfold to_tuple in E. destruct (arity_spec s) as (a & A & N & C). rewrite A in E.
  destruct (64 <? a); [discriminate|]. destruct (a =? 0) eqn:Z.
  - apply Nat.eqb_eq in Z. subst a. injection E as <-. right. split; [reflexivity|exact N].
  - destruct (bindable 0 (classes s)) as [l|] eqn:B; [|discriminate]. apply bindable_members in B.
    destruct (List.length l =? a); [|discriminate]. injection E as <-. left. exact B.
Qed.

(* ---------------- members with arrays, without bases ---------------- *)
Lemma arrays_empty : forall t, arrays t -> from_empty t = true.
Proof. intros t A. induction A; [reflexivity|exact IHA]. Qed.

Lemma arrays_slots : forall t, arrays t -> 0 < slots t.
Proof. intros t A. induction A; cbn; nia. Qed.

Lemma times_sub : forall f m, (forall k, f k = Some (k - m)) -> forall n k, times f n k = Some (k - n * m).
Proof.
  intros f m F. induction n as [|n IH]; intros k; cbn.
  - rewrite Nat.sub_0_r. reflexivity.
  - rewrite F, IH. f_equal. lia.
Qed.

Lemma arrays_init : forall t, arrays t -> forall k, init t k = Some (k - slots t).
Proof.
  intros t A. induction A as [|n t N A IH]; intros k; destruct k as [|k]; cbn [init].
  - reflexivity.
  - cbn. rewrite Nat.sub_0_r. reflexivity.
  - cbn [from_empty]. rewrite (arrays_empty _ A). reflexivity.
  - rewrite (times_sub _ _ IH). reflexivity.
Qed.

Lemma arrays_init_all : forall ts, Forall arrays ts -> forall k, init_all ts k = Some (k - slots_all ts).
Proof.
  intros ts A. induction A as [|t ts A As IH]; intros k; cbn [init_all].
  - cbn. rewrite Nat.sub_0_r. reflexivity.
  - rewrite (arrays_init _ A), IH, slots_all_cons. f_equal. lia.
Qed.

Lemma arrays_arity : forall s, s_bases s = [] -> Forall arrays (s_fields s) ->
  arity s = Ok (slots_all (s_fields s)).
Proof.
  intros s B A. destruct (arity_spec s) as (a & E & N & C). rewrite E. f_equal.
  assert (El : elements s = s_fields s) by (unfold elements; rewrite B; reflexivity).
  unfold compiles in N, C. rewrite El in N, C. rewrite (arrays_init_all _ A) in N.
  assert (U : a <= slots_all (s_fields s)).
  { destruct a as [|a]; [lia|]. specialize (C (S a) ltac:(lia)). rewrite (arrays_init_all _ A) in C.
    destruct (S a - slots_all (s_fields s)) eqn:Q; [lia|discriminate]. }
  destruct (a + 1 - slots_all (s_fields s)) eqn:Q; [discriminate|lia].
Qed.

Lemma members_from_one : forall fs, members_from 0 [fs] = members_of 0 fs.
Proof. intros. cbn. apply app_nil_r. Qed.

Lemma members_of_length : forall c fs, List.length (members_of c fs) = List.length fs.
Proof. intros. unfold members_of. rewrite map_length, seq_length. reflexivity. Qed.

Lemma slots_all_ge : forall ts, Forall arrays ts -> List.length ts <= slots_all ts
  /\ (slots_all ts = List.length ts <-> Forall (fun t => slots t = 1) ts).
Proof.
  intros ts A. induction A as [|t ts A As [IH1 IH2]]; [|rewrite slots_all_cons; cbn [List.length]].
  - cbn. split; [lia|]. split; intros; [constructor|reflexivity].
  - pose proof (arrays_slots _ A). split; [lia|]. split.
    + intros E. constructor; [lia|]. apply IH2. lia.
    + intros F. apply Forall_cons_iff in F. destruct F as [F1 F2]. apply IH2 in F2. lia.
Qed.

Lemma arrays_to_tuple : forall s, s_bases s = [] -> Forall arrays (s_fields s) -> List.length (s_fields s) <= 64 ->
  (Forall (fun t => slots t = 1) (s_fields s) -> to_tuple s = Tie (all_members s))
  /\ (~ Forall (fun t => slots t = 1) (s_fields s) -> to_tuple s = Ill).
Proof.
  intros s B A L. unfold to_tuple, all_members. rewrite (arrays_arity _ B A). unfold classes. rewrite B. cbn [app].
  destruct (slots_all_ge _ A) as [G1 G2]. rewrite members_from_one.
  assert (Bi : bindable 0 [s_fields s] = Some (members_of 0 (s_fields s))).
  { cbn. destruct (s_fields s); reflexivity. }
  rewrite Bi, members_of_length. split.
  - intros F. apply G2 in F. rewrite F. rewrite (proj2 (Nat.ltb_ge 64 _) L).
    destruct (List.length (s_fields s) =? 0) eqn:Z.
    + apply Nat.eqb_eq in Z. destruct (s_fields s); [reflexivity|discriminate].
    + rewrite Nat.eqb_refl. reflexivity.
  - intros F. destruct (64 <? slots_all (s_fields s)); [reflexivity|].
    assert (N : slots_all (s_fields s) <> List.length (s_fields s)) by (intros E; apply F, G2, E).
    destruct (slots_all (s_fields s) =? 0) eqn:Z; [apply Nat.eqb_eq in Z; lia|].
    rewrite (proj2 (Nat.eqb_neq _ _)); [reflexivity|]. auto.
Qed.

Lemma plain_arrays : forall s, plain s -> s_bases s = [] /\ Forall arrays (s_fields s) /\ Forall (fun t => slots t = 1) (s_fields s).
Proof.
  intros s [B F]. split; [exact B|]. split; eapply Forall_impl; try exact F; cbn; intros t E; rewrite E; constructor.
Qed.

Lemma plain_to_tuple : forall s, plain s -> List.length (s_fields s) <= 64 -> to_tuple s = Tie (all_members s).
Proof.
  intros s P L. destruct (plain_arrays s P) as (B & A & O). apply (proj1 (arrays_to_tuple s B A L) O).
Qed.

Lemma too_many : forall s, plain s -> 64 < List.length (s_fields s) -> to_tuple s = Ill.
Proof.
  intros s P L. destruct (plain_arrays s P) as (B & A & O). unfold to_tuple. rewrite (arrays_arity _ B A).
  rewrite (proj2 (proj2 (slots_all_ge _ A)) O). rewrite (proj2 (Nat.ltb_lt 64 _) L). reflexivity.
Qed.

(* ---------------- when nothing is listed ---------------- *)
Lemma init_all_0 : forall ts, init_all ts 0 = if forallb from_empty ts then Some 0 else None.
Proof.
  induction ts as [|t ts IH]; [reflexivity|]. cbn [init_all forallb].
  replace (init t 0) with (if from_empty t then Some 0 else None) by (destruct t; reflexivity).
  destruct (from_empty t); [exact IH|reflexivity].
Qed.

Lemma silent_iff : forall s, to_tuple s = Tie [] <-> all_members s = [] /\ to_tuple s <> Ill \/ compiles s 1 = false.
Proof.
  intros s. split.
  - intros E. destruct (to_tuple_cases s _ E) as [M|[_ M]]; [left|right; exact M]. split; [symmetry; exact M|congruence].
  - intros [[E N]|C].
    + destruct (to_tuple s) as [ms|] eqn:T; [|contradiction]. destruct (to_tuple_cases s _ T) as [M|[M _]]; subst; [|reflexivity].
      rewrite E. reflexivity.
    + unfold to_tuple. destruct (arity_spec s) as (a & -> & N & A). destruct a as [|a].
      * reflexivity.
      * specialize (A 1 ltac:(lia)). congruence.
Qed.

Lemma silent_values : forall p d rest,
  to_tuple {| s_bases := []; s_fields := FVal p d :: rest |} = Tie [] <-> p = false \/ forallb from_empty rest = false.
Proof.
  intros p d rest. rewrite silent_iff. unfold all_members. cbn [s_bases s_fields app]. rewrite members_from_one.
  unfold compiles, elements. cbn [s_bases s_fields map app init_all init].
  destruct p; cbn iota.
  - rewrite init_all_0. destruct (forallb from_empty rest); split; auto.
    + intros [[E _]|E]; discriminate.
    + intros [E|E]; discriminate.
  - split; auto.
Qed.

(* ---------------- visiting ---------------- *)
Section Visit.
Context {V : Type}.

Lemma all_equal_map : forall eqv (a b : object V) ms,
  all_equal eqv (combine (map a ms) (map b ms)) = forallb (fun m => eqv (a m) (b m)) ms.
Proof.
  intros eqv a b ms. induction ms as [|m ms IH]; [reflexivity|]. cbn. destruct (eqv (a m) (b m)); [exact IH|reflexivity].
Qed.
End Visit.

(* ---------------- member_index ---------------- *)
Lemma index_miss : forall ty addr m ms i f, (forall x, In x ms -> (ty x, addr x) <> (ty m, addr m)) ->
  snd (fold_left (index_step ty addr m) ms (i, f)) = f.
Proof.
  intros ty addr m. induction ms as [|x ms IH]; intros i f D; [reflexivity|]. cbn [fold_left index_step].
  destruct ((ty x =? ty m) && (addr x =? addr m))%N%bool eqn:Q.
  - apply andb_true_iff in Q. destruct Q as [Q1 Q2]. apply N.eqb_eq in Q1, Q2.
    exfalso. apply (D x); [left; reflexivity|]. congruence.
  - apply IH. intros y Y. apply D. right. exact Y.
Qed.

Lemma index_hit : forall ty addr m ms k i f,
  nth_error ms k = Some m -> NoDup ms ->
  (forall x y, In x ms -> In y ms -> (ty x, addr x) = (ty y, addr y) -> x = y) ->
  (i + N.of_nat (List.length ms) < 4294967296)%N ->
  snd (fold_left (index_step ty addr m) ms (i, f)) = (i + N.of_nat k)%N.
Proof.
  intros ty addr m. induction ms as [|x ms IH]; intros k i f E N D B; [destruct k; discriminate|].
  apply NoDup_cons_iff in N. destruct N as [N1 N2]. cbn [fold_left index_step]. destruct k as [|k].
  - injection E as ->. rewrite !N.eqb_refl. cbn [andb]. rewrite index_miss; [lia|].
    intros y Y Q. apply N1. rewrite <- (D y m); [exact Y|right; exact Y|left; reflexivity|exact Q].
  - cbn [nth_error] in E. pose proof (nth_error_In _ _ E) as I.
    cbn [List.length] in B. rewrite (N.mod_small (i + 1)) by lia.
    destruct ((ty x =? ty m) && (addr x =? addr m))%N%bool eqn:Q.
    + apply andb_true_iff in Q. destruct Q as [Q1 Q2]. apply N.eqb_eq in Q1, Q2. exfalso. apply N1.
      rewrite (D x m); [exact I|left; reflexivity|right; exact I|congruence].
    + rewrite (IH k); [lia|exact E|exact N2| |lia].
      intros a b A1 B1. apply D; right; assumption.
Qed.

Lemma all_members_length : forall s, s_bases s = [] -> List.length (all_members s) = List.length (s_fields s).
Proof.
  intros s B. unfold all_members. rewrite B. cbn [app]. rewrite members_from_one. apply members_of_length.
Qed.

Lemma plain_member : forall s i, s_bases s = [] -> i < List.length (s_fields s) -> nth_error (all_members s) i = Some (0, i).
Proof.
  intros s i B L. unfold all_members. rewrite B. cbn [app]. rewrite members_from_one. unfold members_of.
  assert (H : forall n st i, i < n -> nth_error (map (fun j : nat => (0, j) : member) (seq st n)) i = Some (0, st + i)).
  { induction n as [|n IH]; intros st j J; [lia|]. cbn. destruct j as [|j]; [cbn; rewrite Nat.add_0_r; reflexivity|].
    cbn [nth_error]. rewrite IH by lia. do 2 f_equal. lia. }
  apply H. exact L.
Qed.

(* ---------------- printing ---------------- *)
Open Scope string_scope.

Lemma app_assoc_s : forall a b c : string, (a ++ b) ++ c = a ++ (b ++ c).
Proof. induction a as [|x a IH]; intros; cbn; [reflexivity|]. rewrite IH. reflexivity. Qed.
Lemma app_nil_s : forall a : string, a ++ "" = a.
Proof. induction a as [|x a IH]; cbn; [reflexivity|]. rewrite IH. reflexivity. Qed.

Fixpoint tail_join (sep : string) (l : list string) : string :=
  match l with
  | [] => ""
  | x :: l => sep ++ x ++ tail_join sep l
  end.
Lemma join_cons : forall sep l x, join sep (x :: l) = x ++ tail_join sep l.
Proof.
  intros sep. induction l as [|y l IH]; intros x.
  - cbn. rewrite app_nil_s. reflexivity.
  - change (join sep (x :: y :: l)) with (x ++ sep ++ join sep (y :: l)). rewrite IH. reflexivity.
Qed.

Lemma skip_nth : forall (names : list string) i, (i < List.length names)%nat ->
  skipn i names = nth i names "" :: skipn (i + 1) names.
Proof.
  induction names as [|n names IH]; intros i L; [cbn in L; lia|]. destruct i as [|i]; [reflexivity|].
  cbn in L. cbn [skipn nth Nat.add]. apply IH. lia.
Qed.

Lemma print_fields_tail : forall names vals i out,
  print_fields names vals i false out = out ++ tail_join ", " (labelled (skipn i names) vals).
Proof.
  intros names. induction vals as [|v vals IH]; intros i out; cbn [print_fields].
  - cbn. rewrite app_nil_s. reflexivity.
  - destruct (i <? List.length names)%nat eqn:L.
    + apply Nat.ltb_lt in L. rewrite IH. rewrite (skip_nth _ _ L). cbn [labelled tail_join].
      rewrite !app_assoc_s. reflexivity.
    + apply Nat.ltb_ge in L. rewrite IH. rewrite !skipn_all2 by lia. cbn [labelled tail_join].
      rewrite !app_assoc_s. reflexivity.
Qed.

Lemma print_struct_spec : forall names vals, print_struct names vals = "{" ++ join ", " (labelled names vals) ++ "}".
Proof.
  intros names vals. unfold print_struct. destruct vals as [|v vals]; [reflexivity|]. cbn [print_fields].
  destruct names as [|n names].
  - cbn [List.length Nat.ltb Nat.leb]. rewrite print_fields_tail. cbn [skipn Nat.add]. cbn [labelled]. rewrite join_cons.
    rewrite !app_assoc_s. reflexivity.
  - change (0 <? List.length (n :: names))%nat with true. cbn iota. rewrite print_fields_tail.
    cbn [skipn Nat.add nth labelled]. rewrite join_cons. rewrite !app_assoc_s. reflexivity.
Qed.

Lemma print_elements_tail : forall vals out,
  print_elements vals false out = out ++ tail_join ("," ++ newline ++ "  ") vals.
Proof.
  induction vals as [|v vals IH]; intros out; cbn [print_elements tail_join].
  - rewrite app_nil_s. reflexivity.
  - rewrite IH. rewrite !app_assoc_s. reflexivity.
Qed.

Lemma print_vector_spec : forall vals,
  print_vector vals = "[" ++ newline ++ "  " ++ join ("," ++ newline ++ "  ") vals ++ newline ++ "]".
Proof.
  intros [|v vals]; [reflexivity|]. unfold print_vector. cbn [print_elements]. rewrite print_elements_tail, join_cons.
  rewrite !app_assoc_s. reflexivity.
Qed.
