From Verif Require Import Base Bytes FnvModel FnvProofs ArithModel HeaderModel HeaderProofs HashModel SerialModel SerialSpec SerialMem TwinSpec.
Local Open Scope Z_scope.

Section P.
Variable env : list ty.
Variable A : Z.
Hypothesis Hsz : Forall (fun t => wf A t) env.
Variables s1 s2 : side.
Variable blocks : list (Z * Z * Z).
Hypothesis Hap : apart_blocks blocks.
Variable be : bool.
Notation corr := (corr blocks).
Notation stray1 := (stray1 blocks).
Notation stray2 := (stray2 blocks).
Notation same_ptr := (same_ptr blocks).

(* ---------------- correspondence of addresses ---------------- *)
Lemma corr_eq q1 q2 r1 r2 : corr q1 q2 0 -> corr r1 r2 0 -> (q1 =? r1) = (q2 =? r2).
Proof.
  intros (b1 & b2 & n & k & I & K & _ & -> & ->) (c1 & c2 & m & j & I' & J & _ & -> & ->).
  destruct (Hap _ _ I I') as [E|[P Q]].
  - injection E as -> -> ->. lia.
  - unfold apart in *. lia.
Qed.
Lemma corr_0 q1 q2 n : 0 <= n -> corr q1 q2 n -> corr q1 q2 0.
Proof. intros N (b1 & b2 & l & k & I & K & L & -> & ->). exists b1, b2, l, k. repeat split; try lia. exact I. Qed.
Lemma stray_neq1 q1 q2 r : corr q1 q2 0 -> stray1 r -> (q1 =? r) = false.
Proof. intros (b1 & b2 & l & k & I & K & _ & -> & ->) S. specialize (S _ _ _ I). lia. Qed.
Lemma stray_neq2 q1 q2 r : corr q1 q2 0 -> stray2 r -> (q2 =? r) = false.
Proof. intros (b1 & b2 & l & k & I & K & _ & -> & ->) S. specialize (S _ _ _ I). lia. Qed.

Definition off_rel (e1 e2 : Z * Z) : Prop := corr (fst e1) (fst e2) 0 /\ snd e1 = snd e2.

Lemma find_rel l1 l2 q1 q2 : Forall2 off_rel l1 l2 -> same_ptr (Some q1) (Some q2) -> find_off q1 l1 = find_off q2 l2.
Proof.
  intros F P. unfold find_off. induction F as [|e1 e2 l1 l2 [C E] F IH]; [reflexivity|]. cbn [find].
  assert (Q : (fst e1 =? q1) = (fst e2 =? q2)).
  { inversion P; subst; [apply corr_eq; assumption|]. rewrite (stray_neq1 _ _ _ C), (stray_neq2 _ _ _ C) by assumption. reflexivity. }
  rewrite Q. destruct (fst e2 =? q2); [rewrite E; reflexivity|exact IH].
Qed.

(* ranges: corresponding ones, and empty ones outside of everything *)
Inductive rngs_rel : list (Z * Z * Z) -> list (Z * Z * Z) -> Prop :=
| rr_nil : rngs_rel [] []
| rr_pair a1 a2 p n l1 l2 : 0 <= n -> corr a1 a2 n -> rngs_rel l1 l2 -> rngs_rel ((a1, p, n) :: l1) ((a2, p, n) :: l2)
| rr_left a p l1 l2 : stray1 a -> rngs_rel l1 l2 -> rngs_rel ((a, p, 0) :: l1) l2
| rr_right a p l1 l2 : stray2 a -> rngs_rel l1 l2 -> rngs_rel l1 ((a, p, 0) :: l2).

Lemma rngs_app l1 l2 m1 m2 : rngs_rel l1 l2 -> rngs_rel m1 m2 -> rngs_rel (l1 ++ m1) (l2 ++ m2).
Proof. intros H M. induction H; cbn; [exact M|constructor; assumption..]. Qed.

Definition pstep (p : Z) (acc : option (Z * Z * Z)) (r : Z * Z * Z) : option (Z * Z * Z) :=
  if fst (fst r) <=? p
  then match acc with
       | Some q => if fst (fst q) <? fst (fst r) then Some r else acc
       | None => Some r
       end
  else acc.
Definition hit (p : Z) (acc : option (Z * Z * Z)) : option Z :=
  match acc with
  | Some r => if in_range p r then Some (snd (fst r) + p - fst (fst r)) else None
  | None => None
  end.
Lemma resolve_range_fold s p : resolve_range s p = hit p (fold_left (pstep p) (s_rngs s) None).
Proof. reflexivity. Qed.

(* a range that does not reach into [b, b + n) *)
Definition away (b n : Z) (acc : option (Z * Z * Z)) : Prop :=
  match acc with
  | None => True
  | Some r => 0 <= snd r /\ (fst (fst r) < b \/ b + n <= fst (fst r)) /\ apart (fst (fst r)) (snd r) b n
  end.
Inductive acc_rel (b1 b2 n : Z) : option (Z * Z * Z) -> option (Z * Z * Z) -> Prop :=
| ar_in k p m : 0 <= k < n -> 0 <= m -> acc_rel b1 b2 n (Some (b1 + k, p, m)) (Some (b2 + k, p, m))
| ar_out x y : away b1 n x -> away b2 n y -> acc_rel b1 b2 n x y.

Lemma away_hit b n k acc : 0 <= k < n -> away b n acc -> hit (b + k) acc = None.
Proof.
  intros K W. destruct acc as [[[a p] m]|]; [|reflexivity]. destruct W as (M & W & X). cbn [fst snd] in *. unfold hit, in_range, apart in *.
  destruct ((a <=? b + k) && (b + k <? a + m)) eqn:E; [|reflexivity]. exfalso. lia.
Qed.
Lemma acc_hit b1 b2 n k x y : 0 <= k < n -> acc_rel b1 b2 n x y -> hit (b1 + k) x = hit (b2 + k) y.
Proof.
  intros K R. destruct R as [j p m J M|x y X Y].
  - unfold hit, in_range; cbn [fst snd].
    replace ((b1 + j <=? b1 + k) && (b1 + k <? b1 + j + m)) with ((b2 + j <=? b2 + k) && (b2 + k <? b2 + j + m)) by lia.
    destruct (_ && _); [|reflexivity]. f_equal. lia.
  - rewrite !(away_hit _ n) by assumption. reflexivity.
Qed.
Lemma pstep_away b n k acc r : 0 <= k < n -> away b n acc -> away b n (Some r) -> away b n (pstep (b + k) acc r).
Proof.
  intros K X Y. unfold pstep. destruct (_ <=? _); [|exact X]. destruct acc as [q|]; [|exact Y]. destruct (_ <? _); assumption.
Qed.
Lemma pstep_in_away b n k j p m r : 0 <= k < n -> 0 <= j < n -> away b n (Some r) ->
  pstep (b + k) (Some (b + j, p, m)) r = Some (b + j, p, m).
Proof.
  intros K J (M & W & X). unfold pstep, apart in *. cbn [fst snd] in *. destruct (Z.leb_spec (fst (fst r)) (b + k)); [|reflexivity].
  destruct (Z.ltb_spec (b + j) (fst (fst r))); [|reflexivity]. exfalso. lia.
Qed.
Lemma pstep_away_in b n k j p m acc : 0 <= k < n -> 0 <= j < n -> away b n acc -> 
  (match acc with Some r => fst (fst r) <= b + k | None => True end) ->
  pstep (b + k) acc (b + j, p, m) = if j <=? k then Some (b + j, p, m) else acc.
Proof.
  intros K J X L. unfold pstep. cbn [fst snd]. destruct (Z.leb_spec (b + j) (b + k)); destruct (Z.leb_spec j k); try lia; [|reflexivity].
  destruct acc as [r|]; [|reflexivity]. destruct X as (M & W & X). cbn [fst snd] in *. unfold apart in *.
  destruct (Z.ltb_spec (fst (fst r)) (b + j)); [reflexivity|]. exfalso. lia.
Qed.
Lemma pstep_below p acc r : (match acc with Some r => fst (fst r) <= p | None => True end) ->
  match pstep p acc r with Some r => fst (fst r) <= p | None => True end.
Proof.
  intros L. unfold pstep. destruct (Z.leb_spec (fst (fst r)) p); [|exact L]. destruct acc as [q|]; [|exact H]. destruct (_ <? _); assumption.
Qed.

Lemma fold_rel b1 b2 n k : In (b1, b2, n) blocks -> 0 <= k < n -> forall l1 l2, rngs_rel l1 l2 -> forall x y, acc_rel b1 b2 n x y ->
  (match x with Some r => fst (fst r) <= b1 + k | None => True end) ->
  (match y with Some r => fst (fst r) <= b2 + k | None => True end) ->
  acc_rel b1 b2 n (fold_left (pstep (b1 + k)) l1 x) (fold_left (pstep (b2 + k)) l2 y).
Proof.
  intros I K l1 l2 H. induction H as [|a1 a2 p m l1 l2 M (c1 & c2 & len & j & I' & J & L & -> & ->) H IH|a p l1 l2 St H IH|a p l1 l2 St H IH];
    intros x y R X Y; cbn [fold_left].
  - exact R.
  - apply IH; [|apply pstep_below; exact X|apply pstep_below; exact Y]. destruct (Hap _ _ I I') as [E|[P Q]].
    + injection E as <- <- <-. destruct R as [i q w Hi W|x y Wx Wy].
      * unfold pstep. cbn [fst snd].
        replace (b1 + j <=? b1 + k) with (b2 + j <=? b2 + k) by lia. replace (b1 + i <? b1 + j) with (b2 + i <? b2 + j) by lia.
        destruct (_ <=? _); [destruct (_ <? _)|]; apply ar_in; lia.
      * rewrite !(pstep_away_in _ n) by assumption. destruct (j <=? k); [apply ar_in; lia|apply ar_out; assumption].
    + assert (W1 : away b1 n (Some (c1 + j, p, m))) by (cbn; unfold apart in *; lia).
      assert (W2 : away b2 n (Some (c2 + j, p, m))) by (cbn; unfold apart in *; lia).
      destruct R as [i q w Hi W|x y Wx Wy].
      * rewrite !(pstep_in_away _ n) by assumption. apply ar_in; assumption.
      * apply ar_out; apply pstep_away; assumption.
  - apply IH; [|apply pstep_below; exact X|exact Y]. specialize (St _ _ _ I).
    assert (W1 : away b1 n (Some (a, p, 0))) by (cbn; unfold apart; lia).
    destruct R as [i q w Hi W|x y Wx Wy].
    * rewrite (pstep_in_away _ n) by assumption. apply ar_in; assumption.
    * apply ar_out; [apply pstep_away|]; assumption.
  - apply IH; [|exact X|apply pstep_below; exact Y]. specialize (St _ _ _ I).
    assert (W1 : away b2 n (Some (a, p, 0))) by (cbn; unfold apart; lia).
    destruct R as [i q w Hi W|x y Wx Wy].
    * rewrite (pstep_in_away _ n) by assumption. apply ar_in; assumption.
    * apply ar_out; [|apply pstep_away]; assumption.
Qed.

Lemma fold_none (P : Z * Z * Z -> Prop) p l : Forall P l -> forall x, (match x with Some r => P r | None => True end) ->
  match fold_left (pstep p) l x with Some r => P r | None => True end.
Proof.
  intros F. induction F as [|r l Hr F IH]; intros x X; cbn [fold_left]; [exact X|]. apply IH. unfold pstep.
  destruct (_ <=? _); [|exact X]. destruct x as [q|]; [|exact Hr]. destruct (_ <? _); assumption.
Qed.

Lemma stray_hit1 l1 l2 q : rngs_rel l1 l2 -> stray1 q -> hit q (fold_left (pstep q) l1 None) = None.
Proof.
  intros H S.
  assert (G : Forall (fun r => in_range q r = false) l1).
  { induction H as [|a1 a2 p m l1 l2 M (c1 & c2 & len & j & I' & J & L & -> & ->) H IH|a p l1 l2 St H IH|a p l1 l2 St H IH]; 
      [constructor|constructor; [|apply IH; auto]|constructor; [|apply IH; auto]|apply IH; auto]; cbn; [specialize (S _ _ _ I'); lia|lia]. }
  pose proof (fold_none _ q _ G None I) as F. unfold hit. destruct (fold_left _ _ _); [|reflexivity]. rewrite F. reflexivity.
Qed.
Lemma stray_hit2 l1 l2 q : rngs_rel l1 l2 -> stray2 q -> hit q (fold_left (pstep q) l2 None) = None.
Proof.
  intros H S.
  assert (G : Forall (fun r => in_range q r = false) l2).
  { induction H as [|a1 a2 p m l1 l2 M (c1 & c2 & len & j & I' & J & L & -> & ->) H IH|a p l1 l2 St H IH|a p l1 l2 St H IH]; 
      [constructor|constructor; [|apply IH; auto]|apply IH; auto|constructor; [|apply IH; auto]]; cbn; [specialize (S _ _ _ I'); lia|lia]. }
  pose proof (fold_none _ q _ G None I) as F. unfold hit. destruct (fold_left _ _ _); [|reflexivity]. rewrite F. reflexivity.
Qed.

Lemma range_rel t1 t2 q1 q2 : rngs_rel (s_rngs t1) (s_rngs t2) -> same_ptr (Some q1) (Some q2) -> resolve_range t1 q1 = resolve_range t2 q2.
Proof.
  intros H P. rewrite !resolve_range_fold. inversion P as [|x y C|x y S1 S2|?|?]; subst.
  - destruct C as (b1 & b2 & n & k & I & K & _ & -> & ->). apply acc_hit with (n := n); [exact K|].
    apply fold_rel; [assumption..| | |]; cbn; auto. apply ar_out; exact Logic.I.
  - rewrite (stray_hit1 _ _ _ H S1), (stray_hit2 _ _ _ H S2). reflexivity.
Qed.

(* ---------------- buffers that differ only where they will be overwritten ---------------- *)
Definition rr {X Y} (P : X -> Y -> Prop) (r1 : res X) (r2 : res Y) : Prop :=
  match r1, r2 with
  | Ok x, Ok y => P x y
  | UB, UB | Throw, Throw | Fuel, Fuel => True
  | _, _ => False
  end.
Lemma rr_bind {X Y U V} (P : X -> Y -> Prop) (Q : U -> V -> Prop) r1 r2 k1 k2 :
  rr P r1 r2 -> (forall x y, P x y -> rr Q (k1 x) (k2 y)) -> rr Q (bind r1 k1) (bind r2 k2).
Proof. intros R K. destruct r1, r2; cbn in *; try contradiction; auto. Qed.
Lemma rr_mono {X Y} (P Q : X -> Y -> Prop) r1 r2 : rr P r1 r2 -> (forall x y, P x y -> Q x y) -> rr Q r1 r2.
Proof. intros R K. destruct r1, r2; cbn in *; auto. Qed.

Definition beq (D : Z -> Prop) (b1 b2 : list N) : Prop :=
  length b1 = length b2 /\ forall p, (p < length b1)%nat -> D (Z.of_nat p) \/ nth_error b1 p = nth_error b2 p.

(* pending pointers: corresponding ones, and strays that will stay null *)
Inductive pend_rel : list (option Z * Z) -> list (option Z * Z) -> Prop :=
| pr_nil : pend_rel [] []
| pr_pair q1 q2 pos l1 l2 : 0 <= pos -> same_ptr (Some q1) (Some q2) -> pend_rel l1 l2 -> pend_rel ((Some q1, pos) :: l1) ((Some q2, pos) :: l2)
| pr_left q pos l1 l2 : stray1 q -> pend_rel l1 l2 -> pend_rel ((Some q, pos) :: l1) l2
| pr_right q pos l1 l2 : stray2 q -> pend_rel l1 l2 -> pend_rel l1 ((Some q, pos) :: l2).
Lemma pend_app l1 l2 m1 m2 : pend_rel l1 l2 -> pend_rel m1 m2 -> pend_rel (l1 ++ m1) (l2 ++ m2).
Proof. intros H M. induction H; cbn; [exact M|constructor; assumption..]. Qed.

Record sim (D : Z -> Prop) (t1 t2 : st) : Prop := {
  sim_buf : beq D (s_buf t1) (s_buf t2);
  sim_offs : Forall2 off_rel (s_offs t1) (s_offs t2);
  sim_rngs : rngs_rel (s_rngs t1) (s_rngs t2);
  sim_pend : pend_rel (s_pend t1) (s_pend t2) }.

Lemma sim_mono (D D' : Z -> Prop) t1 t2 : sim D t1 t2 -> (forall p, 0 <= p -> D p -> D' p) -> sim D' t1 t2.
Proof.
  intros [[L B] O R P] K. split; try assumption. split; [exact L|]. intros p H. destruct (B p H) as [X|X]; [left; apply K; [lia|exact X]|right; exact X].
Qed.

Definition over (pos n : Z) (p : Z) : Prop := pos <= p < pos + n.

Lemma patch_sim (D : Z -> Prop) t1 t2 pos d : 0 <= pos -> sim (fun p => D p \/ over pos (Z.of_nat (length d)) p) t1 t2 ->
  rr (sim D) (patch t1 pos d) (patch t2 pos d).
Proof.
  intros N [[L B] O R P]. unfold patch, buf_write_at. rewrite L. destruct (Nat.leb_spec (Z.to_nat pos + length d) (length (s_buf t2))) as [Q|Q]; [|exact Logic.I].
  cbn. split; cbn; try assumption. split; [rewrite !put_length by lia; exact L|].
  intros p H. rewrite put_length in H by lia. rewrite !nth_error_put by lia.
  destruct (Nat.leb_spec (Z.to_nat pos) p) as [X|X]; cbn [andb]; [destruct (Nat.ltb_spec p (Z.to_nat pos + length d)) as [Y|Y]; [right; reflexivity|]|];
    (destruct (B p H) as [[Z|Z]|Z]; [left; exact Z|unfold over in Z; lia|right; exact Z]).
Qed.

Lemma of_int_len w x : length (of_int be w x) = w.
Proof. unfold of_int. destruct be; [rewrite rev_length|]; apply le_enc_length. Qed.

Lemma int_sim (D : Z -> Prop) t1 t2 pos w x : 0 <= pos -> sim (fun p => D p \/ over pos (Z.of_nat w) p) t1 t2 ->
  rr (sim D) (patch_int be t1 pos w x) (patch_int be t2 pos w x).
Proof. intros N S. apply patch_sim; [exact N|]. rewrite of_int_len. exact S. Qed.
Lemma off_sim (D : Z -> Prop) t1 t2 pos o : 0 <= pos -> sim (fun p => D p \/ over pos 8 p) t1 t2 -> rr (sim D) (patch_off be t1 pos o) (patch_off be t2 pos o).
Proof. intros N S. apply int_sim; assumption. Qed.

Lemma append_sim (D H : Z -> Prop) t1 t2 d1 d2 al : sim D t1 t2 -> length d1 = length d2 ->
  (forall k, (k < length d1)%nat -> H (Z.of_nat k) \/ nth_error d1 k = nth_error d2 k) ->
  exists u1 u2 start, append t1 d1 al = (u1, start) /\ append t2 d2 al = (u2, start) /\ 0 <= start /\
    sim (fun p => D p \/ H (p - start)) u1 u2.
Proof.
  intros [[L B] O R P] Ld Bd. unfold append, buf_write. rewrite L, Ld.
  match goal with |- context [if ?c then ?a else ?b] => set (start := if c then a else b) end. cbn [fst snd].
  do 2 eexists; exists (Z.of_nat start). split; [reflexivity|]. split; [reflexivity|]. split; [lia|]. split; cbn [s_buf s_offs s_rngs s_pend]; try assumption.
  set (z := zeros _).
  assert (Lz : length (s_buf t2 ++ z) = length (s_buf t1 ++ z)) by (rewrite !app_length; lia).
  assert (F : (start + length d2 <= length (s_buf t2 ++ z))%nat) by (unfold z; rewrite app_length, zeros_length; lia).
  split; [rewrite !put_length by lia; lia|]. intros p Hp. rewrite put_length in Hp by lia. rewrite !nth_error_put by lia. rewrite Ld.
  destruct (Nat.leb_spec start p) as [X|X]; cbn [andb]; [destruct (Nat.ltb_spec p (start + length d2)) as [Y|Y]|].
  - destruct (Bd (p - start)%nat) as [Q|Q]; [lia|left; right|right; exact Q]. replace (Z.of_nat p - Z.of_nat start) with (Z.of_nat (p - start)) by lia. exact Q.
  - destruct (Nat.lt_ge_cases p (length (s_buf t1))) as [W|W].
    + rewrite !nth_error_app1 by lia. destruct (B p W) as [Q|Q]; [left; left; exact Q|right; exact Q].
    + rewrite !nth_error_app2 by lia. rewrite L. right. reflexivity.
  - destruct (Nat.lt_ge_cases p (length (s_buf t1))) as [W|W].
    + rewrite !nth_error_app1 by lia. destruct (B p W) as [Q|Q]; [left; left; exact Q|right; exact Q].
    + rewrite !nth_error_app2 by lia. rewrite L. right. reflexivity.
Qed.

(* a stray pointer is not found *)
Lemma find_stray1 l1 l2 q : Forall2 off_rel l1 l2 -> stray1 q -> find_off q l1 = None.
Proof.
  intros F P. unfold find_off. induction F as [|e1 e2 l1 l2 [C E] F IH]; [reflexivity|]. cbn [find]. rewrite (stray_neq1 _ _ _ C P). exact IH.
Qed.
Lemma find_stray2 l1 l2 q : Forall2 off_rel l1 l2 -> stray2 q -> find_off q l2 = None.
Proof.
  intros F P. unfold find_off. induction F as [|e1 e2 l1 l2 [C E] F IH]; [reflexivity|]. cbn [find]. rewrite (stray_neq2 _ _ _ C P). exact IH.
Qed.
Lemma resolve_stray1 D t1 t2 q pos add : sim D t1 t2 -> stray1 q -> resolve be t1 (Some q) pos add =
  if add then let* s := patch_off be t1 pos NULLPTR_OFFSET in Ok (St (s_buf s) (s_offs s) (s_rngs s) (s_pend s ++ [(Some q, pos)])) else Ok t1.
Proof.
  intros S P. unfold resolve. rewrite (find_stray1 _ _ _ (sim_offs _ _ _ S) P), resolve_range_fold, (stray_hit1 _ _ _ (sim_rngs _ _ _ S) P). reflexivity.
Qed.
Lemma resolve_stray2 D t1 t2 q pos add : sim D t1 t2 -> stray2 q -> resolve be t2 (Some q) pos add =
  if add then let* s := patch_off be t2 pos NULLPTR_OFFSET in Ok (St (s_buf s) (s_offs s) (s_rngs s) (s_pend s ++ [(Some q, pos)])) else Ok t2.
Proof.
  intros S P. unfold resolve. rewrite (find_stray2 _ _ _ (sim_offs _ _ _ S) P), resolve_range_fold, (stray_hit2 _ _ _ (sim_rngs _ _ _ S) P). reflexivity.
Qed.

Lemma resolve_sim (D : Z -> Prop) t1 t2 p1 p2 pos : 0 <= pos -> same_ptr p1 p2 -> sim (fun p => D p \/ over pos 8 p) t1 t2 ->
  rr (sim D) (resolve be t1 p1 pos true) (resolve be t2 p2 pos true).
Proof.
  intros N P S. destruct p1 as [q1|], p2 as [q2|].
  - unfold resolve.
    rewrite (find_rel _ _ _ _ (sim_offs _ _ _ S) P). destruct (find_off q2 (s_offs t2)); [apply off_sim; assumption|].
    rewrite (range_rel _ _ _ _ (sim_rngs _ _ _ S) P). destruct (resolve_range t2 q2); [apply off_sim; assumption|].
    eapply rr_bind; [apply off_sim; eassumption|]. intros x y [B O R Q]. split; cbn; try assumption. apply pend_app; [exact Q|].
    constructor; [assumption..|constructor].
  - inversion P; subst. rewrite (resolve_stray1 _ _ _ _ _ _ S) by assumption. cbn [resolve].
    pose proof (off_sim D t1 t2 pos NULLPTR_OFFSET N S) as K. destruct (patch_off be t1 pos NULLPTR_OFFSET), (patch_off be t2 pos NULLPTR_OFFSET);
      cbn in *; try contradiction; auto. destruct K as [B O R Q]. split; cbn; try assumption.
    rewrite <- (app_nil_r (s_pend a0)). apply pend_app; [exact Q|]. constructor; [assumption|constructor].
  - inversion P; subst. rewrite (resolve_stray2 _ _ _ _ _ _ S) by assumption. cbn [resolve].
    pose proof (off_sim D t1 t2 pos NULLPTR_OFFSET N S) as K. destruct (patch_off be t1 pos NULLPTR_OFFSET), (patch_off be t2 pos NULLPTR_OFFSET);
      cbn in *; try contradiction; auto. destruct K as [B O R Q]. split; cbn; try assumption.
    rewrite <- (app_nil_r (s_pend a)). apply pend_app; [exact Q|]. constructor; [assumption|constructor].
  - cbn. apply off_sim; assumption.
Qed.
(* a null pointer is never pending, so p1, p2 are not null here *)
Lemma resolve_late_sim (D : Z -> Prop) t1 t2 p1 p2 pos : 0 <= pos -> same_ptr p1 p2 -> p1 <> None -> p2 <> None -> sim D t1 t2 ->
  rr (sim D) (resolve be t1 p1 pos false) (resolve be t2 p2 pos false).
Proof.
  intros N P N1 N2 S. assert (S' : sim (fun p => D p \/ over pos 8 p) t1 t2) by (eapply sim_mono; [exact S|tauto]).
  unfold resolve. destruct p1 as [q1|], p2 as [q2|]; try contradiction.
  rewrite (find_rel _ _ _ _ (sim_offs _ _ _ S) P). destruct (find_off q2 (s_offs t2)); [apply off_sim; assumption|].
  rewrite (range_rel _ _ _ _ (sim_rngs _ _ _ S) P). destruct (resolve_range t2 q2); [apply off_sim; assumption|]. exact S.
Qed.

(* ---------------- reading ---------------- *)
Lemma sint_of s a w x : int_at s a w = Some x -> sint (d_be s) (d_mem s) a w = Ok x.
Proof. unfold int_at, sint, sbytes. destruct (rdn (d_mem s) a w); [|discriminate]. cbn. congruence. Qed.
Lemma sptr_of s a p : ptr_at s a = Some p -> sptr (d_be s) (d_rel s) (d_mem s) a = Ok p.
Proof. unfold ptr_at, sptr. destruct (int_at s a 8) as [x|] eqn:E; [|discriminate]. rewrite (sint_of _ _ _ _ E). cbn. congruence. Qed.

Lemma same_but_bytes a1 a2 n (F : Z -> Prop) : same_but s1 s2 a1 a2 n F -> 0 <= n ->
  exists l1 l2, sbytes (d_mem s1) a1 (Z.to_nat n) = Ok l1 /\ sbytes (d_mem s2) a2 (Z.to_nat n) = Ok l2 /\
    length l1 = Z.to_nat n /\ length l1 = length l2 /\
    forall k, (k < length l1)%nat -> F (Z.of_nat k) \/ nth_error l1 k = nth_error l2 k.
Proof.
  intros B N. unfold sbytes.
  assert (G : forall m, (m <= Z.to_nat n)%nat -> forall o, (o + m = Z.to_nat n)%nat ->
    exists l1 l2, rdn (d_mem s1) (a1 + Z.of_nat o) m = Some l1 /\ rdn (d_mem s2) (a2 + Z.of_nat o) m = Some l2 /\
      length l1 = m /\ length l2 = m /\ forall k, (k < m)%nat -> F (Z.of_nat (o + k)) \/ nth_error l1 k = nth_error l2 k).
  { induction m as [|m IH]; intros Hm o Ho; [exists [], []; repeat split; intros; lia|].
    destruct (B (Z.of_nat o)) as (x & y & X & Y & E); [lia|].
    destruct (IH ltac:(lia) (S o) ltac:(lia)) as (l1 & l2 & R1 & R2 & L1 & L2 & K).
    exists (x :: l1), (y :: l2). cbn [rdn]. rewrite X, Y. replace (a1 + Z.of_nat o + 1) with (a1 + Z.of_nat (S o)) by lia.
    replace (a2 + Z.of_nat o + 1) with (a2 + Z.of_nat (S o)) by lia. rewrite R1, R2. cbn. repeat split; try lia.
    intros [|k] Hk; [rewrite Nat.add_0_r; destruct E as [E| ->]; [left; exact E|right; reflexivity]|].
    replace (o + S k)%nat with (S o + k)%nat by lia. apply K. lia. }
  destruct (G (Z.to_nat n) (le_n _) 0%nat eq_refl) as (l1 & l2 & R1 & R2 & L1 & L2 & K). rewrite Z.add_0_r in R1, R2. rewrite R1, R2.
  exists l1, l2. repeat split; try lia. intros k Hk. apply (K k). lia.
Qed.
Lemma same_bytes_of a1 a2 n : same_bytes s1 s2 a1 a2 n ->
  exists l, sbytes (d_mem s1) a1 n = Ok l /\ sbytes (d_mem s2) a2 n = Ok l.
Proof. intros (l & R1 & R2). unfold sbytes. rewrite R1, R2. exists l. auto. Qed.

Lemma size_nonneg t : wf A t -> 0 <= size_of t.
Proof. intros W. induction W; cbn [size_of]; try lia. Qed.
Lemma tyof_wf n : wf A (tyof env n).
Proof.
  unfold tyof. destruct (nth_in_or_default n env (TInt 1)) as [I| ->]; [|constructor; cbn; auto].
  eapply Forall_forall in Hsz; [exact Hsz|exact I].
Qed.

Lemma fold_sim {X} (g1 g2 : X -> st -> res st) (H : X -> Z -> Prop) : forall l D t1 t2,
  (forall x, In x l -> forall D t1 t2, sim (fun p => D p \/ H x p) t1 t2 -> rr (sim D) (g1 x t1) (g2 x t2)) ->
  sim (fun p => D p \/ exists x, In x l /\ H x p) t1 t2 -> rr (sim D) (foldM g1 l t1) (foldM g2 l t2).
Proof.
  induction l as [|x l IH]; intros D t1 t2 K S; cbn [foldM].
  - cbn. eapply sim_mono; [exact S|]. intros p _ [Q|(x & [] & _)]. exact Q.
  - eapply rr_bind.
    + apply (K x (or_introl eq_refl) (fun p => D p \/ exists x, In x l /\ H x p)). eapply sim_mono; [exact S|].
      intros p _ [Q|(y & [->|I] & Q)]; [auto|auto|left; right; exists y; auto].
    + intros u1 u2 U. apply IH; [|exact U]. intros y I. apply K. right. exact I.
Qed.

Notation ser1 := (ser env (d_be s1) be (d_rel s1) (d_mem s1)).
Notation ser2 := (ser env (d_be s2) be (d_rel s2) (d_mem s2)).
Notation free := (free s1).

Ltac weaken S := let p := fresh "p" in let Q := fresh "Q" in
  eapply sim_mono; [exact S|]; cbn beta; unfold over; intros p _ Q;
  repeat match type of Q with _ \/ _ => destruct Q as [Q|Q] end;
  first [tauto | match goal with
                 | |- (?E \/ ?R) \/ ?S => enough (R \/ S) by tauto; lia
                 | |- ?E \/ ?R => enough R by tauto; lia
                 | |- _ => exfalso; lia
                 end].

Lemma ser_sim : forall f t a1 a2 pos D t1 t2, wf A t -> 0 <= pos -> twin env s1 s2 blocks f t a1 a2 ->
  sim (fun p => D p \/ free f t a1 (p - pos)) t1 t2 -> rr (sim D) (ser1 f t a1 pos t1) (ser2 f t a2 pos t2).
Proof.
  induction f as [|f IH]; intros t a1 a2 pos D t1 t2 W N T S; [exact Logic.I|].
  destruct t as [w|w|n|fs sz al|t off sz al|ts off sz al|n|w ix n| | |n]; cbn [ser twin TwinSpec.free] in *.
  - destruct T as (x & X1 & X2). rewrite (sint_of _ _ _ _ X1), (sint_of _ _ _ _ X2). cbn [bind]. apply int_sim; [exact N|]. weaken S.
  - cbn. weaken S.
  - destruct T as (p1 & p2 & X1 & X2 & P). rewrite (sptr_of _ _ _ X1), (sptr_of _ _ _ X2). cbn [bind]. apply resolve_sim; [exact N|exact P|]. weaken S.
  - apply (fold_sim _ _ (fun ft p => free f (snd ft) (a1 + fst ft) (p - (pos + fst ft)))).
    + intros [o t] I D' u1 u2 U. cbn [fst snd] in *. inversion W as [| | |? ? ? _ _ _ Wf _| | | | | | |]; subst. destruct (Wf o t I) as (Wt & No & _).
      apply IH; [exact Wt|lia|apply T; exact I|exact U].
    + eapply sim_mono; [exact S|]. cbn beta. intros p _ [Q|(o & t & I & Q)]; [left; exact Q|right]. exists (o, t). split; [exact I|].
      cbn [fst snd]. replace (p - (pos + o)) with (p - pos - o) by lia. exact Q.
  - destruct T as (b & [X1 X2] & K). rewrite (sint_of _ _ _ _ X1), (sint_of _ _ _ _ X2). cbn [bind]. rewrite X1 in S.
    destruct (N.eqb_spec b 0) as [->|E]; [cbn; weaken S|]. inversion W; subst. apply IH; [assumption|lia|apply K; exact E|].
    eapply sim_mono; [exact S|]. cbn beta. intros p _ [Q|Q]; [left; exact Q|right]. replace (p - (pos + off)) with (p - pos - off) by lia.
    destruct b; [contradiction|exact Q].
  - destruct T as (i & [X1 X2] & K). rewrite (sint_of _ _ _ _ X1), (sint_of _ _ _ _ X2). cbn [bind]. rewrite X1 in S.
    eapply rr_bind; [apply (int_sim (fun p => D p \/ match nth_error ts (N.to_nat i) with Some t => free f t (a1 + off) (p - pos - off) | None => False end));
      [exact N|]; eapply sim_mono; [exact S|]; cbn beta; intros p _ [Q|[Q|Q]]; [left; left; exact Q|right; unfold over; lia|left; right; exact Q]|].
    intros u1 u2 U. destruct (nth_error ts (N.to_nat i)) as [t|] eqn:E; [|exact Logic.I].
    inversion W as [| | | | |? ? ? ? _ _ No _ _ Wf| | | | |]; subst. destruct (Wf t) as (Wt & _); [eapply nth_error_In; exact E|].
    apply IH; [exact Wt|lia|apply K; reflexivity|]. eapply sim_mono; [exact U|]. cbn beta. intros p _ Q.
    replace (p - (pos + off)) with (p - pos - off) by lia. exact Q.
  - destruct T as [[X1 X2]|(q1 & q2 & X1 & X2 & C & B & T)]; rewrite (sptr_of _ _ _ X1), (sptr_of _ _ _ X2); cbn [bind].
    + eapply rr_bind; [apply (off_sim (fun p => D p \/ over (pos + 8) 1 p)); [exact N|weaken S]|]. intros u1 u2 U. apply int_sim; [lia|exact U].
    + destruct (same_but_bytes _ _ _ _ B (size_nonneg _ (tyof_wf n))) as (l1 & l2 & -> & -> & _ & L & Bl). cbn [bind].
      destruct (append_sim _ _ _ _ l1 l2 (align_of (tyof env n)) S L Bl) as (v1 & v2 & start & -> & -> & Ns & V). cbv beta iota zeta.
      eapply rr_bind; [apply (off_sim (fun p => (D p \/ free f (tyof env n) q1 (p - start)) \/ over (pos + 8) 1 p)); [exact N|weaken V]|].
      intros u1 u2 U. eapply rr_bind; [apply int_sim; [lia|exact U]|]. intros x1 x2 [Xb Xo Xr Xp].
      apply IH; [apply tyof_wf|exact Ns|exact T|]. split; cbn; try assumption. constructor; [split; [exact C|reflexivity]|exact Xo].
  - destruct T as (p1 & p2 & used & X1 & X2 & [U1 U2] & T).
    rewrite (sptr_of _ _ _ X1), (sptr_of _ _ _ X2). cbn [bind]. rewrite (sint_of _ _ _ _ U1), (sint_of _ _ _ _ U2). cbn [bind].
    set (sz := size_of (tyof env n)) in *. assert (Nz : 0 <= sz) by apply size_nonneg, tyof_wf.
    (* the four words of the vector itself *)
    assert (Own : forall E v1 v2 o, sim (fun p => E p \/ 0 <= p - pos < 9 + 2 * Z.of_nat w) v1 v2 -> forall k1 k2 : st -> res st,
      (forall x1 x2, sim E x1 x2 -> rr (sim D) (k1 x1) (k2 x2)) ->
      rr (sim D)
        (let* s := patch_off be v1 pos o in let* s := patch_int be s (pos + 8 + Z.of_nat w) w used in
         let* s := patch_int be s (pos + 8) w used in let* s := patch_int be s (pos + 8 + 2 * Z.of_nat w) 1 0 in k1 s)
        (let* s := patch_off be v2 pos o in let* s := patch_int be s (pos + 8 + Z.of_nat w) w used in
         let* s := patch_int be s (pos + 8) w used in let* s := patch_int be s (pos + 8 + 2 * Z.of_nat w) 1 0 in k2 s)).
    { intros E v1 v2 o V k1 k2 K.
      eapply rr_bind; [apply (off_sim (fun p => E p \/ over (pos + 8) (1 + 2 * Z.of_nat w) p)); [exact N|weaken V]|]. intros y1 y2 Y.
      eapply rr_bind; [apply (int_sim (fun p => E p \/ over (pos + 8) (Z.of_nat w) p \/ over (pos + 8 + 2 * Z.of_nat w) 1 p)); [lia|weaken Y]|].
      clear Y. intros z1 z2 Z.
      eapply rr_bind; [apply (int_sim (fun p => E p \/ over (pos + 8 + 2 * Z.of_nat w) 1 p)); [lia|weaken Z]|]. clear Z. intros x1 x2 X.
      eapply rr_bind; [apply (int_sim E); [lia|exact X]|exact K]. }
    destruct T as [(-> & St1 & St2)|(q1 & q2 & -> & -> & Nu & Cr & B & T)].
    + cbn [N.eqb bind N.to_nat seq]. apply (Own D); [exact S|]. intros x1 x2 [Xb Xo Xr Xp].
      destruct p1 as [q1|], p2 as [q2|]; destruct ix; cbn [foldM rr]; split; cbn [s_buf s_offs s_rngs s_pend]; try assumption.
      * apply rngs_app; [exact Xr|]. rewrite Z.mul_0_r. apply rr_left; [apply St1; reflexivity|]. apply rr_right; [apply St2; reflexivity|constructor].
      * rewrite <- (app_nil_r (s_rngs x2)). apply rngs_app; [exact Xr|]. rewrite Z.mul_0_r. apply rr_left; [apply St1; reflexivity|constructor].
      * rewrite <- (app_nil_r (s_rngs x1)). apply rngs_app; [exact Xr|]. rewrite Z.mul_0_r. apply rr_right; [apply St2; reflexivity|constructor].
    + rewrite (proj2 (N.eqb_neq used 0) Nu).
      destruct (same_but_bytes _ _ _ _ B ltac:(nia)) as (l1 & l2 & -> & -> & _ & L & Bl). cbn [bind].
      destruct (append_sim _ (fun k => exists i, (i < N.to_nat used)%nat /\ free f (tyof env n) (q1 + Z.of_nat i * sz) (k - Z.of_nat i * sz)) _ _ l1 l2 (align_of (tyof env n)) S L Bl) as (v1 & v2 & start & -> & -> & Ns & V). cbv beta iota zeta. cbn [bind].
      apply (Own (fun p => D p \/ exists i, In i (seq 0 (N.to_nat used)) /\ free f (tyof env n) (q1 + Z.of_nat i * sz) (p - (start + Z.of_nat i * sz)))).
      * eapply sim_mono; [exact V|]. cbn beta. intros p _ [[Q|Q]|(i & I & Q)]; [left; left; exact Q|right; exact Q|left; right; exists i].
        split; [apply in_seq; lia|]. replace (p - (start + Z.of_nat i * sz)) with (p - start - Z.of_nat i * sz) by lia. exact Q.
      * intros x1 x2 X.
        apply (fold_sim _ _ (fun i p => free f (tyof env n) (q1 + Z.of_nat i * sz) (p - (start + Z.of_nat i * sz)))).
        -- intros i I D' y1 y2 Y. apply in_seq in I. apply IH; [apply tyof_wf|nia|apply T; lia|exact Y].
        -- destruct X as [Xb Xo Xr Xp]. destruct ix; split; cbn; try assumption. apply rngs_app; [exact Xr|].
           constructor; [nia|apply Cr; reflexivity|constructor].
  - destruct T as (b & [X1 X2] & T). rewrite (sint_of _ _ _ _ X1), (sint_of _ _ _ _ X2). cbn [bind]. rewrite X1 in S.
    destruct (N.eqb_spec b 0) as [->|E]; cbn [negb].
    2: { cbn. destruct b; [contradiction|]. weaken S. }
    destruct T as [T|(p1 & p2 & size & P1 & P2 & [Z1 Z2] & T)]; [contradiction|].
    rewrite (sptr_of _ _ _ P1), (sptr_of _ _ _ P2). cbn [bind]. rewrite (sint_of _ _ _ _ Z1), (sint_of _ _ _ _ Z2). cbn [bind].
    assert (Own : forall v1 v2 o, sim (fun p => D p \/ p - pos = 1 \/ 4 <= p - pos < 16) v1 v2 ->
      rr (sim D) (let* s := patch_off be v1 (pos + 8) o in let* s := patch_int be s (pos + 4) 4 size in patch_int be s (pos + 1) 1 0)
                 (let* s := patch_off be v2 (pos + 8) o in let* s := patch_int be s (pos + 4) 4 size in patch_int be s (pos + 1) 1 0)).
    { intros v1 v2 o V.
      eapply rr_bind; [apply (off_sim (fun p => D p \/ p - pos = 1 \/ 4 <= p - pos < 8)); [lia|weaken V]|]. intros y1 y2 Y.
      eapply rr_bind; [apply (int_sim (fun p => D p \/ p - pos = 1)); [lia|weaken Y]|]. clear Y. intros y1' y2' Y.
      apply int_sim; [lia|]. weaken Y. }
    destruct p1 as [q1|], p2 as [q2|]; try contradiction; cbn [bind].
    + destruct (same_bytes_of _ _ _ T) as (l & -> & ->). cbn [bind].
      destruct (append_sim _ (fun _ => False) _ _ l l 0 S eq_refl) as (v1 & v2 & start & -> & -> & Ns & V); [intros; right; reflexivity|].
      cbv beta iota zeta. cbn [bind]. apply Own. weaken V.
    + apply Own. exact S.
  - destruct T as (r1 & r2 & X1 & X2 & T). rewrite (sint_of _ _ _ _ X1), (sint_of _ _ _ _ X2). cbn [bind]. rewrite X1 in S.
    destruct T as [[R <-]|(R1 & R2 & p1 & p2 & size & P1 & P2 & [Z1 Z2] & T)].
    + rewrite (proj2 (N.ltb_lt r1 128) R). cbn. weaken S.
    + rewrite (proj2 (N.ltb_ge r1 128) R1), (proj2 (N.ltb_ge r2 128) R2).
      rewrite (sptr_of _ _ _ P1), (sptr_of _ _ _ P2). cbn [bind]. rewrite (sint_of _ _ _ _ Z1), (sint_of _ _ _ _ Z2). cbn [bind].
      assert (Q : exists l, (match p1 with Some q => sbytes (d_mem s1) q (N.to_nat size) | None => if (size =? 0)%N then Ok [] else UB end) = Ok l /\
                            (match p2 with Some q => sbytes (d_mem s2) q (N.to_nat size) | None => if (size =? 0)%N then Ok [] else UB end) = Ok l).
      { destruct T as [->|(q1 & q2 & -> & -> & T)]; [exists []; split; [destruct p1|destruct p2]; reflexivity|apply same_bytes_of; exact T]. }
      destruct Q as (l & -> & ->). cbn [bind].
      destruct (append_sim _ (fun _ => False) _ _ (l ++ [0%N]) (l ++ [0%N]) 0 S eq_refl) as (v1 & v2 & start & -> & -> & Ns & V); [intros; right; reflexivity|].
      cbv beta iota zeta.
      eapply rr_bind; [apply (off_sim (fun p => D p \/ 8 <= p - pos < 13 \/ p - pos = 15)); [lia|weaken V]|]. intros y1 y2 Y.
      eapply rr_bind; [apply (int_sim (fun p => D p \/ 12 <= p - pos < 13 \/ p - pos = 15)); [lia|weaken Y]|]. clear Y. intros y1' y2' Y.
      eapply rr_bind; [apply (int_sim (fun p => D p \/ p - pos = 15)); [lia|weaken Y]|]. clear Y. intros y1'' y2'' Y.
      apply int_sim; [lia|weaken Y].
  - destruct T as (pe1 & pe2 & pc1 & pc2 & size & cap & growth & E1 & E2 & C1 & C2 & [Z1 Z2] & [K1 K2] & [G1 G2] & T).
    rewrite (sptr_of _ _ _ E1), (sptr_of _ _ _ E2). cbn [bind]. rewrite (sptr_of _ _ _ C1), (sptr_of _ _ _ C2). cbn [bind].
    rewrite (sint_of _ _ _ _ Z1), (sint_of _ _ _ _ Z2). cbn [bind]. rewrite (sint_of _ _ _ _ K1), (sint_of _ _ _ _ K2). cbn [bind].
    rewrite (sint_of _ _ _ _ G1), (sint_of _ _ _ _ G2). cbn [bind].
    set (sz := size_of (tyof env n)) in *. assert (Nz : 0 <= sz) by apply size_nonneg, tyof_wf.
    assert (Own : forall E v1 v2 o o', sim (fun p => E p \/ 0 <= p - pos < 41) v1 v2 -> forall k1 k2 : st -> res st,
      (forall x1 x2, sim E x1 x2 -> rr (sim D) (k1 x1) (k2 x2)) ->
      rr (sim D)
        (let* s := patch_off be v1 pos o in let* s := patch_off be s (pos + 8) o' in let* s := patch_int be s (pos + 40) 1 0 in
         let* s := patch_int be s (pos + 16) 8 size in let* s := patch_int be s (pos + 24) 8 cap in let* s := patch_int be s (pos + 32) 8 growth in k1 s)
        (let* s := patch_off be v2 pos o in let* s := patch_off be s (pos + 8) o' in let* s := patch_int be s (pos + 40) 1 0 in
         let* s := patch_int be s (pos + 16) 8 size in let* s := patch_int be s (pos + 24) 8 cap in let* s := patch_int be s (pos + 32) 8 growth in k2 s)).
    { intros E v1 v2 o o' V k1 k2 K.
      eapply rr_bind; [apply (off_sim (fun p => E p \/ 8 <= p - pos < 41)); [lia|weaken V]|]. clear V. intros y1 y2 Y.
      eapply rr_bind; [apply (off_sim (fun p => E p \/ 16 <= p - pos < 41)); [lia|weaken Y]|]. clear Y. clear y1 y2. intros y1 y2 Y.
      eapply rr_bind; [apply (int_sim (fun p => E p \/ 16 <= p - pos < 40)); [lia|weaken Y]|]. clear Y. clear y1 y2. intros y1 y2 Y.
      eapply rr_bind; [apply (int_sim (fun p => E p \/ 24 <= p - pos < 40)); [lia|weaken Y]|]. clear Y. clear y1 y2. intros y1 y2 Y.
      eapply rr_bind; [apply (int_sim (fun p => E p \/ 32 <= p - pos < 40)); [lia|weaken Y]|]. clear Y. clear y1 y2. intros y1 y2 Y.
      eapply rr_bind; [apply (int_sim E); [lia|weaken Y]|exact K]. }
    destruct T as [[-> ->]|(q1 & q2 & c1 & c2 & -> & -> & -> & -> & B & T)].
    + destruct (append_sim _ (fun _ => False) _ _ empty_group empty_group 1 S eq_refl) as (v1 & v2 & start & -> & -> & Ns & V); [intros; right; reflexivity|].
      cbn [bind]. apply (Own D); [weaken V|]. intros x1 x2 X. exact X.
    + destruct (same_but_bytes _ _ _ _ B ltac:(nia)) as (l1 & l2 & -> & -> & _ & L & Bl). cbn [bind].
      destruct (append_sim _ (fun k => exists i b, (i < N.to_nat cap)%nat /\ int_at s1 (c1 + Z.of_nat i) 1 = Some b /\ is_full b = true /\
                                   free f (tyof env n) (q1 + Z.of_nat i * sz) (k - Z.of_nat i * sz)) _ _ l1 l2 (align_of (tyof env n)) S L Bl) as (v1 & v2 & start & -> & -> & Ns & V). cbv beta iota zeta. cbn [bind].
      apply (Own (fun p => D p \/ exists i, In i (seq 0 (N.to_nat cap)) /\
                  exists b, int_at s1 (c1 + Z.of_nat i) 1 = Some b /\ is_full b = true /\
                            free f (tyof env n) (q1 + Z.of_nat i * sz) (p - (start + Z.of_nat i * sz)))).
      * eapply sim_mono; [exact V|]. cbn beta. intros p _ [[Q|Q]|(i & b & I & Rb & Fb & Q)]; [left; left; exact Q|right; exact Q|left; right; exists i].
        split; [apply in_seq; lia|]. exists b. split; [exact Rb|]. split; [exact Fb|].
        replace (p - (start + Z.of_nat i * sz)) with (p - start - Z.of_nat i * sz) by lia. exact Q.
      * intros x1 x2 X.
        apply (fold_sim _ _ (fun i p => exists b, int_at s1 (c1 + Z.of_nat i) 1 = Some b /\ is_full b = true /\
                            free f (tyof env n) (q1 + Z.of_nat i * sz) (p - (start + Z.of_nat i * sz)))); [|exact X].
        intros i I D' y1 y2 Y. apply in_seq in I. destruct (T i ltac:(lia)) as (b & [B1 B2] & Tb).
        rewrite (sint_of _ _ _ _ B1), (sint_of _ _ _ _ B2). cbn [bind]. destruct (is_full b) eqn:Fb.
        -- apply IH; [apply tyof_wf|nia|apply Tb; reflexivity|]. eapply sim_mono; [exact Y|]. cbn beta.
           intros p _ [Q|(b' & _ & _ & Q)]; [left; exact Q|right; exact Q].
        -- cbn. eapply sim_mono; [exact Y|]. cbn beta. intros p _ [Q|(b' & Rb & Fb' & Q)]; [exact Q|]. congruence.
Qed.

Lemma flush_sim D t1 t2 : sim D t1 t2 -> rr (sim D) (flush_pending be t1) (flush_pending be t2).
Proof.
  intros S. unfold flush_pending. pose proof (sim_pend _ _ _ S) as P. revert P S. generalize (s_pend t1), (s_pend t2). intros l1 l2 P.
  revert t1 t2. induction P as [|q1 q2 pos l1 l2 N Q P IH|q pos l1 l2 Q P IH|q pos l1 l2 Q P IH]; intros t1 t2 S; cbn [foldM fst snd]; [exact S| | |].
  - eapply rr_bind; [apply resolve_late_sim; [exact N|exact Q|discriminate|discriminate|exact S]|exact IH].
  - rewrite (resolve_stray1 _ _ _ _ _ _ S Q). cbn [bind]. apply IH. exact S.
  - rewrite (resolve_stray2 _ _ _ _ _ _ S Q). cbn [bind]. apply IH. exact S.
Qed.

Lemma beq_eq b1 b2 : beq (fun _ => False) b1 b2 -> b1 = b2.
Proof.
  intros [L B]. apply list_ext. intros p. destruct (Nat.lt_ge_cases p (length b1)) as [H|H]; [destruct (B p H) as [[]|Q]; exact Q|].
  rewrite (proj2 (nth_error_None b1 p)), (proj2 (nth_error_None b2 p)) by lia. reflexivity.
Qed.
End P.

Lemma hdr_same hb hb' m x : hdr_bytes hb m x = hdr_bytes hb' m x.
Proof. unfold hdr_bytes. rewrite !written_bytes. reflexivity. Qed.
Lemma zero_same hb hb' : host_bytes hb 8 0 = host_bytes hb' 8 0.
Proof. destruct hb, hb'; reflexivity. Qed.
Lemma finish_same hb hb' m b io : serialize_finish hb m b io = serialize_finish hb' m b io.
Proof. unfold serialize_finish. rewrite (hdr_same hb hb'). reflexivity. Qed.

Lemma reproducible env A t s1 s2 blocks m th f a1 a2 :
  types_ok A env t -> same_graph env s1 s2 blocks f t a1 a2 ->
  serialize env (d_be s1) (d_rel s1) m th (d_mem s1) f t a1 = serialize env (d_be s2) (d_rel s2) m th (d_mem s2) f t a2.
Proof.
  intros ((_ & _ & We) & _ & Wt & _) (Ap & B & T). unfold serialize.
  destruct (same_but_bytes _ _ _ _ _ _ B (size_nonneg A t Wt)) as (l1 & l2 & -> & -> & _ & L & Bl). cbn [bind].
  set (be := is_mode_enabled m SERIALIZE_BIG_ENDIAN).
  unfold serialize_start. rewrite (hdr_same (d_be s1) (d_be s2)), (zero_same (d_be s1) (d_be s2)).
  set (b0 := if _ || _ then _ else _). set (p := if is_mode_enabled m WITH_INTEGRITY then _ else _).
  pose (t0 := St (fst p) [] [] []).
  assert (S0 : sim blocks (fun _ => False) t0 t0).
  { split; cbn; [split; [reflexivity|intros; right; reflexivity]|constructor..]. }
  destruct (append_sim blocks _ _ _ _ l1 l2 (align_of t) S0 L Bl) as (u1 & u2 & start & E1 & E2 & Ns & U).
  unfold append in E1, E2. change (s_buf t0) with (fst p) in E1, E2. cbv beta.
  destruct (buf_write 0 (fst p) l1 (Z.to_nat (align_of t))) as [c1 n1]. destruct (buf_write 0 (fst p) l2 (Z.to_nat (align_of t))) as [c2 n2].
  cbn [fst snd t0 s_offs s_rngs s_pend] in *. injection E1 as E1 P1. injection E2 as E2 P2. rewrite P1, P2, E1, E2.
  assert (R : rr (sim blocks (fun _ => False))
    (let* s := ser env (d_be s1) be (d_rel s1) (d_mem s1) f t a1 start u1 in flush_pending be s)
    (let* s := ser env (d_be s2) be (d_rel s2) (d_mem s2) f t a2 start u2 in flush_pending be s)).
  { eapply rr_bind; [apply (ser_sim env A We s1 s2 blocks Ap be f t a1 a2 start (fun _ => False) u1 u2 Wt Ns T); exact U|]. intros x y X. apply flush_sim; assumption. }
  destruct (ser env (d_be s1) be (d_rel s1) (d_mem s1) f t a1 start u1) as [x| | |];
    destruct (ser env (d_be s2) be (d_rel s2) (d_mem s2) f t a2 start u2) as [y| | |]; cbn [bind] in *;
    try (destruct (flush_pending be x)); try (destruct (flush_pending be y)); cbn [bind rr] in *; try contradiction; try reflexivity.
  destruct R as [Rb _ _ _]. rewrite (beq_eq _ _ Rb). apply finish_same.
Qed.
