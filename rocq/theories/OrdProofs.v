From Verif Require Import Base OrdModel OrdSpec.

(* what an operator says, given how the values compare *)
Definition opc (o : op) (c : comparison) : bool :=
  match o, c with
  | Oeq, Eq | One, Lt | One, Gt | Olt, Lt | Ole, Lt | Ole, Eq | Ogt, Gt | Oge, Gt | Oge, Eq => true
  | _, _ => false
  end.
Definition pos (c : comparison) (a b : val) : Prop :=
  match c with Eq => a = b | Lt => less a b | Gt => less b a end.
Definition good (t : ty) : Prop := forall a b, has_type t a -> has_type t b ->
  exists c, pos c a b /\ (forall o, rel t o a b = Ok (opc o c)) /\ (forall o, rel t o b a = Ok (opc o (CompOpp c))).

Lemma ty_ind' : forall P : ty -> Prop,
  P TInt -> P TFloat -> P TStr -> (forall t, P t -> P (TVec t)) ->
  (forall ts, Forall P ts -> P (TTup ts)) -> (forall ts, Forall P ts -> P (TRec ts)) ->
  (forall ts, Forall P ts -> P (TVar ts)) -> forall t, P t.
Proof.
  intros P H1 H2 H3 H4 H5 H6 H7. fix IH 1.
  assert (L : forall ts, (forall t, P t) -> Forall P ts) by (induction ts; auto).
  destruct t; [exact H1|exact H2|exact H3|apply H4; apply IH|apply H5|apply H6|apply H7];
    induction ts; constructor; auto.
Qed.

Lemma irel_opc : forall o x y, irel o x y = opc o (x ?= y)%Z /\ irel o y x = opc o (CompOpp (x ?= y)%Z).
Proof.
  intros o x y. destruct (Z.compare_spec x y); destruct o; cbn; split; lia.
Qed.

Lemma scmp_pos : forall a b, match scmp a b with Eq => a = b | Lt => lex N.lt a b | Gt => lex N.lt b a end.
Proof.
  assert (C : forall x a b, lex N.lt a b -> lex N.lt (x :: a) (x :: b)).
  { intros x a b [(p & u & v & a' & b' & -> & -> & H)|(y & b' & ->)].
    - left. exists (x :: p), u, v, a', b'. auto.
    - right. exists y, b'. auto. }
  induction a as [|x a IH]; intros [|y b]; cbn [scmp]; auto.
  - right. exists y, b. auto.
  - right. exists x, a. auto.
  - destruct (N.compare_spec x y) as [->|H|H].
    + specialize (IH b). destruct (scmp a b); auto. congruence.
    + left. exists [], x, y, a, b. auto.
    + left. exists [], y, x, b, a. auto.
Qed.

Lemma scmp_sym : forall a b, scmp b a = CompOpp (scmp a b).
Proof.
  induction a as [|x a IH]; intros [|y b]; cbn [scmp]; auto.
  rewrite (N.compare_antisym x y). destruct (x ?= y)%N; cbn; auto.
Qed.

Lemma srel_opc : forall o a b, srel o a b = opc o (scmp a b).
Proof. intros. destruct o; reflexivity. Qed.

Lemma less_cons : forall x a b, less (VList a) (VList b) -> less (VList (x :: a)) (VList (x :: b)).
Proof.
  intros x a b H. inversion H; subst.
  - apply (less_elem (x :: p)); auto.
  - apply (less_prefix (x :: a)).
Qed.

Lemma pos_cons : forall c x a b, pos c (VList a) (VList b) -> pos c (VList (x :: a)) (VList (x :: b)).
Proof. destruct c; cbn; intros; [congruence|apply less_cons; auto|apply less_cons; auto]. Qed.

Lemma pos_head : forall c x y a b, c <> Eq -> pos c x y -> pos c (VList (x :: a)) (VList (y :: b)).
Proof. destruct c; cbn; intros; [congruence| |]; apply (less_elem []); auto. Qed.

Lemma derive_opc : forall eq lt a b c,
  eq a b = Ok (opc Oeq c) -> lt a b = Ok (opc Olt c) -> lt b a = Ok (opc Ogt c) ->
  forall o, derive eq lt o a b = Ok (opc o c).
Proof. intros eq lt a b c E L G o. destruct o; cbn [derive]; rewrite ?E, ?L, ?G; destruct c; reflexivity. Qed.

Lemma derive_opc' : forall eq lt a b c,
  eq a b = Ok (opc Oeq c) -> eq b a = Ok (opc Oeq c) -> lt a b = Ok (opc Olt c) -> lt b a = Ok (opc Ogt c) ->
  (forall o, derive eq lt o a b = Ok (opc o c)) /\ (forall o, derive eq lt o b a = Ok (opc o (CompOpp c))).
Proof.
  intros eq lt a b c E E' L G. split; apply derive_opc; auto; rewrite ?E', ?L, ?G; destruct c; reflexivity.
Qed.

Lemma good_vec : forall t, good t -> forall xs ys, Forall (has_type t) xs -> Forall (has_type t) ys ->
  exists c, pos c (VList xs) (VList ys) /\
    vec_eq (rel t Oeq) xs ys = Ok (opc Oeq c) /\ vec_eq (rel t Oeq) ys xs = Ok (opc Oeq c) /\
    vec_lt (rel t Olt) xs ys = Ok (opc Olt c) /\ vec_lt (rel t Olt) ys xs = Ok (opc Ogt c).
Proof.
  intros t G. induction xs as [|x xs IH]; intros [|y ys] Hx Hy.
  - exists Eq. repeat split; reflexivity.
  - exists Lt. cbn. split; [apply (less_prefix [])|auto].
  - exists Gt. cbn. split; [apply (less_prefix [])|auto].
  - apply Forall_cons_iff in Hx, Hy. destruct Hx as (Hx & Hxs), Hy as (Hy & Hys).
    destruct (G x y Hx Hy) as (c & P & R & R'). destruct (IH ys Hxs Hys) as (d & Q & E & E' & L & L'). clear IH G.
    unfold vec_eq in *. cbn [length vec_lt all_eq Nat.eqb]. rewrite !R, !R'. 
    destruct c; cbn [opc CompOpp bind].
    + cbn in P. subst y. exists d. split; [apply pos_cons; auto|]. auto.
    + exists Lt. split; [apply pos_head; auto; discriminate|].
      destruct (length xs =? length ys), (length ys =? length xs); auto.
    + exists Gt. split; [apply pos_head; auto; discriminate|].
      destruct (length xs =? length ys), (length ys =? length xs); auto.
Qed.

Definition tup_eq := fix eq (ts : list ty) (a b : list val) : res bool :=
  match ts, a, b with
  | [], [], [] => Ok true
  | t :: ts, x :: a, y :: b => let* e := rel t Oeq x y in if e then eq ts a b else Ok false
  | _, _, _ => UB
  end.
Definition tup_lt := fix lt (ts : list ty) (a b : list val) : res bool :=
  match ts, a, b with
  | [], [], [] => Ok false
  | t :: ts, x :: a, y :: b =>
      let* l := rel t Olt x y in if l then Ok true else
      let* g := rel t Olt y x in if g then Ok false else lt ts a b
  | _, _, _ => UB
  end.

Lemma good_tup : forall ts, Forall good ts -> forall xs ys, Forall2 has_type ts xs -> Forall2 has_type ts ys ->
  exists c, pos c (VList xs) (VList ys) /\
    tup_eq ts xs ys = Ok (opc Oeq c) /\ tup_eq ts ys xs = Ok (opc Oeq c) /\
    tup_lt ts xs ys = Ok (opc Olt c) /\ tup_lt ts ys xs = Ok (opc Ogt c).
Proof.
  intros ts G. induction G as [|t ts G Gs IH]; intros xs ys Hx Hy; inversion Hx; inversion Hy; subst.
  - exists Eq. repeat split; reflexivity.
  - match goal with A : has_type t ?x, B : has_type t ?y, C : Forall2 has_type ts ?xs, D : Forall2 has_type ts ?ys
      |- context [VList (?x :: ?xs)] =>
      destruct (G x y) as (c & P & R & R'); auto; destruct (IH xs ys) as (d & Q & E & E' & L & L'); auto
    end. clear IH G Gs Hx Hy.
    cbn [tup_eq tup_lt]. rewrite !R, !R'. destruct c; cbn [opc CompOpp bind].
    + cbn in P. subst. exists d. split; [apply pos_cons; auto|]. auto.
    + exists Lt. split; [apply pos_head; auto; discriminate|]. auto.
    + exists Gt. split; [apply pos_head; auto; discriminate|]. auto.
Qed.

Definition alt_rel (o : op) := fix at_ (ts : list ty) (i : nat) (x y : val) : res bool :=
  match ts, i with
  | t :: _, O => rel t o x y
  | _ :: ts, S i => at_ ts i x y
  | [], _ => UB
  end.
Lemma alt_rel_nth : forall o ts i t x y, nth_error ts i = Some t -> alt_rel o ts i x y = rel t o x y.
Proof. induction ts as [|u ts IH]; intros [|i] t x y H; cbn in *; try congruence. eauto. Qed.

Lemma all_good : forall t, good t.
Proof.
  induction t using ty_ind'; intros a b Ha Hb; inversion Ha; inversion Hb; subst.
  - exists (z ?= z0)%Z. split; [destruct (Z.compare_spec z z0); cbn; [congruence| |]; apply less_int; lia|].
    split; intros o; cbn [rel]; [rewrite (proj1 (irel_opc o z z0))|rewrite (proj2 (irel_opc o z z0))]; reflexivity.
  - exists (z ?= z0)%Z. split; [destruct (Z.compare_spec z z0); cbn; [congruence| |]; apply less_float; lia|].
    split; intros o; cbn [rel frel]; [rewrite (proj1 (irel_opc o z z0))|rewrite (proj2 (irel_opc o z z0))]; reflexivity.
  - exists (scmp s s0). split.
    { pose proof (scmp_pos s s0). destruct (scmp s s0); cbn; [congruence| |]; apply less_str; auto. }
    split; intros o; cbn [rel]; rewrite srel_opc; [reflexivity|]. rewrite (scmp_sym s s0). reflexivity.
  - destruct (good_vec t IHt vs vs0) as (c & P & A); auto. exists c. split; auto. apply derive_opc'; tauto.
  - destruct (good_tup ts H vs vs0) as (c & P & A); auto. exists c. split; auto. 
    apply (derive_opc' (tup_eq ts) (tup_lt ts)); tauto.
  - destruct (good_tup ts H vs vs0) as (c & P & A); auto. exists c. split; auto. 
    apply (derive_opc' (tup_eq ts) (tup_lt ts)); tauto.
  - destruct (Nat.eq_dec i i0) as [<-|N].
    + match goal with A : nth_error ts i = Some ?t, B : nth_error ts i = Some ?u |- _ =>
        assert (t = u) by congruence; subst u end.
      assert (G : good t). { apply (proj1 (Forall_forall _ _) H). eapply nth_error_In; eauto. }
      destruct (G v v0) as (c & P & R & R'); auto. exists c.
      split. { destruct c; cbn in *; [congruence| |]; apply less_value; auto. }
      split; intros o; cbn [rel]; rewrite Nat.eqb_refl.
      * rewrite <- R. apply (alt_rel_nth o ts i t); auto.
      * rewrite <- R'. apply (alt_rel_nth o ts i t); auto.
    + exists (Z.of_nat i ?= Z.of_nat i0)%Z.
      split. { destruct (Z.compare_spec (Z.of_nat i) (Z.of_nat i0)); cbn; [lia| |]; apply less_index; lia. }
      split; intros o; cbn [rel].
      * replace (i =? i0) with false by (symmetry; apply Nat.eqb_neq; auto).
        rewrite (proj1 (irel_opc o (Z.of_nat i) (Z.of_nat i0))). reflexivity.
      * replace (i0 =? i) with false by (symmetry; apply Nat.eqb_neq; auto).
        rewrite (proj2 (irel_opc o (Z.of_nat i) (Z.of_nat i0))). reflexivity.
Qed.

(* the specified order is a strict order *)
Lemma split_eq : forall {A} (p q : list A) x y a b, p ++ x :: a = q ++ y :: b ->
  (p = q /\ x = y /\ a = b) \/ (exists r, p = q ++ y :: r /\ b = r ++ x :: a) \/ (exists r, q = p ++ x :: r /\ a = r ++ y :: b).
Proof.
  induction p as [|u p IH]; intros [|v q] x y a b H; cbn in H; injection H as -> H.
  - left. auto.
  - right; right. exists q. auto.
  - right; left. exists p. auto.
  - destruct (IH _ _ _ _ _ H) as [(-> & -> & ->)|[(r & -> & ->)|(r & -> & ->)]].
    + left. auto.
    + right; left. exists r. auto.
    + right; right. exists r. auto.
Qed.

Lemma prefix_irr : forall {A} (p : list A) y b, p <> p ++ y :: b.
Proof. intros A p y b H. apply (f_equal (@length A)) in H. rewrite app_length in H. cbn in H. lia. Qed.

Lemma lex_irr : forall a, ~ lex N.lt a a.
Proof.
  intros a [(p & x & y & a' & b' & -> & H & L)|(y & b' & H)].
  - apply app_inv_head in H. injection H as -> _. lia.
  - exact (prefix_irr _ _ _ H).
Qed.

Lemma less_irr : forall a b, less a b -> a <> b.
Proof.
  induction 1; intros E; try (injection E; intros; try lia; congruence).
  - injection E as ->. exact (lex_irr _ H).
  - injection E as E. apply app_inv_head in E. injection E as -> _. congruence.
  - injection E as E. exact (prefix_irr _ _ _ E).
Qed.

Lemma lex_trans : forall a b c, lex N.lt a b -> lex N.lt b c -> lex N.lt a c.
Proof.
  intros a b c [(p & x & y & a' & b' & -> & -> & L)|(y & b' & ->)] [(q & u & v & e & f & E & -> & M)|(v & f & E)].
  - destruct (split_eq _ _ _ _ _ _ E) as [(-> & -> & ->)|[(r & -> & ->)|(r & -> & ->)]].
    + left. exists q, x, v, a', f. repeat split; auto. lia.
    + left. exists q, u, v, (r ++ x :: a'), f. rewrite <- app_assoc. auto.
    + left. exists p, x, y, a', (r ++ v :: f). rewrite <- app_assoc. auto.
  - subst c. rewrite <- app_assoc. left. exists p, x, y, a', (b' ++ v :: f). auto.
  - destruct (split_eq _ _ _ _ _ _ E) as [(-> & -> & ->)|[(r & -> & ->)|(r & -> & ->)]].
    + right. exists v, f. auto.
    + left. exists q, u, v, r, f. auto.
    + right. exists y, (r ++ v :: f). rewrite <- app_assoc. auto.
  - subst c. right. exists y, (b' ++ v :: f). rewrite <- app_assoc. auto.
Qed.

Lemma less_trans : forall a b, less a b -> forall c, less b c -> less a c.
Proof.
  induction 1 as [x y H|x y H|a b H|p x y a b H IH|p y b|i j x y H|i x y H IH]; intros c K.
  - inversion K; subst. apply less_int. lia.
  - inversion K; subst. apply less_float. lia.
  - inversion K; subst. apply less_str. eapply lex_trans; eauto.
  - inversion K as [| | |q u v e f L E F|q v f E F| |]; subst.
    + symmetry in E. destruct (split_eq _ _ _ _ _ _ E) as [(-> & -> & ->)|[(r & -> & ->)|(r & -> & ->)]].
      * apply less_elem. apply IH; auto.
      * rewrite <- app_assoc. apply less_elem; auto.
      * rewrite <- app_assoc. apply (less_elem p); auto.
    + rewrite <- app_assoc. apply (less_elem p); auto.
  - inversion K as [| | |q u v e f L E F|q v f E F| |]; subst.
    + symmetry in E. destruct (split_eq _ _ _ _ _ _ E) as [(-> & -> & ->)|[(r & -> & ->)|(r & -> & ->)]].
      * apply less_prefix.
      * apply less_elem; auto.
      * rewrite <- app_assoc. apply (less_prefix p).
    + rewrite <- app_assoc. apply (less_prefix p).
  - inversion K; subst; apply less_index; lia.
  - inversion K; subst; [apply less_index; auto|]. apply less_value. apply IH; auto.
Qed.

Lemma operators : forall t a b, has_type t a -> has_type t b ->
  answers (rel t Oeq a b) (a = b) /\ answers (rel t One a b) (a <> b) /\
  answers (rel t Olt a b) (less a b) /\ answers (rel t Ole a b) (less a b \/ a = b) /\
  answers (rel t Ogt a b) (less b a) /\ answers (rel t Oge a b) (less b a \/ a = b).
Proof.
  intros t a b Ha Hb. destruct (all_good t a b Ha Hb) as (c & P & R & _). rewrite !R.
  assert (I : ~ less a a) by (intros H; exact (less_irr _ _ H eq_refl)).
  assert (J : ~ (less a b /\ less b a)) by (intros (X & Y); exact (I (less_trans _ _ X _ Y))).
  unfold answers. destruct c; cbn [opc pos] in *.
  - subst b. repeat split; eexists; split; try reflexivity; intuition congruence.
  - pose proof (less_irr _ _ P). repeat split; eexists; split; try reflexivity; intuition congruence.
  - pose proof (less_irr _ _ P). assert (a <> b) by congruence.
    repeat split; eexists; split; try reflexivity; intuition congruence.
Qed.

Lemma total : forall t a b, has_type t a -> has_type t b -> less a b \/ a = b \/ less b a.
Proof. intros t a b Ha Hb. destruct (all_good t a b Ha Hb) as ([] & P & _); cbn in P; auto. Qed.
(* ---- with NaN and valueless variants ---- *)
Definition coherent (t : ty) : Prop := forall a b,
  rel t One a b = neg (rel t Oeq a b) /\ rel t Ogt a b = rel t Olt b a /\ rel t Oge a b = rel t Ole b a /\
  (rel t Olt a b = Ok true -> rel t Olt b a = Ok false /\ rel t Oeq a b <> Ok true).
Lemma irel_coherent x y : irel One x y = negb (irel Oeq x y) /\ irel Ogt x y = irel Olt y x /\ irel Oge x y = irel Ole y x /\
  (irel Olt x y = true -> irel Olt y x = false /\ irel Oeq x y <> true).
Proof. cbn [irel]. repeat split; intros; try apply Z.ltb_nlt; try (intros K; apply Z.eqb_eq in K); apply Z.ltb_lt in H; lia. Qed.
Lemma frel_coherent x y : frel One x y = negb (frel Oeq x y) /\ frel Ogt x y = frel Olt y x /\ frel Oge x y = frel Ole y x /\
  (frel Olt x y = true -> frel Olt y x = false /\ frel Oeq x y <> true).
Proof. destruct x as [x|], y as [y|]; cbn [frel]; [apply irel_coherent| | |]; repeat split; discriminate. Qed.
Lemma srel_coherent x y : srel One x y = negb (srel Oeq x y) /\ srel Ogt x y = srel Olt y x /\ srel Oge x y = srel Ole y x /\
  (srel Olt x y = true -> srel Olt y x = false /\ srel Oeq x y <> true).
Proof. unfold srel. rewrite (scmp_sym x y). destruct (scmp x y); cbn; repeat split; discriminate. Qed.
Lemma vec_lt_asym t a : forall b, coherent t -> vec_lt (rel t Olt) a b = Ok true ->
  vec_lt (rel t Olt) b a = Ok false /\ vec_eq (rel t Oeq) a b <> Ok true.
Proof.
  induction a as [|x a IH]; intros [|y b] C H; cbn [vec_lt] in *; try discriminate.
  - split; [reflexivity|discriminate].
  - destruct (C x y) as (_ & _ & _ & C1). destruct (rel t Olt x y) as [l| | |]; try discriminate H. cbn [bind] in *. destruct l.
    + destruct (C1 eq_refl) as [-> C2]. cbn [bind]. split; [reflexivity|]. unfold vec_eq. destruct (_ =? _); [|discriminate].
      cbn [all_eq]. destruct (rel t Oeq x y) as [e| | |]; try discriminate. cbn [bind]. destruct e; [now destruct C2|discriminate].
    + destruct (rel t Olt y x) as [g| | |]; try discriminate H. cbn [bind] in *. destruct g; [discriminate|].
      destruct (IH b C H) as [I1 I2]. split; [exact I1|]. unfold vec_eq in *. cbn [length Nat.eqb]. destruct (_ =? _); [|exact I2].
      cbn [all_eq]. destruct (rel t Oeq x y) as [e| | |]; try discriminate. cbn [bind]. destruct e; [exact I2|discriminate].
Qed.
Lemma tup_lt_asym ts : Forall coherent ts -> forall a b, tup_lt ts a b = Ok true -> tup_lt ts b a = Ok false /\ tup_eq ts a b <> Ok true.
Proof.
  induction 1 as [|t ts C _ IH]; intros [|x a] [|y b] H; cbn [tup_lt tup_eq] in *; try discriminate.
  destruct (C x y) as (_ & _ & _ & C1). destruct (rel t Olt x y) as [l| | |]; try discriminate H. cbn [bind] in *. destruct l.
  - destruct (C1 eq_refl) as [-> C2]. cbn [bind]. split; [reflexivity|].
    destruct (rel t Oeq x y) as [e| | |]; try discriminate. cbn [bind]. destruct e; [now destruct C2|discriminate].
  - destruct (rel t Olt y x) as [g| | |]; try discriminate H. cbn [bind] in *. destruct g; [discriminate|].
    destruct (IH a b H) as [I1 I2]. split; [exact I1|].
    destruct (rel t Oeq x y) as [e| | |]; try discriminate. cbn [bind]. destruct e; [exact I2|discriminate].
Qed.
Lemma all_coherent : forall t, coherent t.
Proof.
  assert (L : forall (f : op -> bool) (g : op -> bool), (f One = negb (f Oeq) /\ f Ogt = g Olt /\ f Oge = g Ole /\ (f Olt = true -> g Olt = false /\ f Oeq <> true)) ->
    (@Ok bool (f One) = neg (Ok (f Oeq)) /\ @Ok bool (f Ogt) = Ok (g Olt) /\ @Ok bool (f Oge) = Ok (g Ole) /\
     (@Ok bool (f Olt) = Ok true -> @Ok bool (g Olt) = Ok false /\ @Ok bool (f Oeq) <> Ok true))).
  { intros f g (A & B & C & D). cbn [neg bind]. rewrite A, B, C. repeat split; try (injection H as H; destruct (D H) as [D1 D2]); congruence. }
  induction t using ty_ind'; intros a b.
  - destruct a, b; try (repeat split; discriminate). apply (L (fun o => irel o z z0) (fun o => irel o z0 z)), irel_coherent.
  - destruct a, b; try (repeat split; discriminate). apply (L (fun o => frel o f f0) (fun o => frel o f0 f)), frel_coherent.
  - destruct a, b; try (repeat split; discriminate). apply (L (fun o => srel o s s0) (fun o => srel o s0 s)), srel_coherent.
  - destruct a, b; try (repeat split; discriminate). cbn [rel derive]. repeat split; eapply vec_lt_asym; eassumption.
  - destruct a, b; try (repeat split; discriminate). repeat split; eapply (tup_lt_asym ts); eassumption.
  - destruct a, b; try (repeat split; discriminate). repeat split; eapply (tup_lt_asym ts); eassumption.
  - destruct a as [| | | |i x|], b as [| | | |j y|]; try (repeat split; discriminate).
    + cbn [rel]. rewrite (Nat.eqb_sym j i). destruct (Nat.eqb_spec i j) as [<-|N].
      * fold (alt_rel One) (alt_rel Oeq) (alt_rel Ogt) (alt_rel Olt) (alt_rel Oge) (alt_rel Ole). revert i.
        induction H as [|t ts C _ IH]; intros [|i]; cbn; try (repeat split; discriminate); [apply C|apply IH].
      * apply (L (fun o => irel o (Z.of_nat i) (Z.of_nat j)) (fun o => irel o (Z.of_nat j) (Z.of_nat i))), irel_coherent.
    + cbn [rel]. apply (L (fun o => irel o _ _) (fun o => irel o _ _)), irel_coherent.
    + cbn [rel]. apply (L (fun o => irel o _ _) (fun o => irel o _ _)), irel_coherent.
Qed.
