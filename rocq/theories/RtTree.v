(* The rtree in its node array: the abstract tree, ownership of nodes, splitting nodes. *)
From Coq Require Import Permutation.
From Verif Require Import Base RtModel RtSpec RtProofs.

(* permutations of lists built from the same parts *)
Lemma perm_next {A} (a b c d : list A) : Permutation c (a ++ d) -> Permutation (b ++ c) (a ++ b ++ d).
Proof. intros H. rewrite H. rewrite !app_assoc. apply Permutation_app_tail, Permutation_app_comm. Qed.
Lemma perm_go {A} (a r c x : list A) : Permutation r (a ++ c) -> Permutation x c -> Permutation (a ++ x) r.
Proof. intros H G. rewrite H, G. auto. Qed.
Lemma cons_sing {A} (x y : A) l : x :: y :: l = [x] ++ y :: l.
Proof. auto. Qed.
Lemma cons_app {A} (x : A) l m : x :: (l ++ m) = [x] ++ (l ++ m).
Proof. auto. Qed.
Ltac front := first [apply Permutation_refl | apply perm_next; front].
Ltac perm_norm := repeat first [rewrite cons_sing | rewrite cons_app | rewrite <- app_assoc | rewrite app_nil_r | rewrite app_nil_l].
Ltac cons_tail := repeat match goal with |- context [?x :: ?l] => lazymatch l with nil => fail | _ => change (x :: l) with ([x] ++ l) end end.
Ltac perm :=
  cons_tail; rewrite <- ?app_assoc, ?app_nil_r; cbn [app]; cons_tail; rewrite <- ?app_assoc;
  match goal with |- Permutation ?l ?r => apply (@Permutation_trans _ l (l ++ []) r); [rewrite app_nil_r; apply Permutation_refl|]; apply (@Permutation_trans _ (l ++ []) (r ++ []) r); [|rewrite app_nil_r; apply Permutation_refl] end;
  rewrite <- ?app_assoc;
  repeat (eapply perm_go; [front|]); apply Permutation_refl.

Section Tree.
Variables (C : Type) (lt : C -> C -> bool) (c0 : C).
Variables (D : Type) (diff : C -> C -> D) (mulD subD : D -> D -> D) (oneD infD : D) (ltD : D -> D -> bool).
Variables (V : Type) (Dims MaxItems Hints : nat).
Hypothesis O : order_ok lt.
Hypothesis DimsPos : 0 < Dims.
Hypothesis Max3 : 3 <= MaxItems.
Notation rect := (rect C).
Notation entry := (rect * V)%type.
Notation contains := (contains C lt).
Notation expand := (expand C lt).
Notation node := (node C V).
Notation tree := (tree C V).
Notation leaf := (leaf C V).
Notation branch := (branch C V).
Notation dim r := (length (r : rect) = Dims).
Notation dims := (dims C Dims).
Notation kmin := (min_items MaxItems).
Notation nodes := (nodes C V).
Notation free := (free C V).
Notation hints := (hints C V).
Notation bbox := (bounding_box C lt c0 Dims).
Notation bbox_ok := (bbox_ok C lt c0 D diff mulD subD infD ltD Dims O).
Notation contains_trans := (contains_trans C lt c0 D diff mulD subD infD ltD Dims O).
Notation split_ents_ok := (split_ents_ok C lt c0 D diff mulD subD oneD infD ltD Dims MaxItems O).
Notation choose_least_lt := (choose_least_lt C lt D diff mulD subD oneD infD ltD).
Notation expand_l := (expand_l C lt c0 D diff mulD subD infD ltD Dims O).
Notation expand_r := (expand_r C lt c0 D diff mulD subD infD ltD Dims O).
Notation expand_dim := (expand_dim C lt c0 D diff mulD subD infD ltD Dims).
Notation contains_refl := (contains_refl C lt c0 D diff mulD subD infD ltD Dims O).
Notation remove_at_ok := (remove_at_ok C c0 D diff mulD subD infD ltD).
Notation intersects_mono := (intersects_mono C lt c0 D diff mulD subD infD ltD Dims O).
Lemma kmin_facts : 0 < kmin /\ 2 * kmin <= MaxItems /\ 2 <= MaxItems - kmin.
Proof. assert (A := min_items_half MaxItems ltac:(lia)). assert (B := min_items_two MaxItems Max3). unfold min_items in *. lia. Qed.

Inductive at_ := AL (id : nat) (l : list entry) | AB (id : nat) (l : list (rect * at_)).
Definition rid (T : at_) : nat := match T with AL id _ | AB id _ => id end.
Definition size (T : at_) : nat := match T with AL _ l => length l | AB _ l => length l end.
Fixpoint ids (T : at_) : list nat := match T with AL id _ => [id] | AB id l => id :: flat_map (fun e => ids (snd e)) l end.
Fixpoint cont (T : at_) : list entry := match T with AL _ l => l | AB _ l => flat_map (fun e => cont (snd e)) l end.
Definition idsl (l : list (rect * at_)) : list nat := flat_map (fun e => ids (snd e)) l.
Definition contl (l : list (rect * at_)) : list entry := flat_map (fun e => cont (snd e)) l.
Definition kids (l : list (rect * at_)) : list (rect * nat) := map (fun e => (fst e, rid (snd e))) l.
Definition cover (R : rect) (l : list entry) : Prop := Forall (fun e => contains R (fst e) = true) l.

Fixpoint wf (lev : nat) (T : at_) : Prop :=
  match T, lev with
  | AL _ l, 0 => length l <= MaxItems /\ dims _ l
  | AB _ l, S lev => length l <= MaxItems /\ Forall (fun e => dim (fst e) /\ cover (fst e) (cont (snd e)) /\ wf lev (snd e) /\ 0 < size (snd e)) l
  | _, _ => False
  end.
Definition wfe lev (e : rect * at_) : Prop := dim (fst e) /\ cover (fst e) (cont (snd e)) /\ wf lev (snd e) /\ 0 < size (snd e).
Fixpoint rep (lev : nat) (ns : list node) (T : at_) : Prop :=
  match T, lev with
  | AL id l, 0 => nth_error ns id = Some (leaf l)
  | AB id l, S lev => nth_error ns id = Some (branch (kids l)) /\ Forall (fun e => rep lev ns (snd e)) l
  | _, _ => False
  end.
Fixpoint cred (lev : nat) (T : at_) : nat :=
  match T, lev with
  | AL _ l, _ => length l - (MaxItems - kmin)
  | AB _ l, S lev' => (length l - (MaxItems - kmin)) * kmin ^ lev + list_sum (map (fun e => cred lev' (snd e)) l)
  | AB _ l, 0 => 0
  end.
Definition credl lev (l : list (rect * at_)) : nat := list_sum (map (fun e => cred lev (snd e)) l).
Definition next (n : node) : option nat := match n_kind _ _ n with KEnd => None | _ => Some (n_link _ _ n) end.
Fixpoint frep (ns : list node) (f : option nat) (fl : list nat) : Prop :=
  match fl with
  | [] => f = None
  | id :: fl => f = Some id /\ exists n, nth_error ns id = Some n /\ frep ns (next n) fl
  end.
Definition own (ns : list node) (L : list nat) : Prop := NoDup L /\ Forall (fun j => j < length ns) L.
Definition grow (ns ns' : list node) (a b : list nat) : Prop :=
  length ns <= length ns' /\ Permutation b (a ++ seq (length ns) (length ns' - length ns)) /\ forall j, j < length ns -> ~ In j a -> nth_error ns' j = nth_error ns j.
Definition meta (t t' : tree) : Prop := root _ _ t' = root _ _ t /\ m_rect _ _ t' = m_rect _ _ t /\ m_count _ _ t' = m_count _ _ t /\ height _ _ t' = height _ _ t /\ length (hints t') = length (hints t).

Lemma meta_refl t : meta t t.
Proof. unfold meta. auto. Qed.
Lemma meta_trans a b c : meta a b -> meta b c -> meta a c.
Proof. unfold meta. intuition congruence. Qed.
Lemma meta_set t id n : meta t (set_node C V t id n).
Proof. unfold meta. auto. Qed.
Lemma meta_set_r t t' id n : meta t t' -> meta t (set_node C V t' id n).
Proof. unfold meta. auto. Qed.

Lemma own_perm ns a b : Permutation a b -> own ns a -> own ns b.
Proof. intros P (N & F). split; [eapply Permutation_NoDup; eauto|eapply Permutation_Forall; eauto]. Qed.
Lemma own_app_l ns a b : own ns (a ++ b) -> own ns a.
Proof. intros (N & F). split; [|apply Forall_app in F; tauto]. clear F. induction a as [|x a IH]; constructor; inversion N; subst; auto. intros I. apply H1, in_or_app. auto. Qed.
Lemma own_app_r ns a b : own ns (a ++ b) -> own ns b.
Proof. intros H. apply (own_app_l ns b a). eapply own_perm; [|exact H]. perm. Qed.
Lemma own_notin ns a b j : own ns (a ++ b) -> In j a -> ~ In j b.
Proof. intros (N & _) I J. induction a as [|x a IH]; [destruct I|]. inversion N; subst. destruct I as [->|I]; [apply H1, in_or_app; auto|auto]. Qed.
Lemma own_lt ns a j : own ns a -> In j a -> j < length ns.
Proof. intros (_ & F) I. rewrite Forall_forall in F. auto. Qed.
Lemma own_grow ns ns' a b : own ns a -> grow ns ns' a b -> own ns' b.
Proof.
  intros (N & F) (L & P & _). split.
  - eapply Permutation_NoDup; [symmetry; exact P|]. clear P. induction a as [|x a IH]; cbn [app]; [apply seq_NoDup|]. inversion N; inversion F; subst. constructor; auto. intros I. apply in_app_or in I. destruct I as [I|I]; [auto|]. apply in_seq in I. lia.
  - eapply Permutation_Forall; [symmetry; exact P|]. apply Forall_app. split; [eapply Forall_impl; [|exact F]; cbn; intros; lia|]. rewrite Forall_forall. intros j I. apply in_seq in I. lia.
Qed.
Lemma grow_refl ns a : grow ns ns a a.
Proof. split; [auto|]. split; [rewrite Nat.sub_diag; cbn; rewrite app_nil_r; auto|auto]. Qed.
Lemma grow_trans n1 n2 n3 a b c : grow n1 n2 a b -> grow n2 n3 b c -> grow n1 n3 a c.
Proof.
  intros (L1 & P1 & F1) (L2 & P2 & F2). split; [lia|]. split.
  - rewrite P2, P1. rewrite <- app_assoc. replace (length n3 - length n1) with ((length n2 - length n1) + (length n3 - length n2)) by lia. rewrite seq_app. replace (length n1 + (length n2 - length n1)) with (length n2) by lia. auto.
  - intros j Hj Ha. rewrite F2; [apply F1; auto|lia|]. intros I. eapply Permutation_in in I; [|exact P1]. apply in_app_or in I. destruct I as [I|I]; [auto|]. apply in_seq in I. lia.
Qed.
Lemma grow_perm ns ns' a b a' b' : Permutation a a' -> Permutation b b' -> grow ns ns' a b -> grow ns ns' a' b'.
Proof. intros Pa Pb (L & P & F). split; [auto|]. split; [rewrite <- Pb, P, Pa; auto|]. intros j Hj Ha. apply F; auto. intros I. apply Ha. eapply Permutation_in; eauto. Qed.
Lemma grow_frame ns ns' a b r : grow ns ns' a b -> grow ns ns' (r ++ a) (r ++ b).
Proof. intros (L & P & F). split; [auto|]. split; [rewrite P, app_assoc; auto|]. intros j Hj Ha. apply F; auto. intros I. apply Ha, in_or_app. auto. Qed.

(* writing a node *)
Lemma set_nodes_nth (ns : list node) i n j : i < length ns -> nth_error (firstn i ns ++ n :: skipn (S i) ns) j = if j =? i then Some n else nth_error ns j.
Proof.
  intros H. destruct (Nat.eqb_spec j i) as [->|N].
  - rewrite nth_error_app2; rewrite firstn_length; [|lia]. replace (i - Nat.min i (length ns)) with 0 by lia. auto.
  - destruct (Nat.lt_ge_cases j i).
    + rewrite nth_error_app1 by (rewrite firstn_length; lia). rewrite <- (firstn_skipn i ns) at 2. rewrite nth_error_app1 by (rewrite firstn_length; lia). auto.
    + rewrite nth_error_app2 by (rewrite firstn_length; lia). rewrite firstn_length. replace (j - Nat.min i (length ns)) with (S (j - S i)) by lia. cbn [nth_error].
      rewrite <- (firstn_skipn (S i) ns) at 2. rewrite nth_error_app2 by (rewrite firstn_length; lia). rewrite firstn_length. f_equal. lia.
Qed.
Lemma set_nodes_len (ns : list node) i n : i < length ns -> length (firstn i ns ++ n :: skipn (S i) ns) = length ns.
Proof. intros H. rewrite app_length, firstn_length. cbn [length]. rewrite skipn_length. lia. Qed.
Lemma set_node_nth t i n j : i < length (nodes t) -> nth_error (nodes (set_node C V t i n)) j = if j =? i then Some n else nth_error (nodes t) j.
Proof. apply set_nodes_nth. Qed.
Lemma set_node_same t i n : nth_error (nodes t) i = Some n -> set_node C V t i n = t.
Proof.
  intros H. destruct t as [ns ? ? ? ? ? ?]. unfold set_node, with_nodes. cbn in *. f_equal. apply list_ext. intros j. assert (i < length ns) by (apply nth_error_Some; congruence). rewrite set_nodes_nth by auto. destruct (Nat.eqb_spec j i); congruence.
Qed.
Lemma set_node_grow t i n a : i < length (nodes t) -> In i a -> grow (nodes t) (nodes (set_node C V t i n)) a a.
Proof.
  intros H I. assert (L : length (nodes (set_node C V t i n)) = length (nodes t)) by (apply set_nodes_len; auto). split; [lia|]. split; [rewrite L, Nat.sub_diag; cbn; rewrite app_nil_r; auto|].
  intros j Hj Hn. rewrite set_node_nth by auto. destruct (Nat.eqb_spec j i); [subst; contradiction|auto].
Qed.

(* frames *)
Lemma rid_in T : In (rid T) (ids T).
Proof. destruct T; left; auto. Qed.
Lemma rep_frame lev : forall ns ns' T, rep lev ns T -> (forall j, In j (ids T) -> nth_error ns' j = nth_error ns j) -> rep lev ns' T.
Proof.
  induction lev as [|lev IH]; intros ns ns' [id l|id l]; cbn [rep]; try tauto.
  - intros H F. rewrite F; auto. left; auto.
  - intros (H & Hl) F. split; [rewrite F; auto; left; auto|]. assert (F' : forall j, In j (idsl l) -> nth_error ns' j = nth_error ns j) by (intros j I; apply F; right; auto). clear F H.
    induction l as [|e l IHl]; constructor; inversion Hl; subst; [|apply IHl; auto; intros j I; apply F'; cbn; apply in_or_app; auto]. eapply IH; eauto. intros j I. apply F'. cbn. apply in_or_app. auto.
Qed.
Lemma repl_frame lev ns ns' l : Forall (fun e => rep lev ns (snd e)) l -> (forall j, In j (idsl l) -> nth_error ns' j = nth_error ns j) -> Forall (fun e => rep lev ns' (snd e)) l.
Proof.
  intros Hl F. induction l as [|e l IHl]; constructor; inversion Hl; subst; [|apply IHl; auto; intros j I; apply F; cbn; apply in_or_app; auto]. eapply rep_frame; eauto. intros j I. apply F. cbn. apply in_or_app. auto.
Qed.
Lemma frep_frame ns ns' : forall fl f, frep ns f fl -> (forall j, In j fl -> nth_error ns' j = nth_error ns j) -> frep ns' f fl.
Proof.
  induction fl as [|id fl IH]; intros f; cbn [frep]; auto. intros (-> & n & N & H) F. split; [auto|]. exists n. split; [rewrite F; auto; left; auto|]. apply IH; auto. intros j I. apply F. right. auto.
Qed.
Lemma grow_same ns ns' a b j r : grow ns ns' a b -> own ns (r ++ a) -> In j r -> nth_error ns' j = nth_error ns j.
Proof. intros (_ & _ & F) W I. apply F; [eapply own_lt; [exact W|apply in_or_app; auto]|eapply own_notin; eauto]. Qed.

Lemma idsl_app a b : idsl (a ++ b) = idsl a ++ idsl b.
Proof. apply flat_map_app. Qed.
Lemma contl_app a b : contl (a ++ b) = contl a ++ contl b.
Proof. apply flat_map_app. Qed.
Lemma kids_app a b : kids (a ++ b) = kids a ++ kids b.
Proof. apply map_app. Qed.
Lemma credl_app lev a b : credl lev (a ++ b) = credl lev a + credl lev b.
Proof. unfold credl. rewrite map_app, list_sum_app. auto. Qed.
Lemma kids_len l : length (kids l) = length l.
Proof. apply map_length. Qed.
Lemma contl_perm a b : Permutation a b -> Permutation (contl a) (contl b).
Proof. intros P. unfold contl. apply Permutation_flat_map. auto. Qed.
Lemma idsl_perm a b : Permutation a b -> Permutation (idsl a) (idsl b).
Proof. intros P. unfold idsl. apply Permutation_flat_map. auto. Qed.
Lemma credl_perm lev a b : Permutation a b -> credl lev a = credl lev b.
Proof. intros P. unfold credl. induction P; cbn [map list_sum fold_right] in *; try lia. unfold list_sum in *. lia. Qed.
Lemma set_mid {X} (a : list (rect * X)) e b x : set_ent C X (a ++ e :: b) (length a) x = a ++ x :: b.
Proof. unfold set_ent. rewrite firstn_app, firstn_all, Nat.sub_diag. cbn [firstn]. rewrite app_nil_r. f_equal. f_equal. replace (S (length a)) with (length a + 1) by lia. rewrite skipn_app. rewrite skipn_all2 by lia. replace (length a + 1 - length a) with 1 by lia. auto. Qed.
Lemma ent_mid {X} (a : list (rect * X)) e b : ent C X (a ++ e :: b) (length a) = Ok e.
Proof. unfold ent. rewrite nth_error_app2, Nat.sub_diag by lia. auto. Qed.
Lemma cover_perm R a b : Permutation a b -> cover R a -> cover R b.
Proof. intros. eapply Permutation_Forall; eauto. Qed.
Lemma cover_app R a b : cover R (a ++ b) <-> cover R a /\ cover R b.
Proof. apply Forall_app. Qed.

(* new nodes *)
Lemma node_new_ok t k fl : frep (nodes t) (free t) fl -> own (nodes t) fl ->
  exists t' id fl', node_new C V t k = Ok (t', id) /\ meta t t' /\ nth_error (nodes t') id = Some (Node _ _ k [] [] 0) /\ frep (nodes t') (free t') fl' /\ grow (nodes t) (nodes t') fl (id :: fl').
Proof.
  intros Hf Ho. unfold node_new. destruct fl as [|id fl]; cbn [frep] in Hf.
  - rewrite Hf. eexists _, _, []. split; [reflexivity|]. split; [unfold meta; auto|]. cbn [nodes free with_nodes].
    split; [rewrite nth_error_app2, Nat.sub_diag by lia; auto|]. split; [auto|]. unfold with_nodes. cbn [RtModel.nodes]. split; [rewrite app_length; lia|]. split.
    + rewrite app_length. cbn [length]. replace (length (nodes t) + 1 - length (nodes t)) with 1 by lia. auto.
    + intros j Hj _. rewrite nth_error_app1; auto.
  - destruct Hf as (Ef & n & N & Hn). rewrite Ef. unfold get_node. rewrite N. cbn [bind]. assert (Hi : id < length (nodes t)) by (apply nth_error_Some; congruence).
    eexists _, id, fl. split; [reflexivity|]. split; [unfold meta; auto|]. fold (next n). set (t0 := with_free C V t (next n)). change (nodes t) with (nodes t0) in *.
    split; [rewrite set_node_nth, Nat.eqb_refl by auto; auto|]. split.
    + change (free (set_node C V t0 id _)) with (next n). eapply frep_frame; [exact Hn|]. intros j I. rewrite set_node_nth by auto. destruct (Nat.eqb_spec j id); [|auto]. subst. exfalso. eapply (own_notin _ [id] fl); eauto. left; auto.
    + eapply set_node_grow; [auto|left; auto].
Qed.
(* the free list grows *)
Lemma add_free_ok t id n fl : frep (nodes t) (free t) fl -> own (nodes t) (id :: fl) -> nth_error (nodes t) id = Some n -> n_kind _ _ n <> KEnd ->
  exists t', add_to_free_list C V t id = Ok t' /\ meta t t' /\ frep (nodes t') (free t') (id :: fl) /\ grow (nodes t) (nodes t') (id :: fl) (id :: fl) /\ (forall j, j <> id -> nth_error (nodes t') j = nth_error (nodes t) j).
Proof.
  intros Hf Ho N K. unfold add_to_free_list, get_node. rewrite N. cbn [bind]. assert (Hi : id < length (nodes t)) by (apply nth_error_Some; congruence).
  eexists. split; [reflexivity|]. split; [unfold meta; auto|]. cbn [with_free RtModel.nodes RtModel.free].
  match goal with |- context [set_node C V t id ?x] => set (m := x) end. change (RtModel.nodes C V (with_free C V (set_node C V t id m) (Some id))) with (nodes (set_node C V t id m)).
  split; [|split; [apply set_node_grow; auto; left; auto|intros j Nj; rewrite set_node_nth by auto; destruct (Nat.eqb_spec j id); congruence]].
  cbn [frep]. split; [auto|]. exists m. split; [rewrite set_node_nth, Nat.eqb_refl by auto; auto|].
  assert (E : next m = free t). { unfold m, next. destruct (free t); auto. cbn [n_kind n_link]. destruct (n_kind _ _ n); congruence. }
  rewrite E. eapply frep_frame; [exact Hf|]. intros j I. rewrite set_node_nth by auto. destruct (Nat.eqb_spec j id); [|auto]. subst. exfalso. eapply (own_notin _ [id] fl); eauto. left; auto.
Qed.

Lemma rep_get lev t T : rep lev (nodes t) T -> exists n, get_node C V t (rid T) = Ok n /\ nth_error (nodes t) (rid T) = Some n /\ n_count _ _ n = size T /\ n_kind _ _ n <> KEnd.
Proof.
  intros H. unfold get_node. destruct T as [id l|id l], lev as [|lev]; cbn [rep rid size] in *; try contradiction.
  - rewrite H. eexists. repeat split; auto. cbn. congruence.
  - destruct H as (H & _). rewrite H. eexists. repeat split; [cbn; apply kids_len|cbn; congruence].
Qed.
(* bounding boxes *)
Lemma kids_dims lev l : Forall (wfe lev) l -> dims _ (kids l).
Proof. intros H. unfold RtProofs.dims, kids. apply Forall_map. eapply Forall_impl; [|exact H]. intros e (A & _). exact A. Qed.
Lemma bbox_kids lev l : Forall (wfe lev) l -> Forall (fun e => wf lev (snd e) -> Forall (fun x => dim (fst x)) (cont (snd e))) l -> 0 < length l -> dim (bbox _ (kids l)) /\ cover (bbox _ (kids l)) (contl l).
Proof.
  intros H Hd Hl. destruct (bbox_ok nat (kids l) (kids_dims lev l H) ltac:(rewrite kids_len; auto)) as (A & B). split; [auto|].
  unfold cover, contl. rewrite Forall_forall. intros x I. apply in_flat_map in I. destruct I as (e & Ie & Ix). rewrite Forall_forall in H, Hd. destruct (H e Ie) as (De & Ce & We & _). unfold cover in Ce. rewrite Forall_forall in Ce.
  assert (Dx : dim (fst x)) by (specialize (Hd e Ie We); rewrite Forall_forall in Hd; auto).
  eapply (contains_trans _ (fst e)); auto. apply (B (fst e, rid (snd e))). unfold kids. apply in_map_iff. exists e. auto.
Qed.
Lemma wf_dims lev : forall T, wf lev T -> dims _ (cont T).
Proof.
  induction lev as [|lev IH]; intros [id l|id l]; cbn [wf cont]; try tauto. intros (_ & H). unfold RtProofs.dims. rewrite Forall_forall. intros x I. apply in_flat_map in I. destruct I as (e & Ie & Ix). rewrite Forall_forall in H. destruct (H e Ie) as (_ & _ & W & _). specialize (IH _ W). unfold RtProofs.dims in IH. rewrite Forall_forall in IH. auto.
Qed.
Lemma bbox_kids' lev l : Forall (wfe lev) l -> 0 < length l -> dim (bbox _ (kids l)) /\ cover (bbox _ (kids l)) (contl l).
Proof. intros H Hl. apply (bbox_kids lev); auto. eapply Forall_impl; [|exact H]. intros e _ W. apply (wf_dims lev); auto. Qed.
Lemma node_bbox_ok lev t T : rep lev (nodes t) T -> wf lev T -> 0 < size T -> exists B, node_bbox C lt c0 V Dims t (rid T) = Ok B /\ dim B /\ cover B (cont T).
Proof.
  intros R W S. unfold node_bbox, get_node. destruct T as [id l|id l], lev as [|lev]; cbn [rep wf size rid cont] in *; try contradiction.
  - rewrite R. cbn [bind n_kind leaf n_data RtModel.leaf]. eexists. split; [reflexivity|]. destruct (bbox_ok V l (proj2 W) S) as (A & B). split; [auto|]. unfold cover. rewrite Forall_forall. auto.
  - destruct R as (R & _). rewrite R. cbn [bind n_kind branch n_kids RtModel.branch]. eexists. split; [reflexivity|]. apply (bbox_kids' lev); auto. apply W.
Qed.

(* splitting a node *)
Lemma cred_AB lev id l : cred (S lev) (AB id l) = (length l - (MaxItems - kmin)) * kmin ^ S lev + credl lev l.
Proof. auto. Qed.
Lemma node_split_ok lev t nr T fl : rep lev (nodes t) T -> wf lev T -> size T = MaxItems -> frep (nodes t) (free t) fl -> own (nodes t) (ids T ++ fl) -> dim nr ->
  exists t' T1 T2 fl', node_split C lt D diff ltD V MaxItems t nr (rid T) = Ok (t', rid T2) /\ meta t t' /\ rid T1 = rid T /\ rep lev (nodes t') T1 /\ rep lev (nodes t') T2 /\ wf lev T1 /\ wf lev T2 /\
    0 < size T1 /\ 0 < size T2 /\ frep (nodes t') (free t') fl' /\ grow (nodes t) (nodes t') (ids T ++ fl) (ids T1 ++ ids T2 ++ fl') /\ Permutation (cont T1 ++ cont T2) (cont T) /\ cred lev T1 + cred lev T2 + kmin ^ S lev <= cred lev T.
Proof.
  intros R W S Hf Ho Dn. unfold node_split. destruct (rep_get lev t T R) as (n & G & Gn & _ & _). rewrite G. cbn [bind].
  destruct (node_new_ok t (n_kind _ _ n) fl Hf (own_app_r _ _ _ Ho)) as (t1 & rg & fl1 & -> & M1 & N1 & F1 & G1). cbn [bind].
  assert (G1' := grow_frame _ _ _ _ (ids T) G1). assert (O1 := own_grow _ _ _ _ Ho G1').
  assert (Irid : In (rid T) (ids T ++ rg :: fl1)) by (apply in_or_app; left; apply rid_in). assert (Irg : In rg (ids T ++ rg :: fl1)) by (apply in_or_app; right; left; auto).
  assert (L1 := own_lt _ _ _ O1 Irid). assert (L2 := own_lt _ _ _ O1 Irg).
  assert (Nrg : ~ In rg (ids T)) by (intros I; eapply (own_notin _ _ _ _ O1 I); left; auto).
  assert (Nrid : rg <> rid T) by (intros ->; apply Nrg, rid_in).
  destruct kmin_facts as (K0 & K1 & K2).
  destruct T as [id l|id l], lev as [|lev]; cbn [rep wf size rid cont] in *; try contradiction.
  - rewrite R in Gn. injection Gn as <-. cbn [n_kind n_data RtModel.leaf]. destruct W as (Wl & Wd).
    destruct (split_ents_ok V false nr l DimsPos Dn Wd S ltac:(lia)) as (a & b & -> & P & La & Lb). cbn [bind].
    set (t2 := set_node C V t1 id (leaf a)). set (t3 := set_node C V t2 rg (leaf b)). assert (LL := Permutation_length P). rewrite app_length in LL.
    assert (L2' : rg < length (nodes t2)) by (unfold t2; cbn; rewrite set_nodes_len; auto).
    exists t3, (AL id a), (AL rg b), fl1. split; [reflexivity|]. split; [do 2 apply meta_set_r; auto|]. split; [auto|]. cbn [rep wf size cont ids rid cred].
    split; [unfold t3, t2; rewrite set_node_nth by auto; rewrite set_node_nth by auto; destruct (Nat.eqb_spec id rg); [congruence|]; rewrite Nat.eqb_refl; auto|].
    split; [unfold t3; rewrite set_node_nth by auto; rewrite Nat.eqb_refl; auto|].
    assert (Dab : dims _ (a ++ b)) by (eapply (dims_perm C Dims V); [symmetry; exact P|auto]). apply Forall_app in Dab. destruct Dab as (Da & Db).
    split; [split; [lia|auto]|]. split; [split; [lia|auto]|]. split; [lia|]. split; [lia|]. split; [|split; [|split; [auto|]]].
    + change (free t3) with (free t1). eapply frep_frame; [exact F1|]. intros j I. unfold t3, t2. rewrite set_node_nth by auto. rewrite set_node_nth by auto.
      destruct (Nat.eqb_spec j rg) as [->|]; [exfalso; eapply (own_notin _ [rg] fl1); [eapply own_app_r; exact O1|left; auto|auto]|]. destruct (Nat.eqb_spec j id) as [->|]; [|auto]. exfalso. eapply (own_notin _ _ _ _ O1); [left; eauto|right; auto].
    + eapply grow_trans; [exact G1'|]. eapply grow_trans; [apply (set_node_grow t1 id (leaf a)); auto|]. apply (grow_perm _ _ (ids (AL id l) ++ rg :: fl1) (ids (AL id l) ++ rg :: fl1)); [auto|cbn [ids]; perm|]. apply (set_node_grow t2); auto.
    + cbn [Nat.pow]. lia.
  - destruct R as (R & Rk). rewrite R in Gn. injection Gn as <-. cbn [n_kind n_kids RtModel.branch]. destruct W as (Wl & Wk).
    destruct (split_ents_ok nat true nr (kids l) DimsPos Dn (kids_dims lev l Wk) ltac:(rewrite kids_len; auto) ltac:(lia)) as (a0 & b0 & -> & P & La & Lb). cbn [bind].
    apply Permutation_map_inv in P. destruct P as (l3 & E3 & P3). symmetry in E3. apply map_eq_app in E3. destruct E3 as (a & b & -> & Ea & Eb). fold (kids a) in Ea. fold (kids b) in Eb. subst a0 b0. rewrite kids_len in La, Lb.
    set (t2 := set_node C V t1 id (branch (kids a))). set (t3 := set_node C V t2 rg (branch (kids b))). assert (LL := Permutation_length P3). rewrite app_length in LL.
    assert (L2' : rg < length (nodes t2)) by (unfold t2; cbn; rewrite set_nodes_len; auto).
    assert (Pids : Permutation (idsl l) (idsl a ++ idsl b)) by (rewrite <- idsl_app; apply idsl_perm; auto).
    assert (Nid : ~ In id (idsl l)) by (intros I; apply own_app_l in Ho; eapply (own_notin _ [id] (idsl l)); [exact Ho|left; auto|auto]).
    assert (Keep : forall j, In j (idsl l) -> nth_error (nodes t3) j = nth_error (nodes t) j).
    { intros j I. unfold t3, t2. rewrite set_node_nth by auto. rewrite set_node_nth by auto. destruct (Nat.eqb_spec j rg) as [->|]; [exfalso; apply Nrg; right; auto|]. destruct (Nat.eqb_spec j id) as [->|]; [contradiction|].
      eapply grow_same; [exact G1|exact Ho|]. right. auto. }
    assert (Wab : Forall (wfe lev) (a ++ b)) by (eapply Permutation_Forall; [exact P3|exact Wk]). apply Forall_app in Wab. destruct Wab as (Wa & Wb).
    assert (Rab : Forall (fun e => rep lev (nodes t3) (snd e)) (a ++ b)) by (eapply Permutation_Forall; [exact P3|]; eapply repl_frame; [exact Rk|exact Keep]). apply Forall_app in Rab. destruct Rab as (Ra & Rb).
    exists t3, (AB id a), (AB rg b), fl1. split; [reflexivity|]. split; [do 2 apply meta_set_r; auto|]. split; [auto|]. cbn [rep wf size cont rid].
    split; [split; [unfold t3, t2; rewrite set_node_nth by auto; rewrite set_node_nth by auto; destruct (Nat.eqb_spec id rg); [congruence|]; rewrite Nat.eqb_refl; auto|auto]|].
    split; [split; [unfold t3; rewrite set_node_nth by auto; rewrite Nat.eqb_refl; auto|auto]|].
    split; [split; [lia|auto]|]. split; [split; [lia|auto]|]. split; [lia|]. split; [lia|]. split; [|split; [|split]].
    + change (free t3) with (free t1). eapply frep_frame; [exact F1|]. intros j I. unfold t3, t2. rewrite set_node_nth by auto. rewrite set_node_nth by auto.
      destruct (Nat.eqb_spec j rg) as [->|]; [exfalso; eapply (own_notin _ [rg] fl1); [eapply own_app_r; exact O1|left; auto|auto]|]. destruct (Nat.eqb_spec j id) as [->|]; [|auto]. exfalso. eapply (own_notin _ _ _ _ O1); [left; eauto|right; auto].
    + eapply grow_trans; [exact G1'|]. eapply grow_trans; [apply (set_node_grow t1 id (branch (kids a))); auto|]. apply (grow_perm _ _ (ids (AB id l) ++ rg :: fl1) (ids (AB id l) ++ rg :: fl1)); [auto| |apply (set_node_grow t2); auto].
      cbn [ids]. fold (idsl l) (idsl a) (idsl b). change (id :: idsl l) with ([id] ++ idsl l). rewrite Pids. perm.
    + fold (contl a) (contl b) (contl l). rewrite <- contl_app. apply contl_perm. symmetry. auto.
    + rewrite !cred_AB. rewrite (credl_perm lev l (a ++ b) P3), credl_app. replace (length a - (MaxItems - kmin)) with 0 by lia. replace (length b - (MaxItems - kmin)) with 0 by lia. replace (length l - (MaxItems - kmin)) with kmin by lia. cbn [Nat.pow]. nia.
Qed.

(* ---- insert ---- *)
Notation node_insert := (node_insert C lt c0 D diff mulD subD oneD infD ltD V Dims MaxItems).
Notation node_choose := (node_choose C lt D diff mulD subD oneD infD ltD V).
Lemma put_branch lev t id l fl : id < length (nodes t) -> ~ In id (idsl l) -> ~ In id fl -> Forall (fun e => rep lev (nodes t) (snd e)) l -> frep (nodes t) (free t) fl ->
  let t' := set_node C V t id (branch (kids l)) in rep (S lev) (nodes t') (AB id l) /\ frep (nodes t') (free t') fl.
Proof.
  intros Hi N1 N2 R F t'. assert (K : forall j, j <> id -> nth_error (nodes t') j = nth_error (nodes t) j) by (intros j Nj; unfold t'; rewrite set_node_nth by auto; destruct (Nat.eqb_spec j id); congruence).
  split; [split; [unfold t'; rewrite set_node_nth, Nat.eqb_refl by auto; auto|eapply repl_frame; [exact R|]]|eapply frep_frame; [exact F|]]; intros j I; apply K; intros ->; auto.
Qed.
Lemma replace_child lev ns ns' id l1 R c l2 fl c' fl' : rep (S lev) ns (AB id (l1 ++ (R, c) :: l2)) -> own ns (ids (AB id (l1 ++ (R, c) :: l2)) ++ fl) -> grow ns ns' (ids c ++ fl) (ids c' ++ fl') ->
  nth_error ns' id = Some (branch (kids (l1 ++ (R, c) :: l2))) /\ Forall (fun e => rep lev ns' (snd e)) (l1 ++ l2) /\
  grow ns ns' (ids (AB id (l1 ++ (R, c) :: l2)) ++ fl) ((id :: idsl l1 ++ idsl l2) ++ (ids c' ++ fl')) /\ own ns' ((id :: idsl l1 ++ idsl l2) ++ (ids c' ++ fl')).
Proof.
  intros (R0 & Rl) Ho G. assert (P : Permutation (ids (AB id (l1 ++ (R, c) :: l2)) ++ fl) ((id :: idsl l1 ++ idsl l2) ++ (ids c ++ fl))).
  { cbn [ids]. fold (idsl (l1 ++ (R, c) :: l2)). rewrite idsl_app. cbn [idsl flat_map snd]. fold (idsl l2). perm. }
  assert (Ho' := own_perm _ _ _ P Ho). assert (K : forall j, In j (id :: idsl l1 ++ idsl l2) -> nth_error ns' j = nth_error ns j) by (intros j I; eapply grow_same; eauto).
  assert (G' := grow_frame _ _ _ _ (id :: idsl l1 ++ idsl l2) G).
  split; [rewrite K; auto; left; auto|]. split; [|split].
  - eapply repl_frame; [apply Forall_app in Rl; destruct Rl as (A & B); inversion B; subst; apply Forall_app; split; eauto|]. intros j I. apply K. right. rewrite <- idsl_app. auto.
  - eapply grow_perm; [symmetry; exact P|reflexivity|exact G'].
  - eapply own_grow; eauto.
Qed.
Lemma first_containing_lt {X} (l : list (rect * X)) r : forall i k, first_containing C lt l r i = Some k -> k < i + length l.
Proof. induction l as [|e l IH]; intros i k; cbn [first_containing length]; [discriminate|]. destruct (contains _ _); [intros E; injection E as <-; lia|]. intros H. apply IH in H. lia. Qed.
Lemma node_choose_ok t (l : list (rect * nat)) r depth : depth < length (hints t) -> 0 < length l ->
  exists t' i, node_choose t l r depth = Ok (t', i) /\ meta t t' /\ nodes t' = nodes t /\ free t' = free t /\ i < length l.
Proof.
  intros Hd Hl. unfold RtModel.node_choose, set_hint, get_hint. destruct (nth_error (hints t) depth) as [h|] eqn:E; [|apply nth_error_None in E; lia]. cbn [bind].
  destruct (match nth_error l h with Some e => contains (fst e) r | None => false end) eqn:Q.
  - exists t, h. split; [auto|]. split; [apply meta_refl|]. split; [auto|]. split; [auto|]. apply nth_error_Some. destruct (nth_error l h); congruence.
  - eexists _, _. split; [reflexivity|]. split; [|split; [auto|split; [auto|]]].
    + unfold meta, with_hints. cbn [RtModel.root RtModel.m_rect RtModel.m_count RtModel.height RtModel.hints]. repeat split; auto. rewrite app_length, firstn_length. cbn [length]. rewrite skipn_length. lia.
    + destruct (first_containing C lt l r 0) eqn:F; [apply first_containing_lt in F; lia|apply choose_least_lt; auto].
Qed.
Lemma cover_expand R r c : dim R -> dim r -> dims _ c -> cover R c -> cover (expand R r) c.
Proof.
  intros DR Dr Dc H. unfold cover, RtProofs.dims in *. rewrite Forall_forall in *. intros x I. apply (contains_trans _ R); [apply expand_dim; auto|auto|apply Dc; auto|apply expand_l; auto|apply H; auto].
Qed.
Lemma node_insert_ok : forall fuel lev T t fl r v depth,
  rep lev (nodes t) T -> wf lev T -> (lev = 0 \/ 0 < size T) -> frep (nodes t) (free t) fl -> own (nodes t) (ids T ++ fl) -> dim r -> length (hints t) = Hints -> depth + lev <= Hints -> (lev + 1) * (MaxItems + 2) <= fuel + size T ->
  exists t' b T' fl', node_insert fuel t (rid T) r v depth = Ok (t', b) /\ meta t t' /\ rid T' = rid T /\ rep lev (nodes t') T' /\ wf lev T' /\ 0 < size T' /\ frep (nodes t') (free t') fl' /\
    grow (nodes t) (nodes t') (ids T ++ fl) (ids T' ++ fl') /\ Permutation (cont T') (if b then cont T else cont T ++ [(r, v)]) /\ (b = true -> size T' = MaxItems) /\ cred lev T' <= cred lev T + (if b then 0 else 1).
Proof.
  induction fuel as [|f IH]; intros lev T t fl r v depth R W Sz F Ho Dr Hh Hd Hf.
  { exfalso. assert (size T <= MaxItems) by (destruct T, lev; cbn [wf size] in *; tauto). nia. }
  cbn [RtModel.node_insert]. unfold get_node at 1. destruct T as [id l|id l], lev as [|lev]; cbn [wf] in W; try contradiction; cbn [rep] in R.
  - cbn [rid]. rewrite R. cbn [bind n_kind n_data RtModel.leaf]. destruct W as (Wl & Wd). destruct (Nat.eqb_spec (length l) MaxItems) as [E|E].
    + exists t, true, (AL id l), fl. split; [auto|]. split; [apply meta_refl|]. split; [auto|]. cbn [rep wf size cont]. split; [auto|]. split; [auto|]. split; [lia|]. split; [auto|]. split; [apply grow_refl|]. split; [auto|]. split; [auto|lia].
    + assert (Hi : id < length (nodes t)) by (apply nth_error_Some; congruence). assert (Nf : ~ In id fl) by (eapply (own_notin _ [id] fl); [exact Ho|left; auto]).
      eexists _, false, (AL id (l ++ [(r, v)])), fl. split; [reflexivity|]. split; [apply meta_set|]. split; [auto|]. cbn [rep wf size cont]. rewrite app_length. cbn [length].
      split; [rewrite set_node_nth, Nat.eqb_refl by auto; auto|]. split; [split; [lia|apply Forall_app; auto]|]. split; [lia|].
      split; [eapply frep_frame; [exact F|]; intros j I; rewrite set_node_nth by auto; destruct (Nat.eqb_spec j id); [subst; contradiction|auto]|].
      split; [apply set_node_grow; [auto|left; auto]|]. split; [auto|]. split; [discriminate|]. cbn [cred]. rewrite app_length. cbn [length]. lia.
  - cbn [rid]. destruct R as (R0 & Rl). rewrite R0. cbn [bind n_kind n_kids RtModel.branch]. destruct W as (Wl & Wk). cbn [size] in *. destruct Sz as [Sz|Sz]; [discriminate|].
    destruct (node_choose_ok t (kids l) r depth ltac:(lia) ltac:(rewrite kids_len; auto)) as (t1 & i & -> & M1 & En & Ef & Hi). cbn [bind]. rewrite kids_len in Hi.
    destruct (nth_error l i) as [[Rc c]|] eqn:Ei; [|apply nth_error_None in Ei; lia]. apply nth_error_split in Ei. destruct Ei as (l1 & l2 & -> & <-).
    assert (Ek : forall x, kids (l1 ++ x :: l2) = kids l1 ++ (fst x, rid (snd x)) :: kids l2) by (intros; rewrite kids_app; auto).
    assert (El : length l1 = length (kids l1)) by (symmetry; apply kids_len).
    rewrite Ek. cbn [fst snd]. rewrite El. rewrite (ent_mid (kids l1)). cbn [bind snd fst].
    assert (Wc := Wk). apply Forall_app in Wc. destruct Wc as (W1 & Wc). apply Forall_cons_iff in Wc. destruct Wc as ((DR & CR & WC & SC) & W2). cbn [fst snd] in *.
    assert (Rc' := Rl). apply Forall_app in Rc'. destruct Rc' as (R1 & Rc'). apply Forall_cons_iff in Rc'. destruct Rc' as (RC & R2). cbn [snd] in *.
    assert (Own : own (nodes t) (ids c ++ fl)).
    { eapply (own_app_r _ (id :: idsl l1 ++ idsl l2)). eapply own_perm; [|exact Ho]. cbn [ids]. fold (idsl (l1 ++ (Rc, c) :: l2)). rewrite idsl_app. cbn [idsl flat_map snd]. fold (idsl l2). perm. }
    rewrite <- En in RC, Own. rewrite <- En, <- Ef in F. rewrite <- En in R0, Rl, Ho.
    assert (Hh1 : length (hints t1) = Hints) by (destruct M1 as (_ & _ & _ & _ & M1); lia).
    assert (Hlen : S (length l1 + length l2) <= MaxItems) by (rewrite app_length in Wl; cbn in Wl; lia).
    destruct (IH lev c t1 fl r v (S depth) RC WC ltac:(auto) F Own Dr Hh1 ltac:(lia)) as (t2 & b & c' & fl2 & -> & M2 & Eid & RC2 & WC2 & SC2 & F2 & G2 & P2 & B2 & Cr2).
    { rewrite app_length in Hf. cbn [length] in Hf. cbn [Nat.add Nat.mul] in Hf. lia. }
    cbn [bind]. unfold get_kids, get_node. destruct (replace_child lev _ _ id l1 Rc c l2 fl c' fl2 (conj R0 Rl) Ho G2) as (N2 & Rl2 & G2' & O2). rewrite N2. cbn [bind n_kind n_kids RtModel.branch].
    rewrite Ek. cbn [fst snd]. rewrite (ent_mid (kids l1)). cbn [bind fst snd].
    assert (Hid : id < length (nodes t2)) by (apply nth_error_Some; congruence).
    assert (Mt : meta t t2) by (eapply meta_trans; eauto). rewrite En in G2'.
    assert (Nid : ~ In id (idsl l1 ++ ids c' ++ idsl l2) /\ ~ In id fl2).
    { eapply own_perm with (b := [id] ++ ((idsl l1 ++ ids c' ++ idsl l2) ++ fl2)) in O2; [|perm]. assert (X : ~ In id ((idsl l1 ++ ids c' ++ idsl l2) ++ fl2)) by (eapply own_notin; [exact O2|left; auto]). split; intros I; apply X, in_or_app; auto. }
    assert (DC : dims _ (cont c)) by (eapply wf_dims; eauto). assert (DC2 : dims _ (cont c')) by (eapply wf_dims; eauto).
    assert (Ecred : forall Rx x, credl lev (l1 ++ (Rx, x) :: l2) = credl lev l1 + (cred lev x + credl lev l2)) by (intros; rewrite credl_app; auto).
    apply Forall_app in Rl2. destruct Rl2 as (R21 & R22).
    destruct b; cbn [negb].
    + rewrite app_length. cbn [length]. rewrite !kids_len. destruct (Nat.eqb_spec (length l1 + S (length l2)) MaxItems) as [Efull|Efull].
      * exists t2, true, (AB id (l1 ++ (Rc, c') :: l2)), fl2. split; [auto|]. split; [auto|]. split; [auto|]. cbn [rep wf size cont]. rewrite app_length. cbn [length].
        split; [split; [rewrite N2, Ek, Ek; cbn [fst snd]; rewrite Eid; auto|apply Forall_app; auto]|].
        split; [split; [lia|]|]. { apply Forall_app. split; [auto|]. constructor; [|auto]. cbn [fst snd]. split; [auto|]. split; [eapply cover_perm; [symmetry; exact P2|auto]|auto]. }
        split; [lia|]. split; [auto|]. split. { eapply grow_perm; [reflexivity| |exact G2']. cbn [ids]. fold (idsl (l1 ++ (Rc, c') :: l2)). rewrite idsl_app. cbn [idsl flat_map snd]. fold (idsl l2). perm. }
        split. { fold (contl (l1 ++ (Rc, c') :: l2)) (contl (l1 ++ (Rc, c) :: l2)). rewrite !contl_app. cbn [contl flat_map snd]. fold (contl l2). rewrite P2. auto. }
        split; [intros _; lia|]. rewrite !cred_AB, !app_length, !Ecred. cbn [length]. lia.
      * (* split the child *)
        assert (Own2 : own (nodes t2) (ids c' ++ fl2)) by (eapply own_app_r; exact O2). rewrite <- Eid.
        destruct (node_split_ok lev t2 Rc c' fl2 RC2 WC2 (B2 eq_refl) F2 Own2 DR) as (t3 & ca & cb & fl3 & -> & M3 & E3 & Ra & Rb & Wa & Wb & Sa & Sb & F3 & G3 & P3 & Cr3). cbn [bind].
        rewrite <- E3. destruct (node_bbox_ok lev t3 ca Ra Wa Sa) as (b1 & -> & Db1 & Cb1). cbn [bind]. destruct (node_bbox_ok lev t3 cb Rb Wb Sb) as (b2 & -> & Db2 & Cb2). cbn [bind].
        rewrite El, (set_mid (kids l1)). rewrite <- app_assoc. cbn [app].
        set (l' := l1 ++ (b1, ca) :: l2 ++ [(b2, cb)]). assert (Ekl : kids l1 ++ (b1, rid ca) :: kids l2 ++ [(b2, rid cb)] = kids l') by (unfold l'; rewrite kids_app; cbn [kids map fst snd]; fold (kids (l2 ++ [(b2, cb)])); rewrite kids_app; auto).
        rewrite Ekl. assert (G3' := grow_frame _ _ _ _ (id :: idsl l1 ++ idsl l2) G3). assert (O3 := own_grow _ _ _ _ O2 G3').
        assert (Pl : Permutation ((id :: idsl l1 ++ idsl l2) ++ ids ca ++ ids cb ++ fl3) (id :: idsl l' ++ fl3)).
        { unfold l'. rewrite idsl_app. cbn [idsl flat_map snd]. fold (idsl (l2 ++ [(b2, cb)])). rewrite idsl_app. cbn [idsl flat_map snd]. fold (idsl l2). rewrite app_nil_r. perm. }
        assert (O3' := own_perm _ _ _ Pl O3). assert (Nid3 : ~ In id (idsl l' ++ fl3)) by (eapply (own_notin _ [id]); [exact O3'|left; auto]).
        assert (Hid3 : id < length (nodes t3)) by (eapply own_lt; [exact O3'|left; auto]).
        assert (Keep3 : forall j, In j (id :: idsl l1 ++ idsl l2) -> nth_error (nodes t3) j = nth_error (nodes t2) j) by (intros j I; eapply grow_same; [exact G3|exact O2|exact I]).
        assert (Rl' : Forall (fun e => rep lev (nodes t3) (snd e)) l').
        { unfold l'. apply Forall_app. split; [eapply repl_frame; [exact R21|]; intros j I; apply Keep3; right; apply in_or_app; auto|]. constructor; [auto|]. apply Forall_app. split; [eapply repl_frame; [exact R22|]; intros j I; apply Keep3; right; apply in_or_app; auto|]. constructor; auto. }
        destruct (put_branch lev t3 id l' fl3 Hid3 ltac:(intros I; apply Nid3, in_or_app; auto) ltac:(intros I; apply Nid3, in_or_app; auto) Rl' F3) as (R4 & F4). set (t4 := set_node C V t3 id (branch (kids l'))) in *.
        assert (Mt4 : meta t t4) by (apply meta_set_r; eapply meta_trans; [exact Mt|exact M3]).
        assert (G4 : grow (nodes t) (nodes t4) (ids (AB id (l1 ++ (Rc, c) :: l2)) ++ fl) (ids (AB id l') ++ fl3)).
        { eapply grow_trans; [exact G2'|]. eapply grow_trans; [exact G3'|]. eapply (grow_perm _ _ (id :: idsl l' ++ fl3) (id :: idsl l' ++ fl3)); [symmetry; exact Pl|auto|]. apply set_node_grow; [auto|left; auto]. }
        assert (W4 : wf (S lev) (AB id l')).
        { cbn [wf]. split; [unfold l'; rewrite app_length; cbn [length]; rewrite app_length; cbn [length]; lia|]. unfold l'. apply Forall_app. split; [auto|]. constructor; [split; [auto|]; split; [auto|]; split; auto|]. apply Forall_app. split; [auto|]. constructor; [split; [auto|]; split; [auto|]; split; auto|constructor]. }
        assert (Ho4 : own (nodes t4) (ids (AB id l') ++ fl3)) by (eapply own_grow; [|exact G4]; rewrite <- En; exact Ho).
        destruct (IH (S lev) (AB id l') t4 fl3 r v depth R4 W4 ltac:(right; unfold l'; cbn [size]; rewrite app_length; cbn [length]; lia) F4 Ho4 Dr ltac:(destruct Mt4 as (_ & _ & _ & _ & X); lia) Hd) as (t5 & b5 & T5 & fl5 & E5 & M5 & Eid5 & R5 & W5 & S5 & F5 & G5 & P5 & B5 & Cr5).
        { unfold l'. cbn [size]. rewrite !app_length in *. cbn [length] in *. rewrite app_length. cbn [length]. lia. }
        exists t5, b5, T5, fl5. split; [exact E5|]. split; [eapply meta_trans; eauto|]. split; [exact Eid5|]. split; [auto|]. split; [auto|]. split; [auto|]. split; [auto|]. split; [eapply grow_trans; eauto|].
        assert (Pc : Permutation (cont (AB id l')) (cont (AB id (l1 ++ (Rc, c) :: l2)))).
        { cbn [cont]. fold (contl l') (contl (l1 ++ (Rc, c) :: l2)). unfold l'. rewrite !contl_app. cbn [contl flat_map snd]. fold (contl (l2 ++ [(b2, cb)])) (contl l2). rewrite contl_app. cbn [contl flat_map snd]. rewrite app_nil_r. apply Permutation_app_head. rewrite <- P2, <- P3. fold (contl l2). perm. }
        split; [rewrite P5; destruct b5; rewrite Pc; auto|]. split; [auto|]. etransitivity; [exact Cr5|]. apply Nat.add_le_mono_r. rewrite !cred_AB. unfold l'. rewrite !app_length, Ecred. cbn [length]. rewrite app_length. cbn [length].
        rewrite credl_app. cbn [credl map list_sum fold_right]. fold (credl lev (l2 ++ [(b2, cb)])). change (fold_right Nat.add 0 (map (fun e => cred lev (snd e)) (l2 ++ [(b2, cb)]))) with (credl lev (l2 ++ [(b2, cb)])). rewrite credl_app. cbn [snd]. change (credl lev [(b2, cb)]) with (cred lev cb + 0).
        set (K := kmin ^ S lev) in *. set (m := MaxItems - kmin). assert (length l1 + S (length l2 + 1) - m <= (length l1 + S (length l2) - m) + 1) by lia. nia.
    + rewrite (set_mid (kids l1)). set (l' := l1 ++ (expand Rc r, c') :: l2). assert (Ekl : kids l1 ++ (expand Rc r, rid c) :: kids l2 = kids l') by (unfold l'; rewrite Ek; cbn [fst snd]; rewrite Eid; auto). rewrite Ekl.
      assert (Pl : Permutation ((id :: idsl l1 ++ idsl l2) ++ ids c' ++ fl2) (id :: idsl l' ++ fl2)) by (unfold l'; rewrite idsl_app; cbn [idsl flat_map snd]; fold (idsl l2); perm).
      destruct (put_branch lev t2 id l' fl2 Hid) as (R4 & F4); auto.
      { unfold l'. rewrite idsl_app. cbn [idsl flat_map snd]. apply Nid. } { apply Nid. } { unfold l'. apply Forall_app. split; [auto|]. constructor; auto. }
      eexists _, false, (AB id l'), fl2. split; [reflexivity|]. split; [apply meta_set_r; auto|]. split; [auto|]. split; [exact R4|]. cbn [wf size cont]. unfold l' at 1 3. rewrite !app_length. cbn [length].
      split; [split; [lia|]|]. { unfold l'. apply Forall_app. split; [auto|]. constructor; [|auto]. cbn [fst snd]. split; [apply expand_dim; auto|]. split; [|auto]. eapply cover_perm; [symmetry; exact P2|]. apply cover_app. split; [apply cover_expand; auto|]. constructor; [apply expand_r; auto|constructor]. }
      split; [lia|]. split; [exact F4|]. split. { eapply grow_trans; [exact G2'|]. eapply (grow_perm _ _ (id :: idsl l' ++ fl2) (id :: idsl l' ++ fl2)); [symmetry; exact Pl|auto|]. apply set_node_grow; [auto|left; auto]. }
      split. { fold (contl l') (contl (l1 ++ (Rc, c) :: l2)). unfold l'. rewrite !contl_app. cbn [contl flat_map snd]. fold (contl l2). rewrite P2. perm. }
      split; [discriminate|]. rewrite !cred_AB. unfold l'. rewrite !app_length, !Ecred. cbn [length]. lia.
Qed.

(* the tree as a collection of entries; I: the inserts so far *)
Notation gsum := (gsum kmin).
Definition inv (I : nat) (t : tree) (s : list entry) : Prop :=
  length (hints t) = Hints /\
  match root _ _ t with
  | None => exists fl, frep (nodes t) (free t) fl /\ own (nodes t) fl /\ m_count _ _ t = 0 /\ height _ _ t = 0 /\ s = []
  | Some id => exists lev T fl, rid T = id /\ rep lev (nodes t) T /\ wf lev T /\ 0 < size T /\ frep (nodes t) (free t) fl /\ own (nodes t) (ids T ++ fl) /\ height _ _ t = S lev /\
      m_count _ _ t = length (cont T) /\ Permutation s (cont T) /\ dim (m_rect _ _ t) /\ cover (m_rect _ _ t) (cont T) /\ cred lev T + gsum lev <= I
  end.
Lemma gsum_mono a b : a <= b -> gsum a <= gsum b.
Proof. intros H. induction H; auto. cbn [RtSpec.gsum]. lia. Qed.
Lemma lev_bound I lev x : x + gsum lev <= I -> I < gsum (S Hints) -> lev <= Hints.
Proof. intros H1 H2. destruct (Nat.le_gt_cases lev Hints) as [|G]; auto. exfalso. assert (gsum (S Hints) <= gsum lev) by (apply gsum_mono; lia). lia. Qed.
Notation insert_loop := (insert_loop C lt c0 D diff mulD subD oneD infD ltD V Dims MaxItems).
Lemma insert_loop_ok I r v : dim r -> I < gsum (S Hints) -> forall fuel t lev T fl,
  root _ _ t = Some (rid T) -> rep lev (nodes t) T -> wf lev T -> (lev = 0 \/ 0 < size T) -> frep (nodes t) (free t) fl -> own (nodes t) (ids T ++ fl) -> length (hints t) = Hints -> height _ _ t = S lev ->
  m_count _ _ t = length (cont T) -> dim (m_rect _ _ t) -> cover (m_rect _ _ t) (cont T) -> cred lev T + gsum lev <= I -> Hints + 1 <= fuel + lev -> exists t', insert_loop fuel t r v = Ok t' /\ inv (S I) t' ((r, v) :: cont T).
Proof.
  intros Dr HI. induction fuel as [|f IH]; intros t lev T fl Hr R W S0 F Ho Hh Hht Hc Dm Cm Cr Hfu; assert (Lev := lev_bound _ _ _ Cr HI); [lia|]. cbn [RtModel.insert_loop]. rewrite Hr. cbn [bind]. rewrite Hr.
  destruct (node_insert_ok ((height _ _ t + 1) * (MaxItems + 2)) lev T t fl r v 0 R W S0 F Ho Dr Hh ltac:(lia)) as (t1 & b & T1 & fl1 & -> & M1 & E1 & R1 & W1 & S1 & F1 & G1 & P1 & B1 & C1). { rewrite Hht. nia. }
  cbn [bind]. assert (O1 := own_grow _ _ _ _ Ho G1). destruct M1 as (Mr & Mm & Mc & Mh & Mhi). destruct b; cbn [negb].
  - assert (Full := B1 eq_refl). destruct (node_new_ok t1 KBranch fl1 F1 (own_app_r _ _ _ O1)) as (t2 & new & fl2 & -> & M2 & N2 & F2 & G2). cbn [bind]. assert (G2' := grow_frame _ _ _ _ (ids T1) G2). assert (O2 := own_grow _ _ _ _ O1 G2').
    assert (R2 : rep lev (nodes t2) T1) by (eapply rep_frame; [exact R1|]; intros j J; eapply grow_same; [exact G2|exact O1|auto]).
    assert (O2' : own (nodes t2) ([new] ++ (ids T1 ++ fl2))) by (eapply own_perm; [|exact O2]; perm).
    destruct M2 as (M2r & M2m & M2c & M2h & M2hi).
    rewrite <- E1. destruct (node_split_ok lev t2 (m_rect _ _ t2) T1 fl2 R2 W1 Full F2 (own_app_r _ _ _ O2') ltac:(rewrite M2m, Mm; auto)) as (t3 & Ta & Tb & fl3 & -> & M3 & E3 & Ra & Rb & Wa & Wb & Sa & Sb & F3 & G3 & P3 & C3). cbn [bind].
    rewrite <- E3. destruct (node_bbox_ok lev t3 Ta Ra Wa Sa) as (b1 & -> & Db1 & Cb1). cbn [bind]. destruct (node_bbox_ok lev t3 Tb Rb Wb Sb) as (b2 & -> & Db2 & Cb2). cbn [bind].
    assert (G3' := grow_frame _ _ _ _ [new] G3). assert (O3 := own_grow _ _ _ _ O2' G3'). destruct M3 as (M3r & M3m & M3c & M3h & M3hi).
    assert (Hnew : new < length (nodes t3)) by (eapply own_lt; [exact O3|left; auto]). assert (Nnew : ~ In new (ids Ta ++ ids Tb ++ fl3)) by (eapply (own_notin _ [new]); [exact O3|left; auto]).
    set (l' := [(b1, Ta); (b2, Tb)]). change [(b1, rid Ta); (b2, rid Tb)] with (kids l').
    destruct (put_branch lev t3 new l' fl3 Hnew) as (R4 & F4).
    { cbn [l' idsl flat_map snd]. rewrite app_nil_r. intros J. apply Nnew. apply in_app_or in J. apply in_or_app. destruct J; [auto|right; apply in_or_app; auto]. } { intros J. apply Nnew. apply in_or_app. right. apply in_or_app. auto. } { repeat (constructor; auto). } { exact F3. }
    set (t4 := set_node C V t3 new (branch (kids l'))) in *.
    assert (Pids : Permutation ([new] ++ ids Ta ++ ids Tb ++ fl3) (ids (AB new l') ++ fl3)) by (cbn [ids l' flat_map snd]; perm).
    assert (O4 : own (nodes t4) (ids (AB new l') ++ fl3)). { eapply own_perm; [exact Pids|]. eapply own_grow; [exact O3|]. apply set_node_grow; [auto|left; auto]. }
    assert (Pc : Permutation (cont (AB new l')) (cont T)) by (cbn [cont l' flat_map snd]; rewrite app_nil_r, P3; exact P1).
    destruct kmin_facts as (K0 & K1 & K2).
    destruct (IH (Tree _ _ (nodes t4) (Some new) (free t4) (m_rect _ _ t4) (m_count _ _ t4) (height _ _ t4 + 1) (hints t4)) (S lev) (AB new l') fl3) as (t' & E' & I'); cbn [RtModel.nodes RtModel.root RtModel.free RtModel.m_rect RtModel.m_count RtModel.height RtModel.hints]; auto.
    + cbn [wf l' length]. split; [lia|]. repeat (constructor; [split; [auto|]; split; [auto|]; split; auto|]). constructor.
    + right. cbn. lia.
    + change (hints t4) with (hints t3). lia.
    + change (height _ _ t4) with (height _ _ t3). lia.
    + change (m_count _ _ t4) with (m_count _ _ t3). rewrite (Permutation_length Pc). lia.
    + change (m_rect _ _ t4) with (m_rect _ _ t3). rewrite M3m, M2m, Mm. auto.
    + change (m_rect _ _ t4) with (m_rect _ _ t3). rewrite M3m, M2m, Mm. eapply cover_perm; [symmetry; exact Pc|auto].
    + rewrite cred_AB. cbn [l' length]. replace (2 - (MaxItems - kmin)) with 0 by lia. change (credl lev l') with (cred lev Ta + (cred lev Tb + 0)). cbn [RtSpec.gsum]. rewrite Nat.mul_0_l. cbn iota in C1. lia.
    + lia.
    + exists t'. split; [exact E'|]. destruct I' as (IH1 & I'). split; [auto|]. destruct (root _ _ t'); [|destruct I' as (? & _ & _ & _ & _ & ?); discriminate].
      destruct I' as (lev' & T' & fl' & A1 & A2 & A3 & A4 & A5 & A6 & A7 & A8 & A9 & A10). exists lev', T', fl'. do 8 (split; [auto|]). split; [rewrite <- A9, Pc; auto|auto].
  - eexists. split; [reflexivity|]. unfold inv. cbn [RtModel.nodes RtModel.root RtModel.free RtModel.m_rect RtModel.m_count RtModel.height RtModel.hints]. split; [lia|]. rewrite Mr, Hr.
    exists lev, T1, fl1. split; [auto|]. split; [auto|]. split; [auto|]. split; [auto|]. split; [auto|]. split; [auto|]. split; [lia|]. split; [rewrite (Permutation_length P1), app_length; cbn [length]; lia|].
    split; [rewrite P1; perm|]. rewrite Mm. split; [apply expand_dim; auto|]. split; [|lia]. eapply cover_perm; [symmetry; exact P1|]. apply cover_app. split; [apply cover_expand; auto; eapply wf_dims; eauto|]. constructor; [apply expand_r; auto|constructor].
Qed.
Notation insert := (insert C lt c0 D diff mulD subD oneD infD ltD V Dims MaxItems Hints).
Lemma inv_perm I t s s' : Permutation s s' -> inv I t s -> inv I t s'.
Proof.
  intros P (H & X). split; [auto|]. destruct (root _ _ t).
  - destruct X as (lev' & T' & fl' & A1 & A2 & A3 & A4 & A5 & A6 & A7 & A8 & A9 & A10). exists lev', T', fl'. do 8 (split; [auto|]). split; [rewrite <- P; auto|auto].
  - destruct X as (fl & A1 & A2 & A3 & A4 & ->). exists fl. apply Permutation_nil in P. auto.
Qed.
Lemma insert_ok I t s r v : inv I t s -> dim r -> I < gsum (S Hints) -> exists t', insert t r v = Ok t' /\ inv (S I) t' ((r, v) :: s).
Proof.
  intros (Hh & X) Dr HI. unfold RtModel.insert. destruct (root _ _ t) as [id|] eqn:Er.
  - destruct X as (lev & T & fl & <- & R & W & S0 & F & Ho & Hht & Hc & P & Dm & Cm & Cr).
    destruct (insert_loop_ok I r v Dr HI (Hints + 3) t lev T fl) as (t' & E & I'); auto; [lia|]. exists t'. split; [auto|]. eapply inv_perm; [|exact I']. rewrite P. auto.
  - destruct X as (fl & F & Ho & Hc & Hht & ->). replace (Hints + 3) with (S (Hints + 2)) by lia.
    destruct (node_new_ok t KLeaf fl F Ho) as (t1 & id & fl1 & E1 & (Mr & Mm & Mc & Mh & Mhi) & N1 & F1 & G1).
    set (t2 := Tree _ _ (nodes t1) (Some id) (free t1) r (m_count _ _ t1) 1 (hints t1)).
    assert (E : insert_loop (S (Hints + 2)) t r v = insert_loop (S (Hints + 2)) t2 r v).
    { cbn [RtModel.insert_loop]. rewrite Er, E1. cbn [bind]. fold t2. change (root _ _ t2) with (Some id). cbn [bind]. auto. }
    rewrite E. assert (O1 := own_grow _ _ _ _ Ho G1). apply (insert_loop_ok I r v Dr HI (S (Hints + 2)) t2 0 (AL id []) fl1); auto; cbn [t2 RtModel.nodes RtModel.root RtModel.free RtModel.m_rect RtModel.m_count RtModel.height RtModel.hints wf length cont cred]; try lia.
    + split; [lia|constructor].
    + constructor.
    + cbn [RtSpec.gsum]. lia.
Qed.

(* ---- search ---- *)
Notation intersects := (intersects C lt).
Notation node_search := (node_search C lt V).
Lemma upto_app fn (a b : list entry) : upto C V fn (a ++ b) = if forallb fn a then upto C V fn a ++ upto C V fn b else upto C V fn a.
Proof. induction a as [|e a IH]; cbn [app upto forallb]; auto. destruct (fn e); cbn [andb]; auto. rewrite IH. destruct (forallb fn a); auto. Qed.
Lemma report_ok l q fn : report C lt V l q fn = (upto C V fn (filter (fun e => intersects (fst e) q) l), forallb fn (filter (fun e => intersects (fst e) q) l)).
Proof. induction l as [|e l IH]; cbn [report filter]; auto. destruct (intersects (fst e) q); auto. cbn [upto forallb]. destruct (fn e); cbn [andb]; auto. rewrite IH. auto. Qed.
Lemma cover_none R q c : dim R -> dim q -> dims _ c -> cover R c -> intersects R q = false -> filter (fun e => intersects (fst e) q) c = [].
Proof.
  intros DR Dq Dc H N. induction c as [|e c IH]; auto. apply Forall_cons_iff in H. destruct H as (He & H). apply Forall_cons_iff in Dc. destruct Dc as (De & Dc). cbn [filter].
  destruct (intersects (fst e) q) eqn:E; [|auto]. rewrite (intersects_mono R (fst e) q) in N; auto. discriminate.
Qed.
Lemma node_search_ok q fn t : dim q -> forall lev T fuel, rep lev (nodes t) T -> wf lev T -> lev < fuel ->
  node_search fuel t (rid T) q fn = Ok (upto C V fn (filter (fun e => intersects (fst e) q) (cont T)), forallb fn (filter (fun e => intersects (fst e) q) (cont T))).
Proof.
  intros Dq. induction lev as [|lev IH]; intros [id l|id l] fuel R W Hf; cbn [rep wf] in *; try contradiction; destruct fuel as [|f]; try lia; cbn [RtModel.node_search rid]; unfold get_node.
  - rewrite R. cbn [bind n_kind n_data RtModel.leaf]. rewrite report_ok. auto.
  - destruct R as (R & Rl). destruct W as (_ & W). rewrite R. cbn [bind n_kind n_kids RtModel.branch]. clear R. cbn [cont]. fold (contl l). induction l as [|e l IHl]; [auto|].
    cbn [kids map]. fold (kids l). cbn [fst snd]. apply Forall_cons_iff in W. destruct W as ((De & Ce & We & _) & W). apply Forall_cons_iff in Rl. destruct Rl as (Re & Rl). specialize (IHl Rl W).
    change (contl (e :: l)) with (cont (snd e) ++ contl l). rewrite filter_app. destruct (intersects (fst e) q) eqn:N.
    + rewrite (IH (snd e) f Re We ltac:(lia)). cbn [bind]. rewrite upto_app, forallb_app. destruct (forallb fn (filter _ (cont (snd e)))); cbn [andb]; [|auto]. rewrite IHl. cbn [bind]. auto.
    + rewrite (cover_none (fst e) q (cont (snd e))); auto. eapply wf_dims; eauto.
Qed.
Lemma search_ok I t s q fn : inv I t s -> dim q -> exists l, search C lt V t q fn = Ok (upto C V fn l) /\ selects C V (fun e => overlap C lt (fst e) q) s l.
Proof.
  intros (Hh & X) Dq. unfold search. destruct (root _ _ t) as [id|].
  - destruct X as (lev & T & fl & <- & R & W & S0 & F & Ho & Hht & Hc & P & Dm & Cm & Cr). rewrite (node_search_ok q fn t Dq lev T _ R W) by lia. cbn [bind]. eexists. split; [reflexivity|].
    assert (DT := wf_dims _ _ W). exists (filter (fun e => negb (intersects (fst e) q)) (cont T)). split; [|split].
    + rewrite P. clear. induction (cont T) as [|e l IH]; auto. cbn [filter]. destruct (intersects (fst e) q); cbn [negb app]; [rewrite <- IH; auto|]. rewrite <- Permutation_middle, <- IH. auto.
    + rewrite Forall_forall. intros e J. apply filter_In in J. destruct J as (J & N). unfold RtProofs.dims in DT. rewrite Forall_forall in DT. apply (intersects_overlap C lt c0 D diff mulD subD infD ltD Dims); auto.
    + rewrite Forall_forall. intros e J. apply filter_In in J. destruct J as (J & N). unfold RtProofs.dims in DT. rewrite Forall_forall in DT. intros G. apply (intersects_overlap C lt c0 D diff mulD subD infD ltD Dims) in G; auto. rewrite G in N. discriminate.
  - exists []. split; [auto|]. destruct X as (_ & _ & _ & _ & _ & ->). exists []. auto.
Qed.

(* ---- delete ---- *)
Notation node_delete := (node_delete C lt c0 V Dims).
Notation after_removal := (after_removal C lt c0 V Dims).
Lemma bbox_dim {X} (l : list (rect * X)) : dims _ l -> dim (bbox _ l).
Proof. intros H. destruct l as [|e l]; [cbn; apply repeat_length|]. apply bbox_ok; [auto|cbn; lia]. Qed.
Lemma set_hint_ok t d h : d < length (hints t) -> exists t', set_hint C V t d h = Ok t' /\ meta t t' /\ nodes t' = nodes t /\ free t' = free t.
Proof.
  intros Hd. unfold set_hint, get_hint. destruct (nth_error (hints t) d) as [x|] eqn:E; [|apply nth_error_None in E; lia]. cbn [bind]. eexists. split; [reflexivity|]. split; [|auto].
  unfold meta, with_hints. cbn [RtModel.root RtModel.m_rect RtModel.m_count RtModel.height RtModel.hints]. repeat split; auto. rewrite app_length, firstn_length. cbn [length]. rewrite skipn_length. lia.
Qed.
Lemma size0 T : size T = 0 -> ids T = [rid T] /\ cont T = [].
Proof. destruct T as [id [|]|id [|]]; cbn; try discriminate; auto. Qed.
Lemma after_removal_ok lev t nr id l1 R' c' l2 fl depth crect shr : let L := l1 ++ (R', c') :: l2 in
  rep (S lev) (nodes t) (AB id L) -> Forall (wfe lev) (l1 ++ l2) -> dim R' -> wf lev c' -> (0 < size c' -> cover R' (cont c')) -> length L <= MaxItems -> frep (nodes t) (free t) fl -> own (nodes t) (ids (AB id L) ++ fl) ->
  depth < length (hints t) -> dim nr -> cover nr (contl L) ->
  exists t' r' shr' T' fl', after_removal t nr id (length l1) depth crect shr = Ok (t', r', true, shr') /\ meta t t' /\ rid T' = id /\ rep (S lev) (nodes t') T' /\ wf (S lev) T' /\ frep (nodes t') (free t') fl' /\
    grow (nodes t) (nodes t') (ids (AB id L) ++ fl) (ids T' ++ fl') /\ Permutation (cont T') (contl L) /\ dim r' /\ (0 < size T' -> cover r' (cont T')) /\ cred (S lev) T' <= cred (S lev) (AB id L).
Proof.
  intros L R W DR WC CC Hl F Ho Hd Dn Cn. unfold RtModel.after_removal, get_kids, get_node. assert (R0 := R). cbn [rep] in R0. destruct R0 as (R0 & Rl). rewrite R0. cbn [bind n_kind n_kids RtModel.branch].
  assert (Ek : kids L = kids l1 ++ (R', rid c') :: kids l2) by (unfold L; rewrite kids_app; auto). assert (El : length l1 = length (kids l1)) by (symmetry; apply kids_len).
  rewrite Ek, El, (ent_mid (kids l1)). cbn [bind fst snd]. rewrite <- El.
  assert (Rc : rep lev (nodes t) c') by (unfold L in Rl; apply Forall_app in Rl; destruct Rl as (_ & Rl); apply Forall_cons_iff in Rl; apply Rl).
  destruct (rep_get lev t c' Rc) as (n & Gn & Nn & Cn' & Kn). rewrite Nn. cbn [bind]. rewrite Cn'.
  assert (Dk : dims _ (kids L)). { unfold RtProofs.dims, kids. apply Forall_map. unfold L. apply Forall_app in W. destruct W as (W1 & W2). apply Forall_app. split; [|constructor; [auto|]]; (eapply Forall_impl; [|eassumption]; intros e (X & _); exact X). }
  destruct (Nat.eqb_spec (size c') 0) as [Z|Z].
  - destruct (size0 c' Z) as (Zi & Zc).
    assert (Pi : Permutation (ids (AB id L) ++ fl) ((id :: idsl (l1 ++ l2)) ++ (rid c' :: fl))). { cbn [ids]. fold (idsl L). unfold L. rewrite !idsl_app. cbn [idsl flat_map snd]. fold (idsl l2). rewrite Zi. perm. }
    assert (Ho' := own_perm _ _ _ Pi Ho). destruct (add_free_ok t (rid c') n fl F (own_app_r _ _ _ Ho') Nn Kn) as (t1 & -> & M1 & F1 & G1 & Keep). cbn [bind].
    destruct (remove_at_ok nat (kids L) (length l1) (R', rid c')) as (l' & E & P & Le). { rewrite Ek, nth_error_app2, El, Nat.sub_diag by lia. auto. }
    rewrite Ek in E. rewrite E. cbn [bind]. rewrite Ek, <- Permutation_middle in P. apply Permutation_cons_inv in P. rewrite <- kids_app in P. apply Permutation_map_inv in P. destruct P as (k & -> & P). fold (kids k) in *.
    assert (G1' := grow_frame _ _ _ _ (id :: idsl (l1 ++ l2)) G1). assert (O1 := own_grow _ _ _ _ Ho' G1').
    assert (Pk : Permutation ((id :: idsl (l1 ++ l2)) ++ rid c' :: fl) ([id] ++ (idsl k ++ (rid c' :: fl)))) by (change (id :: idsl (l1 ++ l2)) with ([id] ++ idsl (l1 ++ l2)); rewrite (idsl_perm _ _ P); perm).
    assert (O1' := own_perm _ _ _ Pk O1). assert (Nid : ~ In id (idsl k ++ rid c' :: fl)) by (eapply (own_notin _ [id]); [exact O1'|left; auto]). assert (Hid : id < length (nodes t1)) by (eapply own_lt; [exact O1'|left; auto]).
    assert (W' : Forall (wfe lev) k) by (eapply Permutation_Forall; eauto).
    destruct (put_branch lev t1 id k (rid c' :: fl) Hid) as (R4 & F4); auto.
    { intros J. apply Nid, in_or_app. auto. } { intros J. apply Nid, in_or_app. auto. }
    { eapply Permutation_Forall; [exact P|]. eapply (repl_frame lev (nodes t)); [unfold L in Rl; apply Forall_app in Rl; destruct Rl as (Q1 & Q2); apply Forall_cons_iff in Q2; apply Forall_app; split; [exact Q1|apply Q2]|].
      intros j J. apply Keep. intros ->. eapply (own_notin _ (id :: idsl (l1 ++ l2)) (rid c' :: fl)); [exact Ho'|right; exact J|left; auto]. }
    assert (Lk : length k = length (l1 ++ l2)) by (symmetry; apply Permutation_length; auto). assert (Lk' : S (length (l1 ++ l2)) = length L) by (unfold L; rewrite !app_length; cbn; lia).
    assert (Pc : Permutation (contl k) (contl L)). { rewrite <- (contl_perm _ _ P). unfold L. rewrite !contl_app. cbn [contl flat_map snd]. fold (contl l2). rewrite Zc. auto. }
    eexists _, _, true, (AB id k), (rid c' :: fl). split; [reflexivity|]. split; [apply meta_set_r; auto|]. split; [auto|]. split; [exact R4|]. cbn [wf cont size]. fold (contl k). split; [split; [lia|exact W']|]. split; [exact F4|]. split.
    { eapply grow_perm; [symmetry; exact Pi|reflexivity|]. eapply grow_trans; [exact G1'|]. eapply (grow_perm _ _ ([id] ++ idsl k ++ rid c' :: fl) ([id] ++ idsl k ++ rid c' :: fl)); [symmetry; exact Pk|cbn [ids]; fold (idsl k); perm|]. apply set_node_grow; [auto|left; auto]. }
    split; [exact Pc|]. split; [apply bbox_dim; apply (kids_dims lev); auto|]. split; [intros Sk; apply (bbox_kids' lev k W' Sk)|].
    rewrite !cred_AB. rewrite <- (credl_perm lev _ _ P). unfold L. rewrite !credl_app. change (credl lev ((R', c') :: l2)) with (cred lev c' + credl lev l2). fold L.
    assert (length k - (MaxItems - kmin) <= length L - (MaxItems - kmin)) by lia. nia.
  - destruct (set_hint_ok t depth (length l1) Hd) as (t1 & -> & M1 & En & Ef). cbn [bind].
    assert (W' : Forall (wfe lev) L) by (unfold L; apply Forall_app in W; destruct W as (W1 & W2); apply Forall_app; split; [auto|]; constructor; [|auto]; unfold wfe; cbn [fst snd]; split; [auto|]; split; [apply CC; lia|]; split; [auto|lia]).
    assert (HL : 0 < length L) by (unfold L; rewrite app_length; cbn; lia).
    destruct (shr && _).
    + eexists t1, _, true, (AB id L), fl. split; [reflexivity|]. split; [auto|]. split; [auto|]. rewrite En, Ef. split; [auto|]. split; [cbn [wf]; split; auto|]. split; [auto|]. split; [apply grow_refl|]. split; [auto|]. rewrite <- Ek. destruct (bbox_kids' lev L W' HL). split; [auto|]. split; auto.
    + eexists t1, nr, false, (AB id L), fl. split; [reflexivity|]. split; [auto|]. split; [auto|]. rewrite En, Ef. split; [auto|]. split; [cbn [wf]; split; auto|]. split; [auto|]. split; [apply grow_refl|]. split; [auto|]. split; [auto|]. split; auto.
Qed.
Lemma first_fn_some (l : list entry) fn : forall i k, first_fn C V l fn i = Some k -> i <= k /\ exists e, nth_error l (k - i) = Some e /\ fn e = true.
Proof.
  induction l as [|x l IH]; intros i k; cbn [first_fn]; [discriminate|]. destruct (fn x) eqn:E; [intros H; injection H as <-; rewrite Nat.sub_diag; cbn; eauto|].
  intros H. apply IH in H. destruct H as (A & e & B & E'). split; [lia|]. exists e. replace (k - i) with (S (k - S i)) by lia. auto.
Qed.
Lemma first_fn_none (l : list entry) fn : forall i, first_fn C V l fn i = None -> forall e, In e l -> fn e = false.
Proof. induction l as [|x l IH]; intros i; cbn [first_fn]; [intros _ e []|]. destruct (fn x) eqn:E; [discriminate|]. intros H e [<-|J]; eauto. Qed.

Definition del_child f id input depth fn (t : tree) (h : nat) : res (tree * bool * bool) :=
  let* l := get_kids C V t id in
  let* e := ent C nat l h in
  let* '(t, r, removed, shrunk) := node_delete f t (fst e) (snd e) input (S depth) fn in
  let* l := get_kids C V t id in
  let* e := ent C nat l h in
  Ok (set_node C V t id (branch (set_ent C nat l h (r, snd e))), removed, shrunk).
Definition del_loop f nr id input depth fn := fix loop (k : nat) (t : tree) (h : nat) : res (tree * rect * bool * bool) :=
  match k with
  | 0 => Ok (t, nr, false, false)
  | S k =>
      let* l := get_kids C V t id in
      let* e := ent C nat l h in
      if contains (fst e) input then
        let* '(t, removed, shrunk) := del_child f id input depth fn t h in
        if (removed : bool) then after_removal t nr id h depth (fst e) shrunk else loop k t (S h)
      else loop k t (S h)
  end.
Lemma node_delete_S f t nr id input depth fn : node_delete (S f) t nr id input depth fn =
  let* n := get_node C V t id in
  match n_kind _ _ n with
  | KLeaf =>
      match first_fn C V (n_data _ _ n) fn 0 with
      | None => Ok (t, nr, false, false)
      | Some i =>
          let* l := remove_at C V (n_data _ _ n) i in
          let t := set_node C V t id (leaf l) in
          if onedge C lt input nr then Ok (t, bbox _ l, true, true) else Ok (t, nr, true, false)
      end
  | KEnd => UB
  | KBranch =>
      let* hint := get_hint C V t depth in
      let* '(t, removed, shrunk) :=
        match nth_error (n_kids _ _ n) hint with
        | Some e => if contains (fst e) input then del_child f id input depth fn t hint else Ok (t, false, false)
        | None => Ok (t, false, false)
        end in
      if (removed : bool) then after_removal t nr id hint depth (rect0 C c0 Dims) shrunk else del_loop f nr id input depth fn (length (n_kids _ _ n)) t 0
  end.
Proof. reflexivity. Qed.

Definition deleted lev t T fl fn (res : res (tree * rect * bool * bool)) : Prop :=
  exists t' r' shr T' fl' x, res = Ok (t', r', true, shr) /\ meta t t' /\ rid T' = rid T /\ rep lev (nodes t') T' /\ wf lev T' /\ frep (nodes t') (free t') fl' /\
    grow (nodes t) (nodes t') (ids T ++ fl) (ids T' ++ fl') /\ Permutation (cont T) (x :: cont T') /\ fn x = true /\ dim r' /\ (0 < size T' -> cover r' (cont T')) /\ cred lev T' <= cred lev T.
Lemma cover_sub R (a b : list entry) x : Permutation a (x :: b) -> cover R a -> cover R b.
Proof. intros P H. eapply cover_perm in H; [|exact P]. apply Forall_cons_iff in H. apply H. Qed.
Lemma no_match R c input fn : dim R -> dim input -> dims _ c -> cover R c -> contains R input = false -> forall e : entry, In e c -> contains (fst e) input = true -> fn e = false.
Proof.
  intros DR Di Dc H N e J Ce. exfalso. unfold cover, RtProofs.dims in *. rewrite Forall_forall in *. rewrite (contains_trans R (fst e) input) in N; auto. discriminate.
Qed.
Lemma node_delete_ok input fn : dim input -> forall lev T t fuel fl nr depth,
  rep lev (nodes t) T -> wf lev T -> frep (nodes t) (free t) fl -> own (nodes t) (ids T ++ fl) -> dim nr -> cover nr (cont T) -> length (hints t) = Hints -> depth + lev <= Hints -> lev < fuel ->
  (node_delete fuel t nr (rid T) input depth fn = Ok (t, nr, false, false) /\ forall e, In e (cont T) -> contains (fst e) input = true -> fn e = false) \/
  deleted lev t T fl fn (node_delete fuel t nr (rid T) input depth fn).
Proof.
  intros Di. induction lev as [|lev IH]; intros [id l|id l] t fuel fl nr depth R W F Ho Dn Cn Hh Hd Hf; cbn [rep wf] in R, W; try contradiction; destruct fuel as [|f]; try lia; rewrite node_delete_S; cbn [rid]; unfold get_node.
  - rewrite R. cbn [bind n_kind n_data RtModel.leaf]. cbn [cont] in *. destruct W as (Wl & Wd). destruct (first_fn C V l fn 0) as [i|] eqn:E; [|left; split; [auto|intros e J _; eapply first_fn_none; eauto]].
    right. apply first_fn_some in E. destruct E as (_ & x & Nx & Fx). rewrite Nat.sub_0_r in Nx. destruct (remove_at_ok V l i x Nx) as (l' & -> & P & Le). cbn [bind]. cbn zeta.
    assert (Hi : id < length (nodes t)) by (apply nth_error_Some; congruence). assert (Nf : ~ In id fl) by (eapply (own_notin _ [id] fl); [exact Ho|left; auto]).
    assert (Wd' : dims _ l'). { eapply (dims_perm C Dims V) in Wd; [|symmetry; exact P]. apply Forall_cons_iff in Wd. apply Wd. }
    assert (Z : forall r' shr, dim r' -> (0 < length l' -> cover r' l') -> deleted 0 t (AL id l) fl fn (Ok (set_node C V t id (leaf l'), r', true, shr))).
    { intros r' shr Dr Cr. exists (set_node C V t id (leaf l')), r', shr, (AL id l'), fl, x. split; [auto|]. split; [apply meta_set|]. split; [auto|]. cbn [rep wf size cont cred].
      split; [rewrite set_node_nth, Nat.eqb_refl by auto; auto|]. split; [split; [lia|auto]|]. split; [eapply frep_frame; [exact F|]; intros j J; rewrite set_node_nth by auto; destruct (Nat.eqb_spec j id); [subst; contradiction|auto]|].
      split; [apply set_node_grow; [auto|left; auto]|]. split; [symmetry; auto|]. split; [auto|]. split; [auto|]. split; [auto|lia]. }
    destruct (onedge C lt input nr); apply Z; [apply bbox_dim; auto| |auto|].
    + intros H0. unfold cover. rewrite Forall_forall. apply bbox_ok; auto.
    + intros _. eapply cover_sub; [symmetry; exact P|auto].
  - destruct R as (R0 & Rl). rewrite R0. cbn [bind n_kind n_kids RtModel.branch]. destruct W as (Wl & Wk). cbn [cont] in *. fold (contl l) in *.
    unfold get_hint. destruct (nth_error (hints t) depth) as [hint|] eqn:Eh; [|apply nth_error_None in Eh; lia]. cbn [bind].
    (* one child *)
    assert (Child : forall l1 R c l2, l = l1 ++ (R, c) :: l2 ->
      (del_child f id input depth fn t (length l1) = Ok (t, false, false) /\ forall e, In e (cont c) -> contains (fst e) input = true -> fn e = false) \/
      (exists t1 shr, del_child f id input depth fn t (length l1) = Ok (t1, true, shr) /\ forall crect, deleted (S lev) t (AB id l) fl fn (after_removal t1 nr id (length l1) depth crect shr))).
    { intros l1 Rc c l2 El. assert (Ek : forall x, kids (l1 ++ x :: l2) = kids l1 ++ (fst x, rid (snd x)) :: kids l2) by (intros; rewrite kids_app; auto). assert (Len : length l1 = length (kids l1)) by (symmetry; apply kids_len).
      assert (Wc := Wk). rewrite El in Wc. apply Forall_app in Wc. destruct Wc as (W1 & Wc). apply Forall_cons_iff in Wc. destruct Wc as ((DR & CR & WC & SC) & W2). cbn [fst snd] in *.
      assert (Rc' := Rl). rewrite El in Rc'. apply Forall_app in Rc'. destruct Rc' as (R1 & Rc'). apply Forall_cons_iff in Rc'. destruct Rc' as (RC & R2). cbn [snd] in *.
      assert (Own : own (nodes t) (ids c ++ fl)).
      { eapply (own_app_r _ (id :: idsl l1 ++ idsl l2)). eapply own_perm; [|exact Ho]. cbn [ids]. fold (idsl l). rewrite El, idsl_app. cbn [idsl flat_map snd]. fold (idsl l2). perm. }
      unfold del_child, get_kids, get_node. rewrite R0. cbn [bind n_kind n_kids RtModel.branch]. rewrite El, Ek, Len. cbn [fst snd]. rewrite (ent_mid (kids l1)). cbn [bind fst snd].
      destruct (IH c t f fl Rc (S depth) RC WC F Own DR CR Hh ltac:(lia) ltac:(lia)) as [(-> & Nm)|(t1 & r' & shr & c' & fl1 & x & -> & M1 & E1 & RC1 & WC1 & F1 & G1 & P1 & Fx & Dr' & Cr' & Cre)].
      - left. cbn [bind]. rewrite R0. cbn [bind n_kind n_kids RtModel.branch]. rewrite El, Ek. cbn [fst snd]. rewrite (ent_mid (kids l1)). cbn [bind fst snd]. rewrite (set_mid (kids l1)). split; [|auto]. rewrite set_node_same; auto. rewrite R0, El, Ek. auto.
      - right. cbn [bind]. rewrite El in R0, Ho, Rl. destruct (replace_child lev _ _ id l1 Rc c l2 fl c' fl1 (conj R0 Rl) Ho G1) as (N1 & Rl1 & G1' & O1). rewrite N1. cbn [bind n_kind n_kids RtModel.branch]. rewrite Ek. cbn [fst snd]. rewrite (ent_mid (kids l1)). cbn [bind fst snd]. rewrite (set_mid (kids l1)).
        eexists _, _. split; [reflexivity|]. intros crect. rewrite <- Len. set (L := l1 ++ (r', c') :: l2). replace (kids l1 ++ (r', rid c) :: kids l2) with (kids L) by (unfold L; rewrite Ek; cbn [fst snd]; rewrite E1; auto).
        assert (Hid : id < length (nodes t1)) by (apply nth_error_Some; congruence).
        assert (Pl : Permutation ((id :: idsl l1 ++ idsl l2) ++ ids c' ++ fl1) ([id] ++ idsl L ++ fl1)) by (unfold L; rewrite idsl_app; cbn [idsl flat_map snd]; fold (idsl l2); perm).
        assert (O1' := own_perm _ _ _ Pl O1). assert (Nid : ~ In id (idsl L ++ fl1)) by (eapply (own_notin _ [id]); [exact O1'|left; auto]).
        apply Forall_app in Rl1. destruct Rl1 as (R21 & R22).
        destruct (put_branch lev t1 id L fl1 Hid) as (R4 & F4); auto. { intros J. apply Nid, in_or_app. auto. } { intros J. apply Nid, in_or_app. auto. } { unfold L. apply Forall_app. split; [auto|]. constructor; auto. }
        set (t2 := set_node C V t1 id (branch (kids L))) in *. assert (G2 : grow (nodes t1) (nodes t2) ([id] ++ idsl L ++ fl1) ([id] ++ idsl L ++ fl1)) by (apply set_node_grow; [auto|left; auto]).
        assert (O2 : own (nodes t2) (ids (AB id L) ++ fl1)) by (eapply own_perm; [|eapply own_grow; [exact O1'|exact G2]]; cbn [ids]; fold (idsl L); perm).
        assert (Pc : Permutation (contl l) (x :: contl L)) by (rewrite El; unfold L; rewrite !contl_app; cbn [contl flat_map snd]; fold (contl l2); rewrite P1; perm).
        destruct (after_removal_ok lev t2 nr id l1 r' c' l2 fl1 depth crect shr R4) as (t3 & r3 & shr3 & T3 & fl3 & E3 & M3 & E3' & R3 & W3 & F3 & G3 & P3 & D3 & C3 & Cr3); auto.
        { apply Forall_app. auto. } { rewrite El in Wl. rewrite app_length in *. auto. } { destruct M1 as (_ & _ & _ & _ & X). change (hints t2) with (hints t1). lia. } { eapply cover_sub; [exact Pc|auto]. }
        exists t3, r3, shr3, T3, fl3, x. split; [exact E3|]. split; [eapply meta_trans; [exact M1|]; eapply meta_trans; [apply meta_set|exact M3]|]. split; [auto|]. split; [auto|]. split; [auto|]. split; [auto|]. split.
        { eapply grow_trans; [rewrite El; exact G1'|]. eapply grow_trans; [|exact G3]. eapply grow_perm; [symmetry; exact Pl| |exact G2]. cbn [ids]. fold (idsl L). perm. }
        split; [try rewrite <- El; apply (Permutation_trans Pc), perm_skip; symmetry; exact P3|]. split; [auto|]. split; [auto|]. split; [auto|]. etransitivity; [exact Cr3|]. rewrite !cred_AB, ?El. unfold L. rewrite !app_length, !credl_app. cbn [length]. change (credl lev ((r', c') :: l2)) with (cred lev c' + credl lev l2). change (credl lev ((Rc, c) :: l2)) with (cred lev c + credl lev l2). lia. }
    assert (Loop : forall k h, h + k = length l ->
      (del_loop f nr id input depth fn k t h = Ok (t, nr, false, false) /\ forall i e x, h <= i -> nth_error l i = Some e -> In x (cont (snd e)) -> contains (fst x) input = true -> fn x = false) \/ deleted (S lev) t (AB id l) fl fn (del_loop f nr id input depth fn k t h)).
    { induction k as [|k IHk]; intros h Hk.
      - left. split; [reflexivity|]. intros i e x Hi Ne. exfalso. assert (i < length l) by (apply nth_error_Some; congruence). lia.
      - destruct (nth_error l h) as [[Rc c]|] eqn:Eh'; [|apply nth_error_None in Eh'; lia]. assert (Nh := Eh'). apply nth_error_split in Eh'. destruct Eh' as (l1 & l2 & El & Elen).
        assert (Ee : ent C nat (kids l) h = Ok (Rc, rid c)) by (unfold ent, kids; rewrite nth_error_map, Nh; auto). 
        assert (Er : del_loop f nr id input depth fn (S k) t h = if contains Rc input then let* '(t, removed, shrunk) := del_child f id input depth fn t h in if (removed : bool) then after_removal t nr id h depth Rc shrunk else del_loop f nr id input depth fn k t (S h) else del_loop f nr id input depth fn k t (S h)).
        { cbn [del_loop]. unfold get_kids at 1, get_node at 1. rewrite R0. cbn [bind n_kind n_kids RtModel.branch]. rewrite Ee. cbn [bind fst snd]. auto. }
        rewrite Er. clear Er.
        assert (Fin : (forall x, In x (cont c) -> contains (fst x) input = true -> fn x = false) -> (forall i e x, S h <= i -> nth_error l i = Some e -> In x (cont (snd e)) -> contains (fst x) input = true -> fn x = false) -> forall i e x, h <= i -> nth_error l i = Some e -> In x (cont (snd e)) -> contains (fst x) input = true -> fn x = false).
        { intros A B i e x Hi Ne Ix Cx. destruct (Nat.eq_dec i h) as [->|]; [rewrite Nh in Ne; injection Ne as <-; apply A; auto|]. eapply B; [|exact Ne|exact Ix|exact Cx]. lia. }
        destruct (contains Rc input) eqn:Ct.
        + destruct (Child l1 Rc c l2 El) as [(E & Nm)|(t1 & shr & E & Dl)]; rewrite Elen in *.
          * rewrite E. cbn [bind]. destruct (IHk (S h) ltac:(lia)) as [(E2 & Nm2)|Dl]; [left|right; auto]. split; [auto|]. exact (Fin Nm Nm2).
          * right. rewrite E. cbn [bind]. apply Dl.
        + destruct (IHk (S h) ltac:(lia)) as [(E2 & Nm2)|Dl]; [left|right; auto]. split; [auto|]. apply Fin; [|exact Nm2].
          rewrite Forall_forall in Wk. assert (J : In (Rc, c) l) by (eapply nth_error_In; eauto). destruct (Wk _ J) as (DR & CR & WC & _). cbn [fst snd] in *. eapply no_match; eauto. eapply wf_dims; eauto. }
    assert (LoopAll : (del_loop f nr id input depth fn (length (kids l)) t 0 = Ok (t, nr, false, false) /\ forall e, In e (contl l) -> contains (fst e) input = true -> fn e = false) \/ deleted (S lev) t (AB id l) fl fn (del_loop f nr id input depth fn (length (kids l)) t 0)).
    { rewrite kids_len. destruct (Loop (length l) 0 eq_refl) as [(E & Nm)|Dl]; [left|right; auto]. split; [auto|]. intros e J. apply in_flat_map in J. destruct J as (c & Jc & Je). apply In_nth_error in Jc. destruct Jc as (i & Ni). eapply (Nm i c e); eauto. apply Nat.le_0_l. }
    unfold kids at 1 3. rewrite nth_error_map. destruct (nth_error l hint) as [[Rc c]|] eqn:Ni; cbn [option_map fst snd].
    + destruct (contains Rc input); [|exact LoopAll]. assert (Ni' := Ni). apply nth_error_split in Ni'. destruct Ni' as (l1 & l2 & El & Elen). destruct (Child l1 Rc c l2 El) as [(E & Nm)|(t1 & shr & E & Dl)]; rewrite Elen in *; rewrite E; cbn [bind]; [exact LoopAll|right; apply Dl].
    + cbn [bind]. exact LoopAll.
Qed.

Lemma wf_size lev : forall T, wf lev T -> size T <= length (cont T).
Proof.
  induction lev as [|lev IH]; intros [id l|id l]; cbn [wf size cont]; try tauto; [intros _; lia|]. intros (_ & H). induction l as [|e l IHl]; cbn [flat_map length]; [lia|]. apply Forall_cons_iff in H. destruct H as ((_ & _ & W & S0) & H). rewrite app_length. specialize (IH _ W). specialize (IHl H). lia.
Qed.
Definition good lev (t : tree) T fl : Prop :=
  root _ _ t = Some (rid T) /\ rep lev (nodes t) T /\ wf lev T /\ 0 < size T /\ frep (nodes t) (free t) fl /\ own (nodes t) (ids T ++ fl) /\ height _ _ t = S lev /\ m_count _ _ t = length (cont T) /\ length (hints t) = Hints.
Lemma lower_root_ok : forall fuel lev T t fl, good lev t T fl -> lev < fuel ->
  exists t' lev' T' fl', lower_root C V fuel t (rid T) = Ok t' /\ good lev' t' T' fl' /\ cont T' = cont T /\ m_rect _ _ t' = m_rect _ _ t /\ cred lev' T' + gsum lev' <= cred lev T + gsum lev.
Proof.
  induction fuel as [|f IH]; intros lev T t fl G Hf; [lia|]. assert (G0 := G). destruct G as (Hr & R & W & S0 & F & Ho & Hh & Hc & Hhi). cbn [lower_root]. unfold get_node.
  destruct T as [id l|id l], lev as [|lev]; cbn [wf] in W; try contradiction; cbn [rep rid] in R |- *.
  - rewrite R. cbn [bind n_kind RtModel.leaf]. exists t, 0, (AL id l), fl. auto.
  - destruct R as (R & Rl). rewrite R. cbn [bind n_kind n_kids RtModel.branch]. destruct (Nat.eqb_spec (m_count _ _ t) 1) as [E|E]; [|exists t, (S lev), (AB id l), fl; auto].
    assert (Sz := wf_size (S lev) (AB id l) W). cbn [size] in *. destruct l as [|[Rc c] [|? ?]]; cbn [length] in *; try lia. cbn [kids map ent nth_error fst snd]. unfold ent. cbn [nth_error bind snd].
    assert (P : Permutation (ids (AB id [(Rc, c)]) ++ fl) (ids c ++ (id :: fl))) by (cbn [ids flat_map snd]; perm).
    assert (Ho' := own_perm _ _ _ P Ho). destruct (add_free_ok t id _ fl F (own_app_r _ _ _ Ho') R ltac:(cbn; discriminate)) as (t1 & -> & (Mr & Mm & Mc & Mh & Mhi) & F1 & G1 & Keep). cbn [bind].
    destruct W as (_ & W). apply Forall_cons_iff in W. destruct W as ((_ & _ & Wc & Sc) & _). apply Forall_cons_iff in Rl. destruct Rl as (Rc' & _). cbn [fst snd] in *.
    assert (R1 : rep lev (nodes t1) c) by (eapply rep_frame; [exact Rc'|]; intros j J; apply Keep; intros ->; eapply (own_notin _ _ _ _ Ho' J); left; auto).
    destruct (IH lev c (Tree _ _ (nodes t1) (Some (rid c)) (free t1) (m_rect _ _ t1) (m_count _ _ t1) (height _ _ t1 - 1) (hints t1)) (id :: fl)) as (t' & lev' & T' & fl' & E' & G' & Ec & Em & Cr); [|lia|].
    + unfold good. cbn [RtModel.nodes RtModel.root RtModel.free RtModel.m_rect RtModel.m_count RtModel.height RtModel.hints]. split; [auto|]. split; [auto|]. split; [auto|]. split; [auto|]. split; [auto|]. split; [eapply own_grow; [exact Ho'|]; apply grow_frame; exact G1|]. split; [lia|]. split; [|lia]. rewrite Mc, Hc. cbn [cont flat_map snd]. rewrite app_nil_r. auto.
    + exists t', lev', T', fl'. split; [exact E'|]. split; [auto|]. split; [rewrite Ec; cbn [cont flat_map snd]; rewrite app_nil_r; auto|]. split; [rewrite Em; cbn [RtModel.m_rect]; auto|]. rewrite cred_AB. change (credl lev [(Rc, c)]) with (cred lev c + 0). cbn [RtSpec.gsum]. etransitivity; [exact Cr|]. generalize (kmin ^ S lev). intros K. generalize ((length [(Rc, c)] - (MaxItems - kmin)) * K). intros. lia.
Qed.
Notation delete_0 := (delete_0 C lt c0 V Dims).
Lemma delete_ok I t s input fn : inv I t s -> dim input -> I < gsum (S Hints) ->
  exists t' s', delete_0 t input fn = Ok t' /\ inv I t' s' /\ ((s' = s /\ forall e, In e s -> contains (fst e) input = true -> fn e = false) \/ exists x, Permutation s (x :: s') /\ fn x = true).
Proof.
  intros (Hh & X) Di HI. unfold RtModel.delete_0. destruct (root _ _ t) as [id|] eqn:Er.
  2: { exists t, s. split; [auto|]. split; [split; [auto|]; rewrite Er; auto|]. left. split; [auto|]. destruct X as (_ & _ & _ & _ & _ & ->). intros e []. }
  assert (X0 := X). destruct X as (lev & T & fl & <- & R & W & S0 & F & Ho & Hht & Hc & P & Dm & Cm & Cr). assert (Lev := lev_bound _ _ _ Cr HI).
  destruct (node_delete_ok input fn Di lev T t (height _ _ t + 1) fl (m_rect _ _ t) 0 R W F Ho Dm Cm Hh ltac:(lia) ltac:(lia)) as [(-> & Nm)|(t1 & r' & shr & T1 & fl1 & x & -> & (Mr & Mm & Mc & Mh & Mhi) & E1 & R1 & W1 & F1 & G1 & P1 & Fx & Dr & Crx & Cr1)]; cbn [bind negb].
  - exists t, s. split; [auto|]. split; [split; [auto|]; rewrite Er; auto|]. left. split; [auto|]. intros e J. apply Nm. eapply Permutation_in; eauto.
  - assert (O1 := own_grow _ _ _ _ Ho G1). assert (Lc := Permutation_length P1). cbn [length] in Lc. cbn zeta. cbn [RtModel.nodes RtModel.root RtModel.free RtModel.m_rect RtModel.m_count RtModel.height RtModel.hints].
    rewrite Mc. destruct (Nat.eqb_spec (m_count _ _ t - 1) 0) as [Z|Z].
    + assert (Z' : length (cont T1) = 0) by lia. assert (Sz := wf_size _ _ W1). destruct (size0 T1 ltac:(lia)) as (Zi & Zc). rewrite Zi in *.
      destruct (rep_get lev t1 T1 R1) as (n & _ & Nn & _ & Kn). rewrite <- E1.
      set (t2 := Tree _ _ (nodes t1) (root _ _ t1) (free t1) r' (m_count _ _ t - 1) (height _ _ t1) (hints t1)).
      destruct (add_free_ok t2 (rid T1) n fl1 F1 O1 Nn Kn) as (t3 & E3 & (M3r & M3m & M3c & M3h & M3hi) & F3 & G3 & _). rewrite E3. cbn [bind]. eexists _, []. split; [reflexivity|]. split.
      * split; [cbn [RtModel.hints]; rewrite M3hi; cbn [t2 RtModel.hints]; lia|]. cbn [RtModel.root]. exists (rid T1 :: fl1). cbn [RtModel.nodes RtModel.free RtModel.m_count RtModel.height]. split; [auto|]. split; [eapply own_grow; [exact O1|exact G3]|]. split; [rewrite M3c; cbn [t2 RtModel.m_count]; lia|auto].
      * right. exists x. split; [|auto]. rewrite P, P1, Zc. auto.
    + set (t2 := Tree _ _ (nodes t1) (root _ _ t1) (free t1) r' (m_count _ _ t - 1) (height _ _ t1) (hints t1)).
      assert (Sz1 : 0 < size T1). { destruct (Nat.eq_dec (size T1) 0) as [Q|Q]; [|lia]. destruct (size0 T1 Q) as (_ & Q2). rewrite Q2 in Lc. cbn in Lc. lia. }
      assert (Gd : good lev t2 T1 fl1). { unfold good, t2. cbn [RtModel.nodes RtModel.root RtModel.free RtModel.m_rect RtModel.m_count RtModel.height RtModel.hints]. rewrite Mr, Er, E1. split; [auto|]. split; [auto|]. split; [auto|]. split; [auto|]. split; [auto|]. split; [auto|]. split; [lia|]. split; lia. }
      rewrite <- E1. destruct (lower_root_ok (height _ _ t1 + 1) lev T1 t2 fl1 Gd ltac:(lia)) as (t3 & lev3 & T3 & fl3 & -> & (Hr3 & R3 & W3 & S3 & F3 & O3 & Hh3 & Hc3 & Hhi3) & Ec & Em & Cr3). cbn [bind]. rewrite Hr3. cbn [t2 RtModel.m_rect] in Em.
      assert (Inv3 : forall b, dim b -> cover b (cont T3) -> inv I (Tree _ _ (nodes t3) (Some (rid T3)) (free t3) b (m_count _ _ t3) (height _ _ t3) (hints t3)) (cont T1)).
      { intros b Db Cb. split; [auto|]. cbn [RtModel.nodes RtModel.root RtModel.free RtModel.m_rect RtModel.m_count RtModel.height RtModel.hints]. exists lev3, T3, fl3. do 8 (split; [auto|]). split; [rewrite Ec; auto|]. split; [auto|]. split; [auto|]. lia. }
      assert (Sp : exists y, Permutation s (y :: cont T1) /\ fn y = true) by (exists x; split; [rewrite P; auto|auto]).
      destruct shr.
      * destruct (node_bbox_ok lev3 t3 T3 R3 W3 S3) as (b & -> & Db & Cb). cbn [bind]. eexists _, (cont T1). split; [reflexivity|]. split; [apply Inv3; auto|auto].
      * eexists _, (cont T1). split; [reflexivity|]. split; [|auto]. replace t3 with (Tree _ _ (nodes t3) (Some (rid T3)) (free t3) r' (m_count _ _ t3) (height _ _ t3) (hints t3)) by (rewrite <- Em, <- Hr3; destruct t3; auto). apply Inv3; [auto|]. rewrite Ec. auto.
Qed.

(* ---- histories ---- *)
Notation run := (run C lt c0 D diff mulD subD oneD infD ltD V Dims MaxItems Hints).
Notation step := (step C lt c0 D diff mulD subD oneD infD ltD V Dims MaxItems Hints).
Lemma inv_dims I t s : inv I t s -> dims _ s.
Proof.
  intros (_ & X). destruct (root _ _ t); [|destruct X as (_ & _ & _ & _ & _ & ->); constructor]. destruct X as (lev & T & fl & _ & _ & W & _ & _ & _ & _ & _ & P & _). eapply (dims_perm C Dims V); [symmetry; exact P|]. eapply wf_dims; eauto.
Qed.
Lemma inv_size I t s : inv I t s -> m_count _ _ t = length s.
Proof. intros (_ & X). destruct (root _ _ t); [|destruct X as (_ & _ & _ & -> & _ & ->); auto]. destruct X as (lev & T & fl & _ & _ & W & _ & _ & _ & _ & -> & P & _). symmetry. apply Permutation_length; auto. Qed.
Lemma step_ok veq I t s o : inv I t s -> op_ok C V Dims o -> I + inserts C V [o] < gsum (S Hints) -> exists t' s' x, step veq t o = Ok (t', x) /\ inv (I + inserts C V [o]) t' s' /\ sstep C lt V veq s o s' x.
Proof.
  intros Hi Ho HI. destruct o as [r v|r v|r fn|q fn|]; cbn [op_ok RtModel.step inserts filter length] in *; rewrite ?Nat.add_0_r in *.
  - destruct (insert_ok I t s r v Hi Ho ltac:(lia)) as (t' & -> & Hi'). exists t', ((r, v) :: s), (OUnit _ _). split; [auto|]. split; [replace (I + 1) with (S I) by lia; auto|constructor; auto].
  - unfold delete_element. destruct (delete_ok I t s r (fun e => equals C lt r (fst e) && veq v (snd e)) Hi Ho HI) as (t' & s' & -> & Hi' & Q). exists t', s', (OUnit _ _). split; [auto|]. split; [auto|].
    assert (Ds := inv_dims _ _ _ Hi). unfold RtProofs.dims in Ds. rewrite Forall_forall in Ds. destruct Q as [(-> & Nm)|(x & P & Fx)].
    + apply S_delete_none; [auto|]. intros e J Sm Ve. assert (Eq : equals C lt r (fst e) = true) by (apply (equals_same C lt c0 D diff mulD subD oneD infD ltD Dims); auto).
      specialize (Nm e J). rewrite Eq, Ve in Nm. cbn in Nm. enough (contains (fst e) r = true) by (specialize (Nm H); discriminate). apply (contains_within C lt c0 D diff mulD subD infD ltD Dims); auto. apply Sm.
    + apply andb_true_iff in Fx. destruct Fx as (A & B). eapply S_delete; eauto. apply (equals_same C lt c0 D diff mulD subD oneD infD ltD Dims); auto. apply Ds. eapply Permutation_in; [symmetry; exact P|left; auto].
  - destruct (delete_ok I t s r fn Hi Ho HI) as (t' & s' & -> & Hi' & Q). exists t', s', (OUnit _ _). split; [auto|]. split; [auto|]. assert (Ds := inv_dims _ _ _ Hi). unfold RtProofs.dims in Ds. rewrite Forall_forall in Ds. destruct Q as [(-> & Nm)|(x & P & Fx)].
    + apply S_delete_if_none; [auto|]. intros e J Wi Fe. rewrite Nm in Fe; [discriminate|auto|]. apply (contains_within C lt c0 D diff mulD subD infD ltD Dims); auto.
    + eapply S_delete_if; eauto.
  - destruct (search_ok I t s q fn Hi Ho) as (l & -> & Sel). exists t, s, (OCalls _ _ (upto C V fn l)). split; [auto|]. split; [auto|]. constructor. auto.
  - exists t, s, (OSize _ _ (m_count _ _ t)). split; [auto|]. split; [auto|]. rewrite (inv_size _ _ _ Hi). constructor.
Qed.
Lemma inserts_cons o ops : inserts C V (o :: ops) = inserts C V [o] + inserts C V ops.
Proof. unfold inserts. cbn [filter]. destruct o; auto. Qed.
Lemma run_ok veq ops : forall I t s, inv I t s -> Forall (op_ok C V Dims) ops -> I + inserts C V ops < gsum (S Hints) -> exists t' s' xs, run veq t ops = Ok (t', xs) /\ inv (I + inserts C V ops) t' s' /\ sruns C lt V veq s ops s' xs.
Proof.
  induction ops as [|o ops IH]; intros I t s Hi Ho HI; cbn [RtModel.run]; [exists t, s, []; split; [auto|]; split; [cbn; rewrite Nat.add_0_r; auto|constructor]|].
  rewrite inserts_cons in *. apply Forall_cons_iff in Ho. destruct Ho as (Oo & Ho). destruct (step_ok veq I t s o Hi Oo ltac:(lia)) as (t1 & s1 & x & -> & Hi1 & Sp). cbn [bind].
  destruct (IH _ t1 s1 Hi1 Ho ltac:(lia)) as (t2 & s2 & xs & -> & Hi2 & Sps). cbn [bind]. exists t2, s2, (x :: xs). split; [auto|]. split; [rewrite Nat.add_assoc; auto|econstructor; eauto].
Qed.
Lemma inv_empty : inv 0 (empty C c0 V Dims Hints) [].
Proof. split; [cbn; apply repeat_length|]. cbn [empty RtModel.root]. exists []. split; [reflexivity|]. split; [split; constructor|]. auto. Qed.
End Tree.
