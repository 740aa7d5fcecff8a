(* Interrupted saves are refused. *)
From Verif Require Import Base Bytes FnvModel FnvProofs HeaderModel HeaderSpec HeaderProofs HashModel SerialModel SerialSpec CrashModel CrashSpec.
Local Open Scope Z_scope.

Definition er (r : res cst) : res st := let* s := r in Ok (c_st s).
Lemma er_bind {X} (r : res X) k k' : (forall x, er (k x) = k' x) -> er (bind r k) = bind r k'.
Proof. intros H. destruct r; cbn; auto. Qed.
Lemma er_then (r : res cst) r' k k' : er r = r' -> (forall s, er (k s) = k' (c_st s)) -> er (bind r k) = bind r' k'.
Proof. intros <- H. destruct r; cbn; auto. Qed.
Lemma er_fold {X} g g' : (forall (x : X) s, er (g x s) = g' x (c_st s)) -> forall l s, er (foldM g l s) = foldM g' l (c_st s).
Proof. intros H l. induction l as [|x l IH]; intros s; cbn [foldM]; [reflexivity|]. apply er_then; auto. Qed.

Section Crash.
Variable env : list ty.
Variable be_src be rel : bool.
Variable src : mem.
Notation cser := (cser env be_src be rel src).
Notation ser := (ser env be_src be rel src).

Lemma er_int s pos w x : er (cpatch_int be s pos w x) = patch_int be (c_st s) pos w x.
Proof. unfold cpatch_int. destruct (patch_int be (c_st s) pos w x); reflexivity. Qed.
Lemma er_off s pos o : er (cpatch_off be s pos o) = patch_off be (c_st s) pos o.
Proof. apply er_int. Qed.
Lemma er_resolve s p pos b : er (cresolve be s p pos b) = resolve be (c_st s) p pos b.
Proof.
  unfold cresolve, resolve. destruct p as [q|]; [|apply er_off]. destruct (find_off q (s_offs (c_st s))); [apply er_off|]. destruct (resolve_range (c_st s) q); [apply er_off|].
  destruct b; [|reflexivity]. apply er_then; [apply er_off|]. reflexivity.
Qed.
Ltac app_ := match goal with |- context [cappend ?s ?d ?al] => unfold cappend; destruct (append (c_st s) d al) as [? ?]; cbn [bind c_st c_ops] end.
Ltac go := first [apply er_int | apply er_off | apply er_resolve | reflexivity
  | apply er_then; [go|intros ?; go] | apply er_bind; intros ?; go].
Theorem erase_ser : forall f t a pos s, er (cser f t a pos s) = ser f t a pos (c_st s).
Proof.
  induction f as [|f IH]; intros t a pos s; [reflexivity|]. destruct t; cbn [CrashModel.cser SerialModel.ser].
  - go.
  - reflexivity.
  - go.
  - apply er_fold. intros x s'. apply IH.
  - apply er_bind. intros v. destruct (v =? 0)%N; [reflexivity|apply IH].
  - apply er_bind. intros i. apply er_then; [go|]. intros s'. destruct (nth_error ts (N.to_nat i)); [apply IH|reflexivity].
  - apply er_bind. intros [q|]; [|go]. apply er_bind. intros d. app_. apply er_then; [go|]. intros s'. apply er_then; [go|]. intros s2. apply (IH _ _ _ (note_off s2 q z)).
  - apply er_bind. intros p. apply er_bind. intros used.
    assert (K : forall s1 start,
      er (let* s := cpatch_off be s1 pos (rel_off start pos) in let* s := cpatch_int be s (pos + 8 + Z.of_nat w) w used in let* s := cpatch_int be s (pos + 8) w used in
          let* s := cpatch_int be s (pos + 8 + 2 * Z.of_nat w) 1 0 in
          match p with None => Ok s | Some q =>
            let start := match start with Some x => x | None => NULLPTR_OFFSET end in
            let s := if ix then note_rng s q start (size_of (tyof env n) * Z.of_N used) else s in
            foldM (fun i s => cser f (tyof env n) (q + Z.of_nat i * size_of (tyof env n)) (start + Z.of_nat i * size_of (tyof env n)) s) (seq 0 (N.to_nat used)) s end)
      = (let* s := patch_off be (c_st s1) pos (rel_off start pos) in let* s := patch_int be s (pos + 8 + Z.of_nat w) w used in let* s := patch_int be s (pos + 8) w used in
          let* s := patch_int be s (pos + 8 + 2 * Z.of_nat w) 1 0 in
          match p with None => Ok s | Some q =>
            let start := match start with Some x => x | None => NULLPTR_OFFSET end in
            let s := if ix then St (s_buf s) (s_offs s) (s_rngs s ++ [(q, start, size_of (tyof env n) * Z.of_N used)]) (s_pend s) else s in
            foldM (fun i s => ser f (tyof env n) (q + Z.of_nat i * size_of (tyof env n)) (start + Z.of_nat i * size_of (tyof env n)) s) (seq 0 (N.to_nat used)) s end)).
    { intros s1 start. apply er_then; [go|]. intros s2. apply er_then; [go|]. intros s3. apply er_then; [go|]. intros s4. apply er_then; [go|]. intros s5.
      destruct p as [q|]; [|reflexivity]. cbv zeta. destruct ix.
      - rewrite (er_fold _ (fun i s => ser f (tyof env n) (q + Z.of_nat i * size_of (tyof env n)) (match start with Some x => x | None => NULLPTR_OFFSET end + Z.of_nat i * size_of (tyof env n)) s)); [reflexivity|]. intros; apply IH.
      - apply er_fold. intros; apply IH. }
    destruct (used =? 0)%N; [apply (K s None)|]. destruct p as [q|]; [|reflexivity].
    destruct (sbytes src q _) as [d| | |]; cbn [bind]; try reflexivity. app_. exact (K (C s0 _) (Some z)).
  - apply er_bind. intros short. destruct (negb (short =? 0)%N); [reflexivity|]. apply er_bind. intros p. apply er_bind. intros size.
    destruct p as [q|]; cbn [bind]; [destruct (sbytes src q _) as [d| | |]; cbn [bind]; try reflexivity; app_|]; go.
  - apply er_bind. intros rem. destruct (rem <? 128)%N; [reflexivity|]. apply er_bind. intros p. apply er_bind. intros size. apply er_bind. intros d. app_. go.
  - apply er_bind. intros pe. apply er_bind. intros pc. apply er_bind. intros size. apply er_bind. intros cap. apply er_bind. intros growth.
    destruct pe as [q|]; cbn [bind].
    + destruct (sbytes src q _) as [d| | |]; cbn [bind]; try reflexivity. app_.
      do 6 (apply er_then; [go|intros ?]). apply er_fold. intros i s'. destruct pc as [c|]; [|reflexivity]. apply er_bind. intros b0. destruct (is_full b0); [apply IH|reflexivity].
    + app_. do 6 (apply er_then; [go|intros ?]). reflexivity.
Qed.
Lemma erase_flush s : er (cflush be s) = flush_pending be (c_st s).
Proof. unfold cflush, flush_pending. apply er_fold. intros; apply er_resolve. Qed.

(* ---- where the writes go ---- *)
Variable head : list wop.
Variable D : nat.
Definition inv (s : cst) : Prop :=
  image (c_ops s) = s_buf (c_st s) /\ (exists l, c_ops s = (head ++ l)%list /\ Forall (fun o => (D <= fst o)%nat) l) /\
  Forall (fun p => Z.of_nat D <= snd p) (s_pend (c_st s)) /\ (D <= length (s_buf (c_st s)))%nat.
Definition good (r : res cst) : Prop := forall s, r = Ok s -> inv s.
Lemma good_bind {X} (r : res X) k : (forall x, good (k x)) -> good (bind r k).
Proof. intros H s E. destruct r as [x| | |]; try discriminate. exact (H x s E). Qed.
Lemma good_then (r : res cst) k : good r -> (forall s, inv s -> good (k s)) -> good (bind r k).
Proof. intros G H s E. destruct r as [x| | |]; try discriminate. exact (H x (G x eq_refl) s E). Qed.
Lemma good_ok s : inv s -> good (Ok s).
Proof. intros I s' [= <-]. exact I. Qed.
Lemma good_fold {X} (g : X -> cst -> res cst) l : (forall x s, In x l -> inv s -> good (g x s)) -> forall s, inv s -> good (foldM g l s).
Proof.
  induction l as [|x l IH]; intros H s I; cbn [foldM]; [now apply good_ok|]. apply good_then; [apply H; [left; reflexivity|exact I]|].
  intros s1 I1. apply IH; [|exact I1]. intros y s2 Hy. apply H. now right.
Qed.
Lemma image_snoc l o : image (l ++ [o]) = over (image l) o.
Proof. unfold image. now rewrite fold_left_app. Qed.
Lemma put_length i d b : (i + length d <= length b)%nat -> length (put i d b) = length b.
Proof. intros H. unfold put. rewrite !app_length, firstn_length, skipn_length. lia. Qed.
Lemma zeros_length n : length (zeros n) = n.
Proof. apply repeat_length. Qed.
Lemma inv_write s s' pos d : inv s -> (D <= pos)%nat -> s_buf s' = over (s_buf (c_st s)) (pos, d) -> s_pend s' = s_pend (c_st s) ->
  inv (C s' (c_ops s ++ [(pos, d)])).
Proof.
  intros (I1 & (l & I2 & I3) & I4 & I5) L Eb Ep. split; [|split; [|split]]; cbn [c_st c_ops].
  - rewrite image_snoc, I1, Eb. reflexivity.
  - exists (l ++ [(pos, d)])%list. split; [rewrite I2, app_assoc; reflexivity|]. apply Forall_app. split; [exact I3|]. constructor; [exact L|constructor].
  - now rewrite Ep.
  - rewrite Eb. unfold over. cbn [fst snd]. rewrite put_length; rewrite app_length, zeros_length; lia.
Qed.
Lemma good_int s pos w x : inv s -> Z.of_nat D <= pos -> good (cpatch_int be s pos w x).
Proof.
  intros I L s' E. unfold cpatch_int, patch_int, patch, buf_write_at in E. destruct (verify _) eqn:V; try discriminate. cbn [bind] in E. injection E as <-.
  apply inv_write; [exact I|lia| |reflexivity]. cbn [s_buf]. unfold over. cbn [fst snd]. unfold verify in V. destruct (Nat.leb_spec (Z.to_nat pos + length (of_int be w x)) (length (s_buf (c_st s)))); [|discriminate].
  replace (Z.to_nat pos + length (of_int be w x) - length (s_buf (c_st s)))%nat with 0%nat by lia. cbn [zeros repeat]. now rewrite app_nil_r.
Qed.
Lemma good_off s pos o : inv s -> Z.of_nat D <= pos -> good (cpatch_off be s pos o).
Proof. apply good_int. Qed.
Lemma align_up_ge al p : (p <= align_up al p)%nat.
Proof. unfold align_up. destruct (p mod al =? 0)%nat; lia. Qed.
Lemma append_inv s d al : inv s -> exists s' start, cappend s d al = (s', start) /\ inv s' /\ Z.of_nat D <= start.
Proof.
  intros I. unfold cappend, append. set (q := buf_write 0 (s_buf (c_st s)) d (Z.to_nat al)). eexists. eexists. split; [reflexivity|].
  assert (L : (length (s_buf (c_st s)) <= snd q)%nat).
  { unfold q, buf_write. cbn [snd]. destruct (_ && _)%bool; [|lia]. pose proof (align_up_ge (Z.to_nat al) (0 + length (s_buf (c_st s)))). lia. }
  pose proof I as (_ & _ & _ & I5). split; [|lia]. rewrite Nat2Z.id. apply inv_write; [exact I|lia| |reflexivity]. reflexivity.
Qed.
Lemma inv_note_off s q p : inv s -> inv (note_off s q p).
Proof. intros I. exact I. Qed.
Lemma inv_note_rng s q p n : inv s -> inv (note_rng s q p n).
Proof. intros I. exact I. Qed.
Lemma inv_note_pend s q p : inv s -> Z.of_nat D <= p -> inv (note_pend s q p).
Proof. intros (I1 & I2 & I3 & I4) L. split; [exact I1|]. split; [exact I2|]. split; [|exact I4]. cbn. apply Forall_app. split; [exact I3|]. constructor; [exact L|constructor]. Qed.
Lemma good_resolve s p pos b : inv s -> Z.of_nat D <= pos -> good (cresolve be s p pos b).
Proof.
  intros I L. unfold cresolve. destruct p as [q|]; [|now apply good_off]. destruct (find_off q (s_offs (c_st s))); [now apply good_off|].
  destruct (resolve_range (c_st s) q); [now apply good_off|]. destruct b; [|now apply good_ok]. apply good_then; [now apply good_off|].
  intros s1 I1. apply good_ok. now apply inv_note_pend.
Qed.
Variable A : Z.
Hypothesis Hwf : wf_env A env.
Lemma size_nonneg t : wf A t -> 0 <= size_of t.
Proof. intros W. induction W; cbn [size_of]; try lia. Qed.
Lemma tyof_wf n : wf A (tyof env n).
Proof.
  unfold tyof. destruct (nth_in_or_default n env (TInt 1)) as [I| ->]; [|constructor; cbn; auto].
  destruct Hwf as (_ & _ & W). eapply Forall_forall in W; [exact W|exact I].
Qed.
Ltac put_ := match goal with
  | |- good (bind (cpatch_off _ _ _ _) _) => apply good_then; [apply good_off; [assumption|lia]|let s := fresh "s" in let I := fresh "I" in intros s I; put_]
  | |- good (bind (cpatch_int _ _ _ _ _) _) => apply good_then; [apply good_int; [assumption|lia]|let s := fresh "s" in let I := fresh "I" in intros s I; put_]
  | |- good (cpatch_int _ _ _ _ _) => apply good_int; [assumption|lia]
  | _ => idtac
  end.
Theorem ser_inv : forall f t a pos s, wf A t -> Z.of_nat D <= pos -> inv s -> good (cser f t a pos s).
Proof.
  induction f as [|f IH]; intros t a pos s W L I; [discriminate|]. destruct t; cbn [CrashModel.cser].
  - apply good_bind. intros x. put_.
  - now apply good_ok.
  - apply good_bind. intros p. now apply good_resolve.
  - inversion W; subst. apply good_fold; [|exact I]. intros [o t] s1 Hin I1. cbn [fst snd]. match goal with H : forall o t, In (o, t) fs -> _ |- _ => destruct (H o t Hin) as (W1 & L1 & _) end.
    apply IH; [exact W1|lia|exact I1].
  - inversion W; subst. apply good_bind. intros v. destruct (v =? 0)%N; [now apply good_ok|]. apply IH; [assumption|lia|exact I].
  - inversion W; subst. apply good_bind. intros i. put_. destruct (nth_error ts (N.to_nat i)) as [t|] eqn:E; [|discriminate]. apply nth_error_In in E.
    match goal with H : forall t, In t ts -> _ |- _ => destruct (H t E) as (W1 & _) end. apply IH; [exact W1|lia|assumption].
  - apply good_bind. intros [q|]; [|put_]. apply good_bind. intros d. destruct (append_inv s d (align_of (tyof env n)) I) as (s1 & start & -> & I1 & L1). put_.
    apply IH; [apply tyof_wf|exact L1|]. now apply inv_note_off.
  - apply good_bind. intros p. apply good_bind. intros used. set (T := tyof env n). pose proof (size_nonneg _ (tyof_wf n)) as Sz. fold T in Sz.
    assert (K : forall s1 start, inv s1 -> (used <> 0%N -> exists x, start = Some x /\ Z.of_nat D <= x) ->
      good (let* s := cpatch_off be s1 pos (rel_off start pos) in let* s := cpatch_int be s (pos + 8 + Z.of_nat w) w used in let* s := cpatch_int be s (pos + 8) w used in
          let* s := cpatch_int be s (pos + 8 + 2 * Z.of_nat w) 1 0 in
          match p with None => Ok s | Some q =>
            let start := match start with Some x => x | None => NULLPTR_OFFSET end in
            let s := if ix then note_rng s q start (size_of T * Z.of_N used) else s in
            foldM (fun i s => cser f T (q + Z.of_nat i * size_of T) (start + Z.of_nat i * size_of T) s) (seq 0 (N.to_nat used)) s end)).
    { intros s1 start I1 Ls. put_. destruct p as [q|]; [|now apply good_ok]. cbv zeta. apply good_fold; [|destruct ix; assumption].
      intros i s9 Hi I9. apply in_seq in Hi. destruct Ls as (x & -> & Lx); [lia|]. apply IH; [apply tyof_wf|nia|exact I9]. }
    destruct (N.eqb_spec used 0) as [U|U]; [apply (K s None I); intros; easy|]. destruct p as [q|]; [|discriminate].
    destruct (sbytes src q _) as [d| | |]; cbn [bind]; try discriminate. destruct (append_inv s d (align_of T) I) as (s1 & start & -> & I1 & L1). apply (K s1 (Some start) I1). eauto.
  - apply good_bind. intros short. destruct (negb (short =? 0)%N); [now apply good_ok|]. apply good_bind. intros p. apply good_bind. intros size.
    destruct p as [q|]; cbn [bind]; [destruct (sbytes src q _) as [d| | |]; cbn [bind]; try discriminate; destruct (append_inv s d 0 I) as (s1 & start & -> & I1 & L1); cbn [bind]|]; put_.
  - apply good_bind. intros rem. destruct (rem <? 128)%N; [now apply good_ok|]. apply good_bind. intros p. apply good_bind. intros size. apply good_bind. intros d.
    destruct (append_inv s (d ++ [0%N]) 0 I) as (s1 & start & -> & I1 & L1). put_.
  - apply good_bind. intros pe. apply good_bind. intros pc. apply good_bind. intros size. apply good_bind. intros cap. apply good_bind. intros growth.
    pose proof (size_nonneg _ (tyof_wf n)) as Sz. destruct pe as [q|]; cbn [bind].
    + destruct (sbytes src q _) as [d| | |]; cbn [bind]; try discriminate. destruct (append_inv s d (align_of (tyof env n)) I) as (s1 & start & -> & I1 & L1). cbn [bind]. put_.
      apply good_fold; [|assumption]. intros i s9 Hi I9. destruct pc as [c|]; [|discriminate]. apply good_bind. intros b0. destruct (is_full b0); [|now apply good_ok].
      apply IH; [apply tyof_wf|nia|exact I9].
    + destruct (append_inv s empty_group 1 I) as (s1 & start & -> & I1 & L1). cbn [bind]. put_. now apply good_ok.
Qed.
Lemma flush_inv s : inv s -> good (cflush be s).
Proof.
  intros I. unfold cflush. apply good_fold; [|exact I]. intros x s1 Hx I1. apply good_resolve; [exact I1|]. destruct I as (_ & _ & I & _). eapply Forall_forall in I; [exact I|exact Hx].
Qed.
End Crash.

Local Close Scope Z_scope.
(* ---- bytes of a position ---- *)
Lemma over_length b o : length (over b o) = max (length b) (fst o + length (snd o)).
Proof. unfold over. rewrite put_length; rewrite app_length, zeros_length; lia. Qed.
Lemma nth_zeros n j : nth j (zeros n) 0%N = 0%N.
Proof. unfold zeros. revert j. induction n; intros [|j]; cbn; auto. Qed.
Lemma nth_over b o j : nth j (over b o) 0%N =
  if ((fst o <=? j) && (j <? fst o + length (snd o)))%bool then nth (j - fst o) (snd o) 0%N else nth j b 0%N.
Proof.
  unfold over, put. set (c := b ++ zeros _).
  assert (Lc : fst o + length (snd o) <= length c) by (unfold c; rewrite app_length, zeros_length; lia).
  assert (Nc : nth j c 0%N = nth j b 0%N).
  { unfold c. destruct (Nat.lt_ge_cases j (length b)); [now rewrite app_nth1|]. rewrite app_nth2, nth_zeros by lia. now rewrite nth_overflow by lia. }
  assert (F : length (firstn (fst o) c) = fst o) by (rewrite firstn_length; lia).
  destruct (Nat.leb_spec (fst o) j); cbn [andb].
  - rewrite app_nth2 by lia. rewrite F. destruct (Nat.ltb_spec j (fst o + length (snd o))).
    + rewrite app_nth1 by lia. reflexivity.
    + rewrite app_nth2 by lia. rewrite <- Nc. rewrite <- (firstn_skipn (fst o + length (snd o)) c) at 2. rewrite app_nth2; rewrite firstn_length; [|lia]. f_equal. lia.
  - rewrite app_nth1 by lia. rewrite <- Nc. rewrite <- (firstn_skipn (fst o) c) at 2. rewrite app_nth1 by lia. reflexivity.
Qed.
Lemma nth_nth_error (l : list N) k : nth k l 0%N = match nth_error l k with Some x => x | None => 0%N end.
Proof. revert k. induction l; intros [|k]; cbn; auto. Qed.
Lemma nth_slice i n b k : k < n -> nth k (slice i n b) 0%N = nth (i + k) b 0%N.
Proof.
  intros H. pose proof (nth_error_slice i n b k) as E. destruct (Nat.ltb_spec k n); [|lia]. rewrite !nth_nth_error. now rewrite E.
Qed.
Section Zero.
Variable io : nat.
Definition quiet (b : list N) : Prop := forall j, io <= j < io + 8 -> nth j b 0%N = 0%N.
Definition harmless (o : wop) : Prop := fst o + length (snd o) <= io \/ io + 8 <= fst o \/ snd o = zeros (length (snd o)).
Lemma quiet_over b o : quiet b -> harmless o -> quiet (over b o).
Proof.
  intros Q H j Hj. rewrite nth_over. destruct (Nat.leb_spec (fst o) j), (Nat.ltb_spec j (fst o + length (snd o))); cbn [andb]; try now apply Q.
  destruct H as [H|[H| ->]]; [lia|lia|]. apply nth_zeros.
Qed.
Lemma firstn_zeros k n : firstn k (zeros n) = zeros (min k n).
Proof. unfold zeros. revert k. induction n; intros [|k]; cbn; auto. now rewrite IHn. Qed.
Lemma harmless_torn o k : harmless o -> harmless (torn o k).
Proof.
  unfold harmless, torn. cbn [fst snd]. pose proof (firstn_length k (snd o)) as FL. intros [H1|[H1|H1]]; [left; lia|right; left; lia|right; right].
  rewrite FL, <- firstn_zeros, <- H1. reflexivity.
Qed.
Lemma quiet_fold l : Forall harmless l -> forall b, quiet b -> quiet (fold_left over l b).
Proof. induction 1; intros b Q; cbn [fold_left]; [exact Q|]. apply IHForall. now apply quiet_over. Qed.
Lemma quiet_image l : Forall harmless l -> quiet (image l).
Proof. intros H. apply quiet_fold; [exact H|]. intros [|j] _; reflexivity. Qed.
Lemma quiet_zeros b z : quiet b -> quiet (b ++ zeros z).
Proof.
  intros Q j Hj. destruct (Nat.lt_ge_cases j (length b)); [rewrite app_nth1 by lia; now apply Q|]. rewrite app_nth2 by lia. apply nth_zeros.
Qed.
Lemma quiet_slice b : quiet b -> io + 8 <= length b -> slice io 8 b = zeros 8.
Proof.
  intros Q L. apply nth_ext with (d := 0%N) (d' := 0%N); [rewrite slice_length, zeros_length; lia|].
  intros n Hn. rewrite slice_length in Hn. rewrite nth_zeros, nth_slice by lia. apply Q. lia.
Qed.
End Zero.

Section Top.
Variable m th : N.
Notation big := (is_mode_enabled m SERIALIZE_BIG_ENDIAN).
Lemma read_at hb b i l : slice i 8 b = l -> length l = 8 -> bytes_ok l -> hdr_read hb m b i = Ok (if big then big_endian_value l else little_endian_value l) \/ hdr_read hb m b i = UB.
Proof.
  intros E L K. unfold hdr_read, get. destruct (_ <=? _); [left|right; reflexivity]. rewrite E, read_value; auto.
Qed.
Lemma read_zero hb b i : slice i 8 b = zeros 8 -> hdr_read hb m b i = Ok 0%N \/ hdr_read hb m b i = UB.
Proof. intros E. destruct (read_at hb b i _ E eq_refl (zeros_ok 8)) as [R|R]; [left|right; exact R]. rewrite R. destruct big; reflexivity. Qed.
Lemma read_inj hb hb' b i l x : slice i 8 b = l -> length l = 8 -> bytes_ok l -> (x < W64)%N -> hdr_read hb m b i = Ok x -> l = hdr_bytes hb' m x.
Proof.
  intros E L K X R. destruct (read_at hb b i l E L K) as [R2|R2]; rewrite R2 in R; [|discriminate]. injection R as R.
  unfold hdr_bytes. rewrite written_bytes. destruct big.
  - unfold big_endian_value in R. rewrite <- R. rewrite <- (rev_involutive l) at 1. f_equal. rewrite <- (le_enc_dec (rev l)) at 1 by now apply rev_ok. rewrite rev_length, L. reflexivity.
  - unfold little_endian_value in R. rewrite <- R, <- L. symmetry. now apply le_enc_dec.
Qed.
Lemma check_sum hb b : is_mode_enabled m WITH_INTEGRITY = true -> check hb m th b = Ok tt ->
  data_start m < length b /\ hdr_read hb m b (integrity_start m) = Ok (hash (skipn (data_start m) b) BASE_HASH).
Proof.
  intros E H. unfold check in H. rewrite E in H. destruct (Nat.ltb_spec (data_start m) (length b)); [|discriminate]. split; [assumption|]. cbn [verify bind] in H.
  match type of H with bind ?x _ = _ => destruct x; try discriminate end. cbn [bind] in H. destruct (hdr_read _ _ _ _) as [v| | |] in H |- *; try discriminate. cbn [bind] in H.
  destruct (N.eqb_spec v (hash (skipn (data_start m) b) BASE_HASH)); [now subst|discriminate].
Qed.
Variable be_src : bool.
Variable io : nat.
Variable ops0 : list wop.
Hypothesis EI : is_mode_enabled m WITH_INTEGRITY = true.
Hypothesis Eio : integrity_start m = io.
Hypothesis Hh : Forall (harmless io) ops0.
Hypothesis Len : io + 8 <= length (image ops0).
Let cs := hash (skipn (io + 8) (image ops0)) BASE_HASH.
Let last := (io, hdr_bytes be_src m cs).
Let ops := ops0 ++ [last].
Lemma ds : data_start m = io + 8.
Proof. rewrite dstart_integrity by exact EI. lia. Qed.
Lemma quiet_accepted hb b : quiet io b -> check hb m th b = Ok tt -> hash (skipn (data_start m) b) BASE_HASH = 0%N.
Proof.
  intros Q H. apply check_sum in H as [L R]; [|exact EI]. rewrite ds in L. rewrite Eio in R.
  destruct (read_zero hb b io) as [Z|Z]; [apply quiet_slice; [exact Q|lia]| |]; congruence.
Qed.
Lemma cut_cases pre o post : ops = pre ++ o :: post -> (pre = ops0 /\ o = last /\ post = []) \/ (exists post', ops0 = pre ++ o :: post').
Proof.
  unfold ops. intros E. destruct (exists_last (l := o :: post)) as (q & y & Eq); [discriminate|]. rewrite Eq in E. rewrite app_assoc in E. apply app_inj_tail in E as [E1 E2].
  destruct q as [|o' q]; cbn [app] in Eq; injection Eq as -> Eq.
  - left. subst. rewrite app_nil_r. auto.
  - right. exists q. rewrite E1. reflexivity.
Qed.
Lemma early_quiet pre o post' k : ops0 = pre ++ o :: post' -> quiet io (over (image pre) (torn o k)).
Proof.
  intros E. pose proof Hh as H. rewrite E in H. apply Forall_app in H as [H1 H2]. inversion H2; subst. apply quiet_over; [now apply quiet_image|now apply harmless_torn].
Qed.
Lemma nth_firstn (l : list N) n k : k < n -> nth k (firstn n l) 0%N = nth k l 0%N.
Proof. revert l k. induction n; intros l k H; [lia|]. destruct l, k; cbn; auto. apply IHn. lia. Qed.
Lemma nth_skipn (l : list N) n k : nth k (skipn n l) 0%N = nth (n + k) l 0%N.
Proof. revert l. induction n; intros l; [reflexivity|]. destruct l; cbn; [now destruct k|apply IHn]. Qed.
Lemma over_split b d : quiet io b -> io + 8 <= length b -> length d <= 8 -> over b (io, d) = firstn io b ++ (d ++ zeros (8 - length d)) ++ skipn (io + 8) b.
Proof.
  intros Q L Ld. assert (F : length (firstn io b) = io) by (rewrite firstn_length; lia). assert (Z : length (d ++ zeros (8 - length d)) = 8) by (rewrite app_length, zeros_length; lia).
  apply nth_ext with (d := 0%N) (d' := 0%N).
  - rewrite over_length. cbn [fst snd]. rewrite !app_length, F, zeros_length, skipn_length. lia.
  - intros j _. rewrite nth_over. cbn [fst snd]. destruct (Nat.leb_spec io j); cbn [andb].
    + rewrite app_nth2 by lia. rewrite F. destruct (Nat.ltb_spec j (io + 8)).
      * rewrite app_nth1 by lia. destruct (Nat.ltb_spec j (io + length d)); [rewrite app_nth1 by lia; reflexivity|]. rewrite app_nth2 by lia. rewrite nth_zeros. apply Q. lia.
      * destruct (Nat.ltb_spec j (io + length d)); [lia|]. rewrite app_nth2 by lia. rewrite Z, nth_skipn. f_equal. lia.
    + rewrite app_nth1 by lia. symmetry. apply nth_firstn. lia.
Qed.
Lemma three (x y z : list N) : length x = io -> length y = 8 -> slice io 8 (x ++ y ++ z) = y /\ skipn (io + 8) (x ++ y ++ z) = z.
Proof.
  intros Lx Ly. unfold slice. split.
  - rewrite skipn_app, skipn_all2 by lia. rewrite Lx, Nat.sub_diag. cbn [skipn app]. rewrite firstn_app, Ly, Nat.sub_diag, firstn_O, app_nil_r. apply firstn_all2. lia.
  - rewrite app_assoc. rewrite skipn_app, skipn_all2 by (rewrite app_length; lia). rewrite app_length, Lx, Ly, Nat.sub_diag. reflexivity.
Qed.
Lemma cs_bound : (cs < W64)%N.
Proof. apply hash_bound. reflexivity. Qed.
Theorem cut_file hb b : left_in_file ops b -> check hb m th b = Ok tt -> b = image ops \/ hash (skipn (data_start m) b) BASE_HASH = 0%N.
Proof.
  intros (pre & o & post & k & E & ->) H. destruct (cut_cases _ _ _ E) as [(-> & -> & ->)|[post' E2]]; [|right; eapply quiet_accepted; [|exact H]; eapply early_quiet; exact E2].
  left. set (img := image ops0) in *. assert (Q : quiet io img) by (apply quiet_image; exact Hh).
  set (hb8 := hdr_bytes be_src m cs) in *. assert (L8 : length hb8 = 8) by apply hdr_bytes_length.
  assert (Fk : length (firstn k hb8) <= 8) by (rewrite firstn_length; lia).
  assert (Fi : length (firstn io img) = io) by (rewrite firstn_length; lia).
  unfold torn, last in *. cbn [fst snd] in *. rewrite (over_split _ _ Q Len Fk) in *.
  set (l := firstn k hb8 ++ zeros (8 - length (firstn k hb8))) in *. assert (Ll : length l = 8) by (unfold l; rewrite app_length, zeros_length; lia).
  destruct (three (firstn io img) l (skipn (io + 8) img) Fi Ll) as [T1 T2].
  apply check_sum in H as [_ R]; [|exact EI]. rewrite Eio, ds, T2 in R. fold cs in R.
  assert (K : bytes_ok l). { apply Forall_app. split; [|apply zeros_ok]. pose proof (hdr_ok be_src m cs) as K. fold hb8 in K. rewrite <- (firstn_skipn k hb8) in K. apply Forall_app in K. tauto. }
  pose proof (read_inj hb be_src _ _ _ _ T1 Ll K cs_bound R) as El. fold hb8 in El.
  unfold ops. rewrite image_snoc. fold img. unfold last. fold hb8. rewrite (over_split img hb8 Q Len) by lia. rewrite L8, Nat.sub_diag. cbn [zeros repeat]. rewrite app_nil_r, El. reflexivity.
Qed.
Theorem cut_map hb b : left_in_map ops b -> check hb m th b = Ok tt -> (exists z, b = image ops ++ zeros z) \/ hash (skipn (data_start m) b) BASE_HASH = 0%N.
Proof.
  intros (pre & o & post & k & z & E & -> & Hk) H. destruct (cut_cases _ _ _ E) as [(-> & -> & ->)|[post' E2]];
    [|right; eapply quiet_accepted; [|exact H]; apply quiet_zeros; eapply early_quiet; exact E2].
  unfold last in Hk. cbn [snd] in Hk. rewrite hdr_bytes_length in Hk. destruct Hk as [->|Hk]; [lia| |].
  - right. eapply quiet_accepted; [|exact H]. apply quiet_zeros. apply quiet_over; [now apply quiet_image|]. right. right. reflexivity.
  - left. exists z. unfold ops. rewrite image_snoc. unfold torn, last. cbn [fst snd]. rewrite firstn_all2 by (rewrite hdr_bytes_length; lia). reflexivity.
Qed.
End Top.

(* ---- saving as a whole ---- *)
Section Save.
Variable env : list ty.
Variable A : Z.
Hypothesis Hwf : wf_env A env.
Variables (be_src rel : bool) (m th : N) (src : mem) (f : nat) (t : ty) (a : Z).
Hypothesis Wt : wf A t.
Hypothesis Wm : writer_mode m.
Let be := is_mode_enabled m SERIALIZE_BIG_ENDIAN.
Definition head pos root : list wop :=
  (if version_enabled m then [(0, hdr_bytes be_src m th)] else []) ++ (if is_mode_enabled m WITH_INTEGRITY then [(integrity_start m, host_bytes be_src 8 0)] else []) ++ [(pos, root)].
Lemma over_end b p d : p = length b -> over b (p, d) = b ++ d.
Proof.
  intros ->. unfold over, put. cbn [fst snd]. replace (length b + length d - length b) with (length d) by lia.
  rewrite firstn_app, firstn_all, Nat.sub_diag. cbn [firstn]. rewrite app_nil_r. f_equal. rewrite skipn_all2 by (rewrite app_length, zeros_length; lia). apply app_nil_r.
Qed.
Lemma head_image pos root : image (head pos root) = over (hdr_prefix be_src m th) (pos, root).
Proof.
  destruct (writer_starts m Wm) as [HI _]. unfold head, image, hdr_prefix. rewrite HI. destruct (version_enabled m), (is_mode_enabled m WITH_INTEGRITY); cbn [app fold_left];
    rewrite ?(over_end [] 0) by reflexivity; cbn [app]; rewrite ?(over_end (hdr_bytes be_src m th) 8) by (now rewrite hdr_bytes_length); rewrite ?app_nil_r; reflexivity.
Qed.
Definition sum_op (s : cst) : list wop := if is_mode_enabled m WITH_INTEGRITY then [(integrity_start m, hdr_bytes be_src m (hash (skipn (integrity_start m + 8) (s_buf (c_st s))) BASE_HASH))] else [].
Lemma save_eq : exists r, save env be_src rel m th src f t a = (let* s := r in Ok (c_ops s ++ sum_op s)) /\
  serialize env be_src rel m th src f t a = (let* s := r in serialize_finish be_src m (s_buf (c_st s)) (if is_mode_enabled m WITH_INTEGRITY then integrity_start m else 0)) /\
  exists pos root, data_start m <= pos /\ good (head pos root) (data_start m) r.
Proof.
  unfold save, serialize. destruct (sbytes src a _) as [root| | |]; cbn [bind];
    [|match goal with |- exists r, ?x = _ /\ _ => match x with Throw => exists Throw | UB => exists UB | _ => exists Fuel end end;
      (split; [reflexivity|split; [reflexivity|exists (data_start m), []; split; [lia|intros ? ?; discriminate]]]) ..].
  rewrite serialize_start_eq by exact Wm. fold (version_enabled m). fold be. set (q := buf_write _ _ _ _). set (pos := snd q).
  assert (Lp : data_start m <= pos).
  { unfold pos, q, buf_write. cbn [snd]. rewrite hdr_prefix_length by exact Wm. destruct (_ && _)%bool; [|lia]. pose proof (align_up_ge (Z.to_nat (align_of t)) (0 + data_start m)). lia. }
  assert (Eq : fst q = over (hdr_prefix be_src m th) (pos, root)) by reflexivity.
  set (io := if is_mode_enabled m WITH_INTEGRITY then integrity_start m else 0).
  assert (Eh : (if version_enabled m then [(0, hdr_bytes be_src m th)] else []) ++ (if is_mode_enabled m WITH_INTEGRITY then [(io, host_bytes be_src 8 0)] else []) ++ [(pos, root)] = head pos root).
  { unfold head, io. destruct (is_mode_enabled m WITH_INTEGRITY); reflexivity. }
  rewrite Eh. clear Eh. clearbody pos. set (s0 := C (St (fst q) [] [] []) (head pos root)).
  assert (I0 : inv (head pos root) (data_start m) s0).
  { split; [|split; [|split]]; cbn [s0 c_st c_ops s_buf s_pend].
    - rewrite head_image, Eq. reflexivity.
    - exists []. rewrite app_nil_r. split; [reflexivity|constructor].
    - constructor.
    - rewrite Eq, over_length, hdr_prefix_length by exact Wm. lia. }
  exists (let* s := cser env be_src be rel src f t a (Z.of_nat pos) s0 in cflush be s). split; [|split].
  - destruct (cser env be_src be rel src f t a (Z.of_nat pos) s0) as [s1| | |]; cbn [bind]; try reflexivity. destruct (cflush be s1) as [s2| | |]; cbn [bind]; try reflexivity.
    unfold sum_op, io. destruct (is_mode_enabled m WITH_INTEGRITY); reflexivity.
  - pose proof (erase_ser env be_src be rel src f t a (Z.of_nat pos) s0) as E1. cbn [s0 c_st] in E1. rewrite <- E1.
    destruct (cser env be_src be rel src f t a (Z.of_nat pos) s0) as [s1| | |]; cbn [bind er]; try reflexivity. rewrite <- (erase_flush be s1).
    destruct (cflush be s1); reflexivity.
  - exists pos, root. split; [exact Lp|]. apply good_then; [|intros s1 I1; now apply flush_inv]. eapply ser_inv; [exact Hwf|exact Wt|lia|exact I0].
Qed.
Theorem saved_image : (let* ops := save env be_src rel m th src f t a in Ok (image ops)) = serialize env be_src rel m th src f t a.
Proof.
  destruct save_eq as (r & -> & -> & pos & root & Lp & G). destruct r as [s| | |]; cbn [bind]; try reflexivity.
  destruct (G s eq_refl) as (I1 & _ & _ & I4). unfold serialize_finish, sum_op. destruct (is_mode_enabled m WITH_INTEGRITY) eqn:EI.
  - pose proof (dstart_integrity m EI) as Ds. unfold buf_write_at. rewrite hdr_bytes_length. destruct (Nat.leb_spec (integrity_start m + 8) (length (s_buf (c_st s)))); [|lia]. cbn [verify bind].
    rewrite image_snoc, I1. unfold over. cbn [fst snd]. rewrite hdr_bytes_length. replace (integrity_start m + 8 - length (s_buf (c_st s))) with 0 by lia. cbn [zeros repeat]. now rewrite app_nil_r.
  - now rewrite app_nil_r, I1.
Qed.
Theorem saved_shape ops : is_mode_enabled m WITH_INTEGRITY = true -> save env be_src rel m th src f t a = Ok ops ->
  exists ops0, Forall (harmless (integrity_start m)) ops0 /\ integrity_start m + 8 <= length (image ops0) /\
       ops = ops0 ++ [(integrity_start m, hdr_bytes be_src m (hash (skipn (integrity_start m + 8) (image ops0)) BASE_HASH))].
Proof.
  intros EI E. destruct save_eq as (r & E1 & _ & pos & root & Lp & G). rewrite E1 in E. destruct r as [s| | |]; try discriminate. cbn [bind] in E. unfold sum_op in E. rewrite EI in E. injection E as <-.
  destruct (G s eq_refl) as (I1 & (l & I2 & I3) & _ & I4). pose proof (dstart_integrity m EI) as Ds. destruct (writer_starts m Wm) as [HI _].
  exists (c_ops s). rewrite I1. split; [|split; [lia|reflexivity]]. rewrite I2. apply Forall_app. split.
  - unfold head. rewrite EI. apply Forall_app. split; [|constructor; [|constructor; [|constructor]]].
    + rewrite HI. destruct (version_enabled m); [|constructor]. constructor; [|constructor]. left. cbn [fst snd]. rewrite hdr_bytes_length. lia.
    + right. right. cbn [snd]. rewrite host_bytes_length. unfold host_bytes. destruct be_src; reflexivity.
    + right. left. cbn [fst]. lia.
  - eapply Forall_impl; [|exact I3]. intros o Ho. right. left. cbn in Ho. lia.
Qed.
End Save.
