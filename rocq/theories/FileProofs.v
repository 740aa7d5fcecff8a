From Verif Require Import Base FlatModel FlatSpec FlatProofs PagedProofs TupleModel TupleProofs FnvModel SumModel SumSpec SumProofs FileModel FileSpec.

(* ---------------- lists ---------------- *)
Lemma wr_ok m off bs : off + length bs <= length m -> wr m off bs = Ok (overwrite m off bs).
Proof. intros H. unfold wr. destruct (Nat.leb_spec (off + length bs) (length m)); [auto|lia]. Qed.
Lemma over_len b pos bs : pos + length bs <= length b -> length (overwrite b pos bs) = length b.
Proof. intros H. unfold overwrite. rewrite !app_length, firstn_length, skipn_length. lia. Qed.
Lemma over_nth b pos bs k : pos + length bs <= length b -> nth_error (overwrite b pos bs) k = if (pos <=? k) && (k <? pos + length bs) then nth_error bs (k - pos) else nth_error b k.
Proof.
  intros H. unfold overwrite. destruct (Nat.leb_spec pos k); cbn [andb].
  - rewrite nth_error_app2 by (rewrite firstn_length; lia). rewrite firstn_length. replace (Nat.min pos (length b)) with pos by lia.
    destruct (Nat.ltb_spec k (pos + length bs)).
    + rewrite nth_error_app1 by lia. auto.
    + rewrite nth_error_app2 by lia. rewrite nth_skip. f_equal. lia.
  - rewrite nth_error_app1 by (rewrite firstn_length; lia). rewrite nth_first. destruct (Nat.ltb_spec k pos); [auto|lia].
Qed.
Lemma over_app b c pos bs : pos + length bs <= length b -> overwrite (b ++ c) pos bs = overwrite b pos bs ++ c.
Proof.
  intros H. unfold overwrite. rewrite firstn_app, skipn_app. replace (pos - length b) with 0 by lia. replace (pos + length bs - length b) with 0 by lia.
  cbn [firstn skipn]. rewrite app_nil_r, <- !app_assoc. auto.
Qed.
Lemma over_end b z bs : length z = length bs -> overwrite (b ++ z) (length b) bs = b ++ bs.
Proof.
  intros H. unfold overwrite. rewrite firstn_app, Nat.sub_diag, firstn_all. cbn [firstn]. rewrite app_nil_r. f_equal. rewrite skipn_all2 by (rewrite app_length; lia). apply app_nil_r.
Qed.
Lemma repeat_app' {A} (x : A) n m : repeat x (n + m) = repeat x n ++ repeat x m. Proof. apply repeat_app. Qed.

Lemma next_off_align n a : 1 < a -> align_up n a = next_off n a.
Proof.
  intros H. unfold align_up, next_off. destruct (Nat.ltb_spec 1 a); [|lia]. destruct (Nat.eqb_spec (n mod a) 0) as [->|]; auto.
  rewrite Nat.sub_0_r, Nat.mod_same by lia. lia.
Qed.
Lemma next_off_ge n a : n <= next_off n a. Proof. unfold next_off. destruct (1 <? a); lia. Qed.
Lemma align_base base n a : 1 < a -> base mod a = 0 -> align_up (base + n) a - base = next_off n a.
Proof.
  intros H B. unfold align_up, next_off. destruct (Nat.ltb_spec 1 a); [|lia]. assert (E : (base + n) mod a = n mod a).
  { rewrite Nat.add_mod, B by lia. cbn [plus]. apply Nat.mod_mod. lia. }
  rewrite E. destruct (Nat.eqb_spec (n mod a) 0) as [->|]; [rewrite Nat.sub_0_r, Nat.mod_same by lia|]; lia.
Qed.

(* appending inside a longer sequence of zeros: the one step shared by all targets *)
Definition appended (b : bytes) (a : nat) (bs : bytes) : bytes := b ++ repeat 0%N (next_off (length b) a - length b) ++ bs.
Lemma appended_len b a bs : length (appended b a bs) = next_off (length b) a + length bs.
Proof. unfold appended. rewrite !app_length, repeat_length. pose proof (next_off_ge (length b) a). lia. Qed.
Lemma append_zeros b a bs k : overwrite (b ++ repeat 0%N (next_off (length b) a + length bs + k - length b)) (next_off (length b) a) bs = appended b a bs ++ repeat 0%N k.
Proof.
  pose proof (next_off_ge (length b) a) as G. set (o := next_off (length b) a) in *. unfold appended. fold o.
  replace (o + length bs + k - length b) with ((o - length b) + (length bs + k)) by lia. rewrite !repeat_app'. rewrite !app_assoc. rewrite over_app by (rewrite !app_length, !repeat_length; lia).
  f_equal. replace o with (length (b ++ repeat 0%N (o - length b))) at 2 by (rewrite app_length, repeat_length; lia). rewrite over_end by apply repeat_length. auto.
Qed.

(* ---------------- chunks ---------------- *)
Lemma hash_app a b h : hash (a ++ b) h = hash b (hash a h). Proof. apply fold_left_app. Qed.
Definition ck (f : bytes) (start : nat) (r : res N) (c : nat * nat) : res N :=
  let* h := r in let s := firstn (snd c) (skipn (start + fst c) f) in if length s =? snd c then Ok (hash s h) else Throw.
Lemma skip_skip {A} (l : list A) i j : skipn i (skipn j l) = skipn (j + i) l.
Proof. revert l; induction j; intros [|x l]; cbn; auto. destruct i; auto. Qed.
Lemma chunk_hash cs f start : 0 < cs -> forall rem fuel off h, rem <= fuel -> start + off + rem <= length f ->
  exists l, chunk fuel cs off rem = Ok l /\ fold_left (ck f start) l (Ok h) = Ok (hash (firstn rem (skipn (start + off) f)) h).
Proof.
  intros C rem. induction rem as [rem IH] using lt_wf_ind. intros fuel off h F L. destruct rem as [|r].
  - exists []. destruct fuel; split; auto.
  - destruct fuel as [|fuel]; [lia|]. cbn [chunk]. set (c := Nat.min (S r) cs).
    destruct (IH (S r - c)) with (fuel := fuel) (off := off + c) (h := hash (firstn c (skipn (start + off) f)) h) as (l & -> & E); try lia.
    cbn [bind]. eexists. split; [reflexivity|]. cbn [fold_left].
    assert (Lc : length (firstn c (skipn (start + off) f)) = c) by (rewrite firstn_length, skipn_length; lia). unfold ck at 2. cbn [bind fst snd]. rewrite Lc, Nat.eqb_refl, E.
    f_equal. rewrite <- hash_app. f_equal. replace (start + (off + c)) with ((start + off) + c) by lia. rewrite <- (skip_skip f c (start + off)).
    set (l0 := skipn (start + off) f) in *. rewrite <- (firstn_skipn c l0) at 3. rewrite firstn_app, Lc. rewrite firstn_firstn. replace (Nat.min (S r) c) with c by lia. auto.
Qed.
Lemma file_sum cs f start : 0 < cs -> fsize f = length (fbytes f) -> start <= length (fbytes f) -> file_checksum cs f start = Ok (hash (skipn start (fbytes f)) BASE_HASH).
Proof.
  intros C E L. unfold file_checksum. destruct (Nat.ltb_spec (fsize f) start); [lia|].
  destruct (chunk_hash cs (fbytes f) start C (fsize f - start) (fsize f - start) 0 BASE_HASH) as (l & -> & F); [lia|lia|]. cbn [bind]. unfold ck in F. rewrite F. f_equal. f_equal.
  rewrite Nat.add_0_r. apply firstn_all2. rewrite skipn_length. lia.
Qed.

(* ---------------- the targets ---------------- *)
Lemma buf_step_ok b o t r : aligned [o] -> target_spec b o = Some (t, r) -> buf_step b o = Ok (t, r).
Proof.
  intros A E. destruct o as (o, base). unfold target_spec, buf_step in *. cbn [fst snd] in *. destruct o.
  - apply guard_some in E as (C & E). injection E as <- <-. unfold buf_write.
    assert (S : (if (1 <? a) && negb (length b =? 0) then align_up (base + length b) a - base else length b) = next_off (length b) a).
    { destruct (Nat.ltb_spec 1 a) as [La|La]; cbn [andb].
      - destruct (Nat.eqb_spec (length b) 0) as [Z|Z]; cbn [negb].
        + rewrite Z. unfold next_off. destruct (Nat.ltb_spec 1 a); [|lia]. rewrite Nat.mod_0_l, Nat.sub_0_r, Nat.mod_same by lia. auto.
        + apply align_base; auto. apply (A bs a base); [left; auto|auto].
      - unfold next_off. destruct (Nat.ltb_spec 1 a); [lia|auto]. }
    rewrite S. pose proof (append_zeros b a bs 0) as Z. cbn [repeat] in Z. rewrite app_nil_r, Nat.add_0_r in Z. pose proof (next_off_ge (length b) a) as G.
    set (o := next_off (length b) a) in *.
    assert (Q : (if length b <? o + length bs then b ++ repeat 0%N (o + length bs - length b) else b) = b ++ repeat 0%N (o + length bs - length b)).
    { destruct (Nat.ltb_spec (length b) (o + length bs)); auto. replace (o + length bs - length b) with 0 by lia. cbn. rewrite app_nil_r. auto. }
    rewrite Q. assert (L : length (b ++ repeat 0%N (o + length bs - length b)) = o + length bs) by (rewrite app_length, repeat_length; lia). rewrite L.
    destruct (Nat.eqb_spec (o + length bs) 0) as [N|N].
    + exfalso. assert (Hb : length bs = 0) by lia. rewrite Hb in C. assert (Hl : length b = 0) by lia. rewrite Hl in C. cbn in C. rewrite Bool.andb_false_r in C. discriminate.
    + rewrite wr_ok by lia. cbn [bind]. rewrite Z. reflexivity.
  - apply guard_some in E as (C & E). injection E as <- <-. unfold buf_patch. apply andb_prop in C as (C & _). rewrite C. apply Nat.leb_le in C. rewrite wr_ok by auto. auto.
  - apply guard_some in E as (C & E). injection E as <- <-. unfold buf_checksum. rewrite C. auto.
Qed.
Definition FR (f : file) (b : bytes) : Prop := fbytes f = b /\ fsize f = length b.
Lemma fwrite_over f pos bs : bs <> [] -> fwrite f pos bs = overwrite (f ++ repeat 0%N (pos + length bs - length f)) pos bs.
Proof. intros H. unfold fwrite. destruct bs; [congruence|auto]. Qed.
Lemma over_nil (b : bytes) pos : overwrite b pos [] = b.
Proof. unfold overwrite. cbn. rewrite Nat.add_0_r. apply firstn_skipn. Qed.
Lemma file_step_ok cs f b o t r : 0 < cs -> FR f b -> target_spec b o = Some (t, r) -> exists f', file_step cs f o = Ok (f', r) /\ FR f' t.
Proof.
  intros Cs (R1 & R2) E. destruct o as (o, base). unfold target_spec, file_step in *. cbn [fst snd] in *. destruct o.
  - apply guard_some in E as (C & E). injection E as <- <-. unfold file_write. rewrite R2.
    assert (S : (if 1 <? a then align_up (length b) a else length b) = next_off (length b) a).
    { destruct (Nat.ltb_spec 1 a); [apply next_off_align; auto|]. unfold next_off. destruct (Nat.ltb_spec 1 a); [lia|auto]. }
    rewrite S. eexists. split; [reflexivity|]. split; cbn [fbytes fsize].
    + assert (P : (if 1 <? a then next_off (length b) a else length (fbytes f)) = next_off (length b) a).
      { destruct (Nat.ltb_spec 1 a); auto. rewrite R1. unfold next_off. destruct (Nat.ltb_spec 1 a); [lia|auto]. }
      rewrite P, R1. pose proof (append_zeros b a bs 0) as Z. cbn [repeat] in Z. rewrite app_nil_r, Nat.add_0_r in Z.
      destruct bs as [|x bs].
      * cbn [length Nat.eqb negb orb] in C. apply andb_prop in C as (C1 & C2). unfold next_off. destruct (Nat.ltb_spec 1 a); [apply Nat.leb_le in C1; lia|].
        rewrite Nat.sub_diag. cbn. rewrite app_nil_r. auto.
      * rewrite fwrite_over by discriminate. rewrite Z. auto.
    + rewrite <- (appended_len b a bs). auto.
  - apply guard_some in E as (C & E). injection E as <- <-. eexists. split; [reflexivity|]. apply andb_prop in C as (C & _). apply Nat.leb_le in C. unfold file_patch. split; cbn [fbytes fsize].
    + rewrite R1. destruct bs as [|x bs]; [cbn [fwrite]; rewrite over_nil; auto|]. rewrite fwrite_over by discriminate.
      replace (pos + length (x :: bs) - length b) with 0 by lia. cbn [repeat]. rewrite app_nil_r. auto.
    + rewrite over_len by auto. auto.
  - apply guard_some in E as (C & E). injection E as <- <-. apply Nat.ltb_lt in C. rewrite file_sum; auto; try congruence; [|rewrite R1; lia]. cbn [bind]. rewrite R1. exists f. split; auto. split; auto.
Qed.

Lemma npo2_ge n : n <= FileModel.next_power_of_two n.
Proof.
  unfold FileModel.next_power_of_two. destruct (Nat.eqb_spec n 0) as [->|]; auto. destruct (Nat.eq_dec n 1) as [->|]; auto. apply Nat.log2_up_spec. lia.
Qed.
Lemma npo2_pos n : 0 < FileModel.next_power_of_two n.
Proof. unfold FileModel.next_power_of_two. destruct (n =? 0); auto. apply Nat.neq_0_lt_0. apply Nat.pow_nonzero. lia. Qed.

Record TRm (m : mm) (b : bytes) : Prop := {
  tm_prot : mprot m = WRITE;
  tm_used : mused m = length b;
  tm_size : msize m = length (mfile m);
  tm_addr : maddr m = negb (msize m =? 0);
  tm_file : exists k, mfile m = b ++ repeat 0%N k
}.
Lemma mm_resize_grow m b n : TRm m b -> length b <= n -> exists m', mm_resize m n false = (m', false) /\ mused m' = n /\ mprot m' = WRITE /\ msize m' = length (mfile m') /\
  maddr m' = negb (msize m' =? 0) /\ exists k, mfile m' = b ++ repeat 0%N (n + k - length b).
Proof.
  intros [R1 R2 R3 R4 (k & R5)] L. unfold mm_resize, mm_reserve. rewrite R1. destruct (Nat.ltb_spec (msize m) n) as [H|H].
  - unfold resize_map. rewrite R1. unfold resize_file. cbn [mprot mfile mhist msize mused maddr]. eexists. split; [reflexivity|]. cbn [mprot mfile mhist msize mused maddr set_file].
    pose proof (npo2_ge n) as G. pose proof (npo2_pos n) as P. set (q := FileModel.next_power_of_two n) in *. assert (Lf : length (mfile m) = length b + k) by (rewrite R5, app_length, repeat_length; auto).
    split; auto. split; auto. unfold ftruncate. split; [rewrite app_length, firstn_length, repeat_length; lia|]. split; [destruct (Nat.eqb_spec q 0); [lia|auto]|].
    exists (q - n). rewrite firstn_all2 by lia. rewrite R5, <- app_assoc, <- repeat_app', app_length, repeat_length. f_equal. f_equal. lia.
  - eexists. split; [reflexivity|]. cbn [mprot mfile mhist msize mused maddr]. do 4 (split; auto). exists (length b + k - n). rewrite R5. f_equal. f_equal.
    rewrite R3, R5, app_length, repeat_length in H. lia.
Qed.
Lemma mm_write_ok m off bs : mprot m <> READ -> maddr m = negb (msize m =? 0) -> msize m = length (mfile m) -> off + length bs <= msize m -> msize m <> 0 ->
  mm_write m off bs = Ok (set_file m (overwrite (mfile m) off bs)).
Proof.
  intros P A S L Z. unfold mm_write. rewrite A. destruct (Nat.eqb_spec (msize m) 0); [lia|]. cbn [negb andb]. destruct (Nat.leb_spec (off + length bs) (msize m)); [|lia].
  rewrite wr_ok by lia. cbn [bind]. destruct (mprot m); congruence.
Qed.
Lemma mbuf_step_ok m b o t r : aligned [o] -> TRm m b -> target_spec b o = Some (t, r) -> exists m', mbuf_step m o = Ok (m', r) /\ TRm m' t.
Proof.
  intros A R E. pose proof R as [R1 R2 R3 R4 (k0 & R5)]. destruct o as (o, base). unfold target_spec, mbuf_step in *. cbn [fst snd] in *. destruct o.
  - apply guard_some in E as (C & E). injection E as <- <-. unfold mbuf_write. rewrite R2.
    assert (S : (if (1 <? a) && negb (length b =? 0) then align_up (base + length b) a - base else length b) = next_off (length b) a).
    { destruct (Nat.ltb_spec 1 a) as [La|La]; cbn [andb].
      - destruct (Nat.eqb_spec (length b) 0) as [Z|Z]; cbn [negb].
        + rewrite Z. unfold next_off. destruct (Nat.ltb_spec 1 a); [|lia]. rewrite Nat.mod_0_l, Nat.sub_0_r, Nat.mod_same by lia. auto.
        + apply align_base; auto. apply (A bs a base); [left; auto|auto].
      - unfold next_off. destruct (Nat.ltb_spec 1 a); [lia|auto]. }
    rewrite S. pose proof (append_zeros b a bs) as Z. pose proof (next_off_ge (length b) a) as G.
    pose proof (appended_len b a bs) as LA. fold (appended b a bs). set (o := next_off (length b) a) in *.
    assert (Q : exists m1 k, (if length b <? o + length bs then mm_resize m (o + length bs) false else (m, false)) = (m1, false) /\ mused m1 = o + length bs /\ mprot m1 = WRITE /\
       msize m1 = length (mfile m1) /\ maddr m1 = negb (msize m1 =? 0) /\ mfile m1 = b ++ repeat 0%N (o + length bs + k - length b)).
    { destruct (Nat.ltb_spec (length b) (o + length bs)).
      - destruct (mm_resize_grow m b (o + length bs) R) as (m1 & Q1 & Q2 & Q3 & Q4 & Q5 & k & Q6); [lia|]. exists m1, k. do 5 (split; auto).
      - exists m, k0. split; auto. split; [lia|]. do 3 (split; auto). rewrite R5. f_equal. f_equal. lia. }
    destruct Q as (m1 & k & -> & Q2 & Q3 & Q4 & Q5 & Q6). rewrite Q2. destruct (Nat.eqb_spec (o + length bs) 0) as [N|N].
    { exfalso. assert (Hb : length bs = 0) by lia. rewrite Hb in C. assert (Hl : length b = 0) by lia. rewrite Hl in C. cbn in C. rewrite Bool.andb_false_r in C. discriminate. }
    assert (Ls : o + length bs <= msize m1) by (rewrite Q4, Q6, app_length, repeat_length; lia).
    rewrite mm_write_ok; auto; try congruence; [|lia]. cbn [bind]. eexists. split; [reflexivity|]. rewrite Q6, Z. unfold set_file. cbn [fst snd].
    split; cbn [mprot mfile mhist msize mused maddr]; auto; try congruence.
    + rewrite app_length, repeat_length, LA, Q4, Q6, app_length, repeat_length. lia.
    + exists k. auto.
  - apply guard_some in E as (C & E). injection E as <- <-. unfold mbuf_patch. rewrite R2. apply andb_prop in C as (C & Cn). rewrite C. apply Nat.leb_le in C.
    destruct (Nat.eqb_spec (length b) 0); [discriminate|]. assert (Z0 : msize m <> 0) by (rewrite R3, R5, app_length; lia).
    { rewrite mm_write_ok; auto; try congruence; [|rewrite R3, R5, app_length; lia]. cbn [bind]. eexists. split; [reflexivity|]. unfold set_file.
      split; cbn [mprot mfile mhist msize mused maddr]; auto.
      * rewrite over_len by auto. auto.
      * rewrite over_len; auto. rewrite R5, app_length. lia.
      * exists k0. rewrite R5, over_app by auto. auto. }
  - apply guard_some in E as (C & E). injection E as <- <-. unfold mbuf_checksum. rewrite R2, C. apply Nat.ltb_lt in C. unfold mm_read. rewrite R4.
    assert (Lm : length (mfile m) = length b + k0) by (rewrite R5, app_length, repeat_length; auto).
    destruct (Nat.eqb_spec (msize m) 0); [lia|]. cbn [negb andb]. destruct (Nat.leb_spec (start + (length b - start)) (msize m)); [|lia].
    unfold rd. destruct (Nat.leb_spec (start + (length b - start)) (length (mfile m))); [|lia]. cbn [bind]. exists m. split; auto. do 3 f_equal.
    rewrite R5, skipn_app, firstn_app, skipn_length. replace (length b - start - (length b - start)) with 0 by lia. cbn [firstn]. rewrite app_nil_r. f_equal. apply firstn_all2. rewrite skipn_length. lia.
Qed.
Lemma close_tr m b : TRm m b -> mfile (mm_close m) = b.
Proof.
  intros [R1 R2 R3 R4 (k & R5)]. unfold mm_close. rewrite R4. destruct (Nat.eqb_spec (msize m) 0) as [Z|Z]; cbn [negb].
  - rewrite R3 in Z. rewrite R5, app_length, repeat_length in Z. destruct b; [|cbn in Z; lia]. destruct k; [|cbn in Z; lia]. auto.
  - unfold mm_sync. rewrite R1, R4. destruct (Nat.eqb_spec (msize m) 0); [lia|]. cbn [negb mfile mhist mprot msize mused maddr].
    destruct (Nat.eqb_spec (mused m) (length (mfile m))) as [E|E].
    + cbn [mfile]. rewrite R2, R5, app_length, repeat_length in E. assert (k = 0) as -> by lia. rewrite R5. cbn. apply app_nil_r.
    + unfold resize_file. cbn [mprot fst]. cbn [set_file mfile msize]. unfold ftruncate. rewrite R2, R5, app_length, repeat_length. replace (length b - (length b + k)) with 0 by lia.
      rewrite firstn_app, Nat.sub_diag, firstn_all. cbn. rewrite !app_nil_r. auto.
Qed.
Lemma aligned_cons o ops : aligned (o :: ops) -> aligned [o] /\ aligned ops.
Proof. intros H. split; intros bs a base I L; apply (H bs a base); auto; [destruct I as [<-|[]]; left; auto|right; auto]. Qed.
Lemma targets cs ops b xs f0 : 0 < cs -> aligned ops -> sruns _ _ _ target_spec [] ops = Some (b, xs) ->
  runs _ _ _ buf_step [] ops = Ok (b, xs) /\
  (exists f, runs _ _ _ (file_step cs) (F [] 0) ops = Ok (f, xs) /\ fbytes f = b) /\
  (exists m, runs _ _ _ mbuf_step (mm_open f0 WRITE) ops = Ok (m, xs) /\ mfile (mm_close m) = b).
Proof.
  intros C A E.
  assert (G1 : forall ops b0 b xs, aligned ops -> sruns _ _ _ target_spec b0 ops = Some (b, xs) -> runs _ _ _ buf_step b0 ops = Ok (b, xs)).
  { clear. induction ops as [|o ops IH]; intros b0 b xs A E; cbn [sruns runs] in *; [congruence|]. destruct (aligned_cons _ _ A) as (A1 & A2).
    destruct (target_spec b0 o) as [(b1, x)|] eqn:E1; [|discriminate]. destruct (sruns _ _ _ target_spec b1 ops) as [(b2, ys)|] eqn:E2; [|discriminate]. injection E as <- <-.
    rewrite (buf_step_ok _ _ _ _ A1 E1). cbn [bind]. rewrite (IH _ _ _ A2 E2). auto. }
  assert (G2 : forall ops b0 b xs m, aligned ops -> TRm m b0 -> sruns _ _ _ target_spec b0 ops = Some (b, xs) -> exists m', runs _ _ _ mbuf_step m ops = Ok (m', xs) /\ TRm m' b).
  { clear. induction ops as [|o ops IH]; intros b0 b xs m A R E; cbn [sruns runs] in *; [injection E as <- <-; eauto|]. destruct (aligned_cons _ _ A) as (A1 & A2).
    destruct (target_spec b0 o) as [(b1, x)|] eqn:E1; [|discriminate]. destruct (sruns _ _ _ target_spec b1 ops) as [(b2, ys)|] eqn:E2; [|discriminate]. injection E as <- <-.
    destruct (mbuf_step_ok _ _ _ _ _ A1 R E1) as (m1 & -> & R1). cbn [bind]. destruct (IH _ _ _ _ A2 R1 E2) as (m2 & -> & R2). cbn [bind]. eauto. }
  split; [auto|]. split.
  - destruct (runs_ok _ _ _ _ _ _ FR (fun w t o t' r R Q => file_step_ok cs w t o t' r C R Q) ops (F [] 0) [] _ _ (conj eq_refl eq_refl) E) as (f & -> & (R & _)). eauto.
  - destruct (G2 ops [] b xs (mm_open f0 WRITE) A) as (m & -> & R); auto. { split; auto. exists 0. auto. } exists m. split; auto. apply close_tr. auto.
Qed.

(* ---------------- memory mapped files ---------------- *)
Record MI (m : mm) (t : mstate) : Prop := {
  mi_prot : mprot m = sprot t;
  mi_used : mused m = length (svals t);
  mi_size : msize m = length (mfile m);
  mi_addr : maddr m = negb (msize m =? 0);
  mi_ag : agrees (svals t) (mfile m);
  mi_lo : length (svals t) <= high t;
  mi_hi : high t <= length (mfile m);
  mi_zero : forall i, high t <= i < length (mfile m) -> nth_error (mfile m) i = Some 0%N;
  mi_hd : exists l, mhist m = mfile m :: l;
  mi_ro : sprot t = READ -> length (svals t) = length (mfile m)
}.
Lemma mi_open f p : MI (mm_open f p) (sopen f p).
Proof.
  unfold mm_open, sopen. set (g := match p with WRITE => [] | _ => f end). split; cbn [mprot mused msize maddr mfile mhist sprot svals high]; auto.
  - rewrite map_length. auto.
  - intros i b H. rewrite nth_error_map in H. destruct (nth_error g i); [|discriminate]. cbn in H. congruence.
  - rewrite map_length. auto.
  - intros i H. lia.
  - eauto.
  - intros _. apply map_length.
Qed.
Lemma grow_nth n h s i : length s <= h -> nth_error (grow n h s) i =
  if i <? length s then nth_error s i else if i <? Nat.min n h then Some None else if (h <=? i) && (i <? n) then Some (Some 0%N) else nth_error (grow n h s) i.
Proof.
  intros L. unfold grow. destruct (Nat.ltb_spec i (length s)). { apply nth_error_app1; auto. }
  destruct (Nat.ltb_spec i (Nat.min n h)). { rewrite nth_error_app2, nth_error_app1 by (rewrite ?repeat_length; lia). rewrite nth_error_repeat by lia. auto. }
  destruct (Nat.leb_spec h i); cbn [andb]; auto. destruct (Nat.ltb_spec i n); auto. rewrite !nth_error_app2 by (rewrite ?repeat_length; lia). rewrite repeat_length. apply nth_error_repeat. lia.
Qed.
Lemma grow_len n h s : length s <= h -> length (grow n h s) = Nat.max n (length s).
Proof. intros L. unfold grow. rewrite !app_length, !repeat_length. lia. Qed.
Lemma trunc_len f n : length (ftruncate f n) = n.
Proof. unfold ftruncate. rewrite app_length, firstn_length, repeat_length. lia. Qed.
Lemma trunc_nth f n i : i < n -> nth_error (ftruncate f n) i = if i <? length f then nth_error f i else Some 0%N.
Proof.
  intros H. unfold ftruncate. destruct (Nat.ltb_spec i (length f)).
  - rewrite nth_error_app1 by (rewrite firstn_length; lia). rewrite nth_first. destruct (Nat.ltb_spec i n); [auto|lia].
  - rewrite nth_error_app2 by (rewrite firstn_length; lia). apply nth_error_repeat. rewrite firstn_length. lia.
Qed.
(* the resizing of the file alone *)
Lemma reserve_ok m t n : MI m t -> mprot m <> READ -> exists m', mm_reserve m n false = (m', false) /\ MI m' t /\ n <= msize m' /\ msize m <= msize m' /\
  (mhist m' = mhist m /\ mfile m' = mfile m \/ exists q, msize m < q /\ mfile m' = ftruncate (mfile m) q /\ mhist m' = ftruncate (mfile m) q :: mhist m).
Proof.
  intros R P. pose proof R as [R1 R2 R3 R4 R5 R6 R7 R8 R9 R10]. unfold mm_reserve. destruct (mprot m) eqn:Ep; [congruence| |].
  all: destruct (Nat.ltb_spec (msize m) n) as [H|H]; [|exists m; split; auto; split; auto].
  all: unfold resize_map; rewrite Ep; unfold resize_file; cbn [mprot mfile mhist msize mused maddr].
  all: eexists; split; [reflexivity|]; pose proof (npo2_ge n) as G; set (q := FileModel.next_power_of_two n) in *.
  all: cbn [set_file mprot mfile mhist msize mused maddr]; assert (Lq : length (mfile m) <= q) by lia.
  all: split; [|split; [auto|split; [lia|right; exists q; split; [lia|split; auto]]]].
  all: split; cbn [mprot mfile mhist msize mused maddr]; auto.
  all: try (rewrite trunc_len; lia).
  all: try (destruct (Nat.eqb_spec q 0); [lia|auto]).
  all: try (intros i b Hb; pose proof (R5 i b Hb) as Q; assert (i < length (mfile m)) by (apply nth_error_Some; congruence); rewrite trunc_nth by lia; destruct (Nat.ltb_spec i (length (mfile m))); [auto|lia]).
  all: try (rewrite trunc_len; intros i Hi; rewrite trunc_nth by lia; destruct (Nat.ltb_spec i (length (mfile m))); [apply R8; lia|auto]).
  all: try (intros; congruence).
  all: eauto.
Qed.
Lemma agrees_app_nth s f n h : agrees s f -> length s <= h -> (forall i, h <= i < length f -> nth_error f i = Some 0%N) -> n <= length f -> h <= length f -> agrees (firstn n (grow n h s)) f.
Proof.
  intros A L Z Ln Lh i b H. rewrite nth_first in H. destruct (Nat.ltb_spec i n); [|discriminate]. rewrite grow_nth in H by auto.
  destruct (Nat.ltb_spec i (length s)). { apply A; auto. } destruct (Nat.ltb_spec i (Nat.min n h)); [discriminate|].
  destruct (Nat.leb_spec h i); cbn [andb] in H; [|lia]. destruct (Nat.ltb_spec i n); [|lia]. injection H as <-. apply Z. lia.
Qed.
Lemma known_spec l : forall bs, known l = Some bs -> l = map Some bs.
Proof. induction l as [|[x|] l IH]; intros bs H; cbn in H; try discriminate; [injection H as <-; auto|]. destruct (known l); [|discriminate]. injection H as <-. cbn. f_equal. auto. Qed.
Lemma mm_step_ok m t o t' r : MI m t -> mm_spec t o = Some (t', r) -> exists m', mm_step m o = Ok (m', r) /\ MI m' t'.
Proof.
  intros R E. pose proof R as [R1 R2 R3 R4 R5 R6 R7 R8 R9 R10]. destruct o; cbn [mm_spec mm_step] in *.
  - destruct fails; [discriminate|]. destruct (sprot t) eqn:Es.
    + injection E as <- <-. unfold mm_resize, mm_reserve. rewrite R1. exists m. auto.
    + injection E as <- <-. destruct (reserve_ok m t n R) as (m1 & E1 & S1 & Ln & _ & _); [rewrite R1; discriminate|]. unfold mm_resize. rewrite E1. cbn [mflag]. eexists. split; [reflexivity|].
      destruct S1 as [S1 S2 S3 S4 S5 S6 S7 S8 S9 S10]. split; cbn [mprot mfile mhist msize mused maddr sprot high svals]; auto; try congruence.
      * rewrite firstn_length, grow_len by auto. lia.
      * apply agrees_app_nth; auto. lia.
      * rewrite firstn_length. lia.
      * lia.
      * intros i Hi. apply S8. lia.
    + injection E as <- <-. destruct (reserve_ok m t n R) as (m1 & E1 & S1 & Ln & _ & _); [rewrite R1; discriminate|]. unfold mm_resize. rewrite E1. cbn [mflag]. eexists. split; [reflexivity|].
      destruct S1 as [S1 S2 S3 S4 S5 S6 S7 S8 S9 S10]. split; cbn [mprot mfile mhist msize mused maddr sprot high svals]; auto; try congruence.
      * rewrite firstn_length, grow_len by auto. lia.
      * apply agrees_app_nth; auto. lia.
      * rewrite firstn_length. lia.
      * lia.
      * intros i Hi. apply S8. lia.
  - destruct fails; [discriminate|]. injection E as <- <-. destruct (sprot t) eqn:Es.
    + unfold mm_reserve. rewrite R1. exists m. auto.
    + destruct (reserve_ok m t n R) as (m1 & -> & S1 & _); [rewrite R1; discriminate|]. exists m1. auto.
    + destruct (reserve_ok m t n R) as (m1 & -> & S1 & _); [rewrite R1; discriminate|]. exists m1. auto.
  - assert (G : sprot t <> READ /\ guard ((off + length bs <=? length (svals t)) && negb (length (svals t) =? 0))
                              (MS (sprot t) (high t) (firstn off (svals t) ++ map Some bs ++ skipn (off + length bs) (svals t)), MNone) = Some (t', r)).
    { destruct (sprot t); [discriminate|split; [discriminate|auto]|split; [discriminate|auto]]. }
    clear E. destruct G as (P & E). apply guard_some in E as (C & E). injection E as <- <-. apply andb_prop in C as (C & Cn). apply Nat.leb_le in C. destruct (Nat.eqb_spec (length (svals t)) 0); [discriminate|].
    rewrite mm_write_ok; auto; try congruence; try lia. cbn [bind]. eexists. split; [reflexivity|]. unfold set_file.
    assert (Lb : off + length bs <= length (mfile m)) by lia.
    split; cbn [mprot mfile mhist msize mused maddr sprot high svals]; auto; rewrite ?over_len by auto; auto.
    + rewrite R2, !app_length, firstn_length, skipn_length, map_length. lia.
    + change (firstn off (svals t) ++ map Some bs ++ skipn (off + length bs) (svals t)) with (firstn off (svals t) ++ map Some bs ++ skipn (off + length bs) (svals t)).
      intros i b H. rewrite over_nth by auto. destruct (Nat.leb_spec off i); cbn [andb].
      * rewrite nth_error_app2 in H by (rewrite firstn_length; lia). rewrite firstn_length in H. replace (Nat.min off (length (svals t))) with off in H by lia.
        destruct (Nat.ltb_spec i (off + length bs)).
        -- rewrite nth_error_app1 in H by (rewrite map_length; lia). rewrite nth_error_map in H. destruct (nth_error bs (i - off)); cbn in H; congruence.
        -- rewrite nth_error_app2 in H by (rewrite map_length; lia). rewrite map_length, nth_skip in H. apply R5. rewrite <- H. f_equal. lia.
      * rewrite nth_error_app1 in H by (rewrite firstn_length; lia). rewrite nth_first in H. destruct (Nat.ltb_spec i off); [|lia]. apply R5. auto.
    + rewrite !app_length, firstn_length, skipn_length, map_length. lia.
    + intros i Hi. rewrite over_nth by auto. destruct (Nat.ltb_spec i (off + length bs)); [lia|]. rewrite Bool.andb_false_r. apply R8. auto.
    + eauto.
    + intros; congruence.
  - destruct ((off + n <=? length (svals t)) && negb (length (svals t) =? 0)) eqn:C; [|discriminate]. apply andb_prop in C as (C & Cn). apply Nat.leb_le in C. destruct (Nat.eqb_spec (length (svals t)) 0); [discriminate|].
    destruct (known (firstn n (skipn off (svals t)))) as [bs|] eqn:K; [|discriminate]. injection E as <- <-. unfold mm_read. rewrite R4. destruct (Nat.eqb_spec (msize m) 0); [lia|]. cbn [negb andb].
    destruct (Nat.leb_spec (off + n) (msize m)); [|lia]. unfold rd. destruct (Nat.leb_spec (off + n) (length (mfile m))); [|lia]. cbn [bind]. exists m. split; auto. do 3 f_equal.
    apply known_spec in K. apply ext. intros i. rewrite nth_first, nth_skip. assert (Lb : length bs = n). { apply (f_equal (@length _)) in K. rewrite map_length, firstn_length, skipn_length in K. lia. }
    destruct (Nat.ltb_spec i n).
    + destruct (nth_error bs i) as [b|] eqn:Eb; [|apply nth_error_None in Eb; lia]. apply R5. apply (f_equal (fun l => nth_error l i)) in K.
      rewrite nth_first, nth_skip, nth_error_map, Eb in K. destruct (Nat.ltb_spec i n); [|lia]. exact K.
    + symmetry. apply nth_error_None. lia.
  - injection E as <- <-. exists (mm_sync m). split; auto. unfold mm_sync. destruct (mprot m) eqn:Ep; auto; destruct (maddr m) eqn:Ea; auto; split; cbn [mprot mfile mhist msize mused maddr]; auto; try congruence; eauto.
  - injection E as <- <-. exists m. rewrite R2. auto.
Qed.

Lemma close_ok m t : MI m t ->
  length (mfile (mm_close m)) = length (svals t) /\ agrees (svals t) (mfile (mm_close m)) /\ (sprot t <> READ -> forall f, In f (mhist (mm_close m)) -> agrees (svals t) f).
Proof.
  intros R. pose proof R as [R1 R2 R3 R4 R5 R6 R7 R8 R9 R10]. unfold mm_close. rewrite R4. destruct (Nat.eqb_spec (msize m) 0) as [Z|Z]; cbn [negb].
  - assert (svals t = []) as Q by (apply length_zero_iff_nil; lia). rewrite Q. split; [cbn; lia|]. split; [intros [|i] b H; discriminate|]. intros _ f _ [|i] b H; discriminate.
  - assert (Hs : mfile (mm_sync m) = mfile m /\ mprot (mm_sync m) = mprot m /\ mused (mm_sync m) = mused m /\ (sprot t <> READ -> mhist (mm_sync m) = [mfile m])).
    { unfold mm_sync. rewrite R4. destruct (Nat.eqb_spec (msize m) 0); [lia|]. cbn [negb]. rewrite <- R1. destruct (mprot m) eqn:Ep; cbn; auto; repeat split; auto. congruence. }
    destruct Hs as (H1 & H2 & H3 & H4). rewrite H1, H2, H3. cbn [msize mfile].
    assert (A : forall f, In f [mfile m] -> agrees (svals t) f) by (intros f [<-|[]]; auto).
    destruct (Nat.eqb_spec (mused m) (length (mfile m))) as [E|E].
    + cbn [mfile mhist]. split; [lia|]. split; auto. intros P. rewrite (H4 P). auto.
    + unfold resize_file. cbn [mprot]. destruct (mprot m) eqn:Ep.
      * exfalso. apply E. rewrite R2. apply R10. congruence.
      * cbn [fst set_file mfile mhist msize]. rewrite trunc_len. split; auto. rewrite R2. assert (B : agrees (svals t) (ftruncate (mfile m) (length (svals t)))).
        { intros i b H. pose proof (R5 i b H) as Q. assert (i < length (svals t)) by (apply nth_error_Some; congruence). rewrite trunc_nth by auto. destruct (Nat.ltb_spec i (length (mfile m))); [auto|lia]. }
        split; auto. intros P f. rewrite (H4 P). intros [<-|I]; auto.
      * cbn [fst set_file mfile mhist msize]. rewrite trunc_len. split; auto. rewrite R2. assert (B : agrees (svals t) (ftruncate (mfile m) (length (svals t)))).
        { intros i b H. pose proof (R5 i b H) as Q. assert (i < length (svals t)) by (apply nth_error_Some; congruence). rewrite trunc_nth by auto. destruct (Nat.ltb_spec i (length (mfile m))); [auto|lia]. }
        split; auto. intros P f. rewrite (H4 P). intros [<-|I]; auto.
Qed.
Lemma loss_agrees hist d s : (forall f, In f hist -> agrees s f) -> power_loss hist d -> agrees s d.
Proof.
  intros A ((f & I & L) & B) i b H. assert (Hi : i < length d). { rewrite L. apply nth_error_Some. rewrite (A f I i b H). discriminate. }
  destruct (nth_error d i) as [c|] eqn:Ec; [|apply nth_error_None in Ec; lia]. destruct (B i c Ec) as (g & Ig & Hg). pose proof (A g Ig i b H) as Q.
  destruct Hg as [Hg|(Hg & _)]; [congruence|]. assert (i < length g) by (apply nth_error_Some; congruence). lia.
Qed.
Lemma mmap_history f p ops t xs : sruns _ _ _ mm_spec (sopen f p) ops = Some (t, xs) ->
  exists m, runs _ _ _ mm_step (mm_open f p) ops = Ok (m, xs) /\
    (mused m = length (svals t) /\ length (svals t) <= length (mfile m) /\ agrees (svals t) (mfile m)) /\
    (length (mfile (mm_close m)) = length (svals t) /\ agrees (svals t) (mfile (mm_close m))) /\
    (p <> READ -> forall d, power_loss (mhist (mm_close m)) d -> agrees (svals t) d).
Proof.
  intros E. destruct (runs_ok _ _ _ _ _ _ MI mm_step_ok ops _ _ _ _ (mi_open f p) E) as (m & Em & R). exists m. split; auto.
  destruct (close_ok m t R) as (C1 & C2 & C3). split; [destruct R; split; auto; split; auto; lia|]. split; auto.
  assert (P : sprot t = p). { clear -E. assert (G : forall ops t t' xs, sruns _ _ _ mm_spec t ops = Some (t', xs) -> sprot t' = sprot t).
    { clear. induction ops as [|o ops IH]; intros t t' xs E; cbn [sruns] in E; [congruence|]. destruct (mm_spec t o) as [(t1, x)|] eqn:E1; [|discriminate].
      destruct (sruns _ _ _ mm_spec t1 ops) as [(t2, ys)|] eqn:E2; [|discriminate]. injection E as <- <-. rewrite (IH _ _ _ E2). clear -E1.
      destruct o; cbn [mm_spec] in E1; try destruct fails; try discriminate; try (injection E1 as <- <-; auto; fail).
      - destruct (sprot t) eqn:P; injection E1 as <- <-; auto.
      - destruct (sprot t) eqn:P; try discriminate; apply guard_some in E1 as (_ & E1); injection E1 as <- <-; auto.
      - destruct (_ && _); [|discriminate]. destruct (known _); [|discriminate]. injection E1 as <- <-. auto. }
    rewrite (G _ _ _ _ E). auto. }
  intros Hp d. apply loss_agrees. apply C3. congruence.
Qed.
(* a byte that is on the disk stays there until it is written again *)
Lemma step_keeps m t o m' r i b : MI m t -> mm_step m o = Ok (m', r) -> (exists t' r', mm_spec t o = Some (t', r')) -> touches i o = false ->
  (forall f, In f (mhist m) -> nth_error f i = Some b) -> forall f, In f (mhist m') -> nth_error f i = Some b.
Proof.
  intros R E (t' & r' & S) T H. pose proof (mi_hd _ _ R) as (l & Hl). assert (Hm : nth_error (mfile m) i = Some b) by (apply H; rewrite Hl; left; auto).
  assert (Li : i < length (mfile m)) by (apply nth_error_Some; congruence).
  assert (K : forall n m1 t1, mm_reserve m n false = (m1, t1) -> forall f, In f (mhist m1) -> nth_error f i = Some b).
  { intros n m1 t1 Er. destruct (mprot m) eqn:Ep. { unfold mm_reserve in Er. rewrite Ep in Er. injection Er as <- <-. auto. }
    all: destruct (reserve_ok m t n R) as (m2 & E2 & _ & _ & _ & C); [congruence|]; rewrite E2 in Er; injection Er as <- <-; destruct C as [(-> & _)|(q & Lq & _ & ->)]; auto;
      intros f [<-|I]; auto; rewrite (mi_size _ _ R) in Lq; rewrite trunc_nth by lia; destruct (Nat.ltb_spec i (length (mfile m))); [auto|lia]. }
  destruct o; cbn [mm_step mm_spec touches] in *.
  - destruct fails; [discriminate|]. unfold mm_resize in E. destruct (mm_reserve m n false) as (m1, t1) eqn:E1. specialize (K n m1 t1 E1). destruct t1; cbn [mflag] in E; injection E as <- <-; auto.
  - destruct fails; [discriminate|]. destruct (mm_reserve m n false) as (m1, t1) eqn:E1. specialize (K n m1 t1 E1). cbn [mflag] in E. injection E as <- <-; auto.
  - unfold mm_write in E. destruct (mprot m); try discriminate.
    all: destruct (maddr m && (off + length bs <=? msize m)); try discriminate; destruct (wr (mfile m) off bs) as [g| | |] eqn:W; try discriminate; cbn [bind] in E; injection E as <- <-.
    all: cbn [set_file mhist]; intros f [<-|I]; auto; rewrite (wr_nth _ _ _ _ _ W); auto.
    all: destruct (Nat.leb_spec off i); [|auto]; destruct (Nat.ltb_spec i (off + length bs)); [discriminate|auto].
  - destruct (mm_read m off n); try discriminate. cbn [bind] in E. injection E as <- <-. auto.
  - injection E as <- <-. unfold mm_sync. destruct (mprot m); auto; destruct (maddr m); auto; cbn [mhist]; intros f [<-|[]]; auto.
  - injection E as <- <-. auto.
Qed.
Lemma mmap_power f p ops1 ops2 t1 xs1 t xs : sruns _ _ _ mm_spec (sopen f p) ops1 = Some (t1, xs1) -> sruns _ _ _ mm_spec t1 (MSync :: ops2) = Some (t, xs) ->
  exists m ys, runs _ _ _ mm_step (mm_open f p) (ops1 ++ MSync :: ops2) = Ok (m, ys) /\
    forall d, power_loss (mhist m) d -> forall i b, nth_error (svals t1) i = Some (Some b) -> forallb (fun o => negb (touches i o)) ops2 = true -> nth_error d i = Some b.
Proof.
  intros E1 E2. destruct (runs_ok _ _ _ _ _ _ MI mm_step_ok ops1 _ _ _ _ (mi_open f p) E1) as (m1 & Em1 & R1).
  destruct (runs_ok _ _ _ _ _ _ MI mm_step_ok (MSync :: ops2) _ _ _ _ R1 E2) as (m2 & Em2 & R2).
  exists m2, (xs1 ++ xs). split.
  { pose proof (sruns_app _ _ _ _ _ _ _ _ _ _ _ E1 E2) as E3. destruct (runs_ok _ _ _ _ _ _ MI mm_step_ok _ _ _ _ _ (mi_open f p) E3) as (m3 & Em3 & _).
    assert (G : forall a m w x m' y, runs _ _ _ mm_step m a = Ok (w, x) -> runs _ _ _ mm_step w (MSync :: ops2) = Ok (m', y) -> runs _ _ _ mm_step m (a ++ MSync :: ops2) = Ok (m', x ++ y)).
    { clear. induction a as [|o a IH]; intros m w x m' y H1 H2; cbn [runs app] in *. { injection H1 as <- <-. auto. }
      destruct (mm_step m o) as [(w1, z)| | |]; try discriminate. cbn [bind] in *. destruct (runs _ _ _ mm_step w1 a) as [(w2, zs)| | |] eqn:Q; try discriminate. cbn [bind] in H1. injection H1 as <- <-.
      rewrite (IH _ _ _ _ _ Q H2). auto. }
    eapply G; eauto. }
  intros d P i b Hb N.
  cbn [runs sruns mm_step mm_spec bind] in Em2, E2. destruct (sruns _ _ _ mm_spec t1 ops2) as [(t2, ys)|] eqn:E3; [|discriminate]. injection E2 as -> <-.
  destruct (runs _ _ _ mm_step (mm_sync m1) ops2) as [(m3, zs)| | |] eqn:E4; try discriminate. cbn [bind] in Em2. injection Em2 as -> _.
  destruct (mm_step_ok m1 t1 MSync t1 MNone R1 eq_refl) as (m1' & Q & Rs). cbn [mm_step] in Q. injection Q as <-.
  assert (H0 : forall f, In f (mhist (mm_sync m1)) -> nth_error f i = Some b).
  { pose proof (mi_ag _ _ R1 i b Hb) as Q. assert (i < length (mfile m1)) by (apply nth_error_Some; congruence).
    unfold mm_sync. rewrite (mi_addr _ _ R1). destruct (Nat.eqb_spec (msize m1) 0). { rewrite (mi_size _ _ R1) in e. lia. } cbn [negb].
    destruct (mprot m1) eqn:Ep; cbn [mhist]; try (intros g [<-|[]]; auto; fail).
    (* read only: the file never changed *)
    assert (G : forall ops m m' xs, mprot m = READ -> runs _ _ _ mm_step m ops = Ok (m', xs) -> mhist m' = mhist m /\ mfile m' = mfile m /\ mprot m' = READ).
    { clear. induction ops as [|o ops IH]; intros m m' xs P E; cbn [runs] in E. { injection E as <- <-. auto. }
      destruct (mm_step m o) as [(m1, x)| | |] eqn:E1; try discriminate. cbn [bind] in E. destruct (runs _ _ _ mm_step m1 ops) as [(m2, ys)| | |] eqn:E2; try discriminate. cbn [bind] in E. injection E as <- <-.
      assert (H : m1 = m). { clear -P E1. destruct o; cbn [mm_step] in E1; unfold mm_resize, mm_reserve, mm_write, mm_sync in E1; rewrite ?P in E1; try discriminate; cbn [mflag] in E1; try congruence.
        destruct (mm_read m off n); try discriminate. cbn [bind] in E1. congruence. }
      subst m1. eapply IH; eauto. }
    assert (Pp : p = READ). { destruct p; auto; exfalso.
      - assert (W : forall ops t t' xs, sruns _ _ _ mm_spec t ops = Some (t', xs) -> sprot t = WRITE -> sprot t' = WRITE).
        { clear. induction ops as [|o ops IH]; intros t t' xs E P; cbn [sruns] in E; [congruence|]. destruct (mm_spec t o) as [(t1, x)|] eqn:E1; [|discriminate].
          destruct (sruns _ _ _ mm_spec t1 ops) as [(t2, ys)|] eqn:E2; [|discriminate]. injection E as <- <-. apply (IH _ _ _ E2). clear -E1 P.
          destruct o; cbn [mm_spec] in E1; rewrite ?P in E1; try destruct fails; try discriminate; try (injection E1 as <- <-; auto; fail).
          - apply guard_some in E1 as (_ & E1); injection E1 as <- <-; auto.
          - destruct (_ && _); [|discriminate]. destruct (known _); [|discriminate]. injection E1 as <- <-. auto. }
        pose proof (W _ _ _ _ E1 eq_refl). rewrite (mi_prot _ _ R1) in Ep. congruence.
      - assert (W : forall ops t t' xs, sruns _ _ _ mm_spec t ops = Some (t', xs) -> sprot t = MODIFY -> sprot t' = MODIFY).
        { clear. induction ops as [|o ops IH]; intros t t' xs E P; cbn [sruns] in E; [congruence|]. destruct (mm_spec t o) as [(t1, x)|] eqn:E1; [|discriminate].
          destruct (sruns _ _ _ mm_spec t1 ops) as [(t2, ys)|] eqn:E2; [|discriminate]. injection E as <- <-. apply (IH _ _ _ E2). clear -E1 P.
          destruct o; cbn [mm_spec] in E1; rewrite ?P in E1; try destruct fails; try discriminate; try (injection E1 as <- <-; auto; fail).
          - apply guard_some in E1 as (_ & E1); injection E1 as <- <-; auto.
          - destruct (_ && _); [|discriminate]. destruct (known _); [|discriminate]. injection E1 as <- <-. auto. }
        pose proof (W _ _ _ _ E1 eq_refl). rewrite (mi_prot _ _ R1) in Ep. congruence. }
    subst p. destruct (G _ (mm_open f READ) _ _ eq_refl Em1) as (Gh & Gf & _). rewrite Gh. intros g [<-|[]]. cbn [mm_open mfile] in Gf. rewrite <- Gf. auto. }
  assert (K : forall ops m t m' xs t' ys, MI m t -> runs _ _ _ mm_step m ops = Ok (m', xs) -> sruns _ _ _ mm_spec t ops = Some (t', ys) -> forallb (fun o => negb (touches i o)) ops = true ->
     (forall f, In f (mhist m) -> nth_error f i = Some b) -> forall f, In f (mhist m') -> nth_error f i = Some b).
  { clear. induction ops as [|o ops IH]; intros m t m' xs t' ys R E S T H; cbn [runs sruns forallb] in *. { injection E as <- <-. auto. }
    destruct (mm_spec t o) as [(t1, x)|] eqn:E1; [|discriminate]. destruct (sruns _ _ _ mm_spec t1 ops) as [(t2, zs)|] eqn:E2; [|discriminate].
    destruct (mm_step_ok m t o t1 x R E1) as (m1 & Em & R1). rewrite Em in E. cbn [bind] in E. destruct (runs _ _ _ mm_step m1 ops) as [(m2, us)| | |] eqn:E4; try discriminate. cbn [bind] in E. injection E as <- <-.
    apply andb_prop in T as (T1 & T2). apply (IH _ _ _ _ _ _ R1 E4 E2 T2). apply (step_keeps m t o m1 x i b); eauto. destruct (touches i o); [discriminate|auto]. }
  pose proof (K _ _ _ _ _ _ _ Rs E4 E3 N H0) as K'.
  destruct P as ((g & Ig & Lg) & B). assert (i < length d). { rewrite Lg. apply nth_error_Some. rewrite (K' g Ig). discriminate. }
  destruct (nth_error d i) as [c|] eqn:Ec; [|apply nth_error_None in Ec; lia]. destruct (B i c Ec) as (h & Ih & Hh). pose proof (K' h Ih) as Q.
  destruct Hh as [Hh|(Hh & _)]; [congruence|]. assert (i < length h) by (apply nth_error_Some; congruence). lia.
Qed.
