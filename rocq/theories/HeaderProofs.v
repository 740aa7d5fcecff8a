From Verif Require Import Base Bytes FnvModel FnvProofs HeaderModel HeaderSpec.

Lemma skipn_nth {A} n (l : list A) k : nth_error (skipn n l) k = nth_error l (n + k).
Proof.
  revert l; induction n; intros l; cbn [skipn]; auto.
  destruct l; cbn [Nat.add nth_error]; auto. destruct k; auto.
Qed.

Lemma differ_split i b b' : differ_at i b b' ->
  exists pre post x x', b = pre ++ x :: post /\ b' = pre ++ x' :: post /\ x <> x' /\ length pre = i.
Proof.
  intros (HL & Hd & Hs).
  assert (Hi : i < length b).
  { destruct (Nat.lt_ge_cases i (length b)); auto. exfalso. apply Hd.
    rewrite (proj2 (nth_error_None b i)), (proj2 (nth_error_None b' i)) by lia. reflexivity. }
  destruct (nth_error b i) as [x|] eqn:Ex; [|apply nth_error_None in Ex; lia].
  destruct (nth_error b' i) as [x'|] eqn:Ex'; [|apply nth_error_None in Ex'; lia].
  exists (firstn i b), (skipn (S i) b), x, x'. repeat split.
  - apply nth_error_split in Ex as (l1 & l2 & -> & HH). subst i.
    rewrite firstn_app, Nat.sub_diag, firstn_all. cbn [firstn]. rewrite app_nil_r. f_equal. f_equal.
    rewrite skipn_app, skipn_all2 by lia. replace (S (length l1) - length l1) with 1 by lia. reflexivity.
  - apply list_ext. intros k.
    assert (F : length (firstn i b) = i) by (rewrite firstn_length; lia).
    destruct (Nat.eq_dec k i) as [->|Hk].
    + rewrite nth_error_app2 by lia. rewrite F, Nat.sub_diag. exact Ex'.
    + rewrite <- Hs by assumption. destruct (Nat.lt_ge_cases k i).
      * rewrite nth_error_app1 by lia. rewrite <- (firstn_skipn i b) at 1.
        rewrite nth_error_app1 by lia. reflexivity.
      * rewrite nth_error_app2 by lia. rewrite F.
        replace (k - i) with (S (k - S i)) by lia. cbn [nth_error].
        rewrite skipn_nth. f_equal. lia.
  - intros ->. apply Hd. reflexivity.
  - rewrite firstn_length; lia.
Qed.

Lemma differ_skipn i n b b' : differ_at i b b' -> n <= i -> differ_at (i - n) (skipn n b) (skipn n b').
Proof.
  intros (HL & Hd & Hs) Hn. repeat split.
  - rewrite !skipn_length. lia.
  - rewrite !skipn_nth. now replace (n + (i - n)) with i by lia.
  - intros k Hk. rewrite !skipn_nth. apply Hs. lia.
Qed.

Lemma hash_differ i b b' h : (h < W64)%N -> bytes_ok b -> bytes_ok b' -> differ_at i b b' ->
  hash b h <> hash b' h.
Proof.
  intros Hh Hb Hb' D. apply differ_split in D as (pre & post & x & x' & -> & -> & Hx & _).
  intros E. apply Hx. unfold bytes_ok in *. rewrite !Forall_app in *.
  destruct Hb as [_ Hb], Hb' as [_ Hb']. inversion Hb; inversion Hb'; subst.
  eapply hash_one_byte; eauto.
Qed.

Lemma same_slice i n b b' k : differ_at k b b' -> k < i \/ i + n <= k -> slice i n b' = slice i n b.
Proof.
  intros (HL & Hd & Hs) Hk. apply list_ext. intros j. rewrite !nth_error_slice.
  destruct (Nat.ltb_spec j n); auto. symmetry. apply Hs. lia.
Qed.

Lemma bytes_ok_skipn n b : bytes_ok b -> bytes_ok (skipn n b).
Proof. intros H. rewrite <- (firstn_skipn n b) in H. apply Forall_app in H. tauto. Qed.

Section P.
Variable hb : bool.
Variable m th : N.
Notation big := (is_mode_enabled m SERIALIZE_BIG_ENDIAN).

Lemma hdr_read_ok b i : bytes_ok b -> i + 8 <= length b ->
  hdr_read hb m b i = Ok (if big then big_endian_value (slice i 8 b)
                          else little_endian_value (slice i 8 b)).
Proof.
  intros Hb Hi. unfold hdr_read. rewrite get_some by assumption.
  rewrite read_value; [reflexivity|now apply slice_ok|rewrite slice_length; lia].
Qed.

Definition val8 i b := if big then big_endian_value (slice i 8 b) else little_endian_value (slice i 8 b).

Lemma istart_version : version_enabled m = true -> integrity_start m = 8.
Proof. unfold version_enabled, integrity_start. intros ->. reflexivity. Qed.
Lemma dstart_integrity : is_mode_enabled m WITH_INTEGRITY = true ->
  data_start m = integrity_start m + 8.
Proof. unfold data_start. intros ->. reflexivity. Qed.
Lemma istart_le : integrity_start m <= data_start m.
Proof. unfold data_start. lia. Qed.

Lemma check_char b : bytes_ok b ->
  check hb m th b =
  if ((data_start m <? length b)%nat
      && (negb (version_enabled m) || (val8 0 b =? th)%N)
      && (negb (is_mode_enabled m WITH_INTEGRITY)
          || (val8 (integrity_start m) b =? hash (skipn (data_start m) b) BASE_HASH)%N))%bool
  then Ok tt else Throw.
Proof.
  intros Hb. unfold check. fold (version_enabled m).
  destruct (Nat.ltb_spec (data_start m) (length b)) as [L|L]; cbn [verify bind andb]; auto.
  pose proof istart_le as HI.
  destruct (version_enabled m) eqn:EV; cbn [negb orb].
  - rewrite hdr_read_ok by (auto; pose proof (istart_version EV); lia).
    cbn [bind]. fold (val8 0 b). destruct (N.eqb_spec (val8 0 b) th); cbn [verify bind andb]; auto.
    destruct (is_mode_enabled m WITH_INTEGRITY) eqn:EI; cbn [negb orb bind]; auto.
    rewrite hdr_read_ok by (auto; pose proof (dstart_integrity EI); lia).
    cbn [bind]. fold (val8 (integrity_start m) b). now destruct (N.eqb _ _).
  - cbn [bind andb].
    destruct (is_mode_enabled m WITH_INTEGRITY) eqn:EI; cbn [negb orb bind]; auto.
    rewrite hdr_read_ok by (auto; pose proof (dstart_integrity EI); lia).
    cbn [bind]. fold (val8 (integrity_start m) b). now destruct (N.eqb _ _).
Qed.

Lemma check_ok_iff b : bytes_ok b ->
  (check hb m th b = Ok tt <->
   data_start m < length b /\
   (version_enabled m = true -> val8 0 b = th) /\
   (is_mode_enabled m WITH_INTEGRITY = true ->
    val8 (integrity_start m) b = hash (skipn (data_start m) b) BASE_HASH)).
Proof.
  intros Hb. rewrite check_char by assumption.
  destruct (Nat.ltb_spec (data_start m) (length b)); cbn [andb].
  2:{ split; [discriminate|]. intros [X _]. lia. }
  destruct (version_enabled m); cbn [negb orb].
  1: destruct (N.eqb_spec (val8 0 b) th); cbn [andb].
  all: destruct (is_mode_enabled m WITH_INTEGRITY); cbn [negb orb andb].
  all: try match goal with |- context [(?x =? ?y)%N] => destruct (N.eqb_spec x y) end.
  all: split; try discriminate; try (intros _; repeat split; auto; discriminate); auto.
  all: intros (_ & H1 & H2); try (specialize (H1 eq_refl)); try (specialize (H2 eq_refl)); congruence.
Qed.

Lemma check_cases b : bytes_ok b -> check hb m th b = Ok tt \/ check hb m th b = Throw.
Proof. intros H. rewrite check_char by assumption. destruct (_ && _)%bool; auto. Qed.

Lemma val8_inj i b b' : bytes_ok b -> bytes_ok b' -> i + 8 <= length b -> i + 8 <= length b' ->
  val8 i b = val8 i b' -> slice i 8 b = slice i 8 b'.
Proof.
  intros Hb Hb' L L' E. unfold val8, big_endian_value, little_endian_value in E.
  assert (Q : forall l l', bytes_ok l -> bytes_ok l' -> length l = length l' ->
    le_dec (rev l) = le_dec (rev l') -> l = l').
  { intros l l' Hl Hl' HL HE. rewrite <- (rev_involutive l), <- (rev_involutive l'). f_equal.
    apply le_dec_inj; auto using rev_ok. now rewrite !rev_length. }
  assert (X : length (slice i 8 b) = length (slice i 8 b')) by (rewrite !slice_length; lia).
  destruct big; [apply Q in E|apply le_dec_inj in E]; auto using slice_ok.
Qed.

Lemma corruption b b' i : bytes_ok b -> bytes_ok b' ->
  is_mode_enabled m WITH_INTEGRITY = true ->
  check hb m th b = Ok tt -> integrity_start m <= i -> differ_at i b b' ->
  check hb m th b' = Throw.
Proof.
  intros Hb Hb' EI HC Hi D.
  destruct (check_cases b' Hb') as [HC'|]; auto. exfalso.
  apply check_ok_iff in HC as (L & _ & H1); auto. apply check_ok_iff in HC' as (L' & _ & H2); auto.
  specialize (H1 EI). specialize (H2 EI). pose proof (dstart_integrity EI) as DS.
  destruct (Nat.lt_ge_cases i (data_start m)) as [C|C].
  - (* the stored checksum changed, the payload did not *)
    assert (E : skipn (data_start m) b = skipn (data_start m) b').
    { apply list_ext. intros k. rewrite !skipn_nth. apply (proj2 (proj2 D)). lia. }
    rewrite E, <- H2 in H1. apply val8_inj in H1; auto; try lia.
    apply (proj1 (proj2 D)).
    assert (X : forall c : list N, nth_error (slice (integrity_start m) 8 c) (i - integrity_start m) = nth_error c i).
    { intros c. rewrite nth_error_slice. destruct (Nat.ltb_spec (i - integrity_start m) 8); [|lia].
      f_equal. lia. }
    now rewrite <- (X b), <- (X b'), H1.
  - assert (E : val8 (integrity_start m) b = val8 (integrity_start m) b').
    { unfold val8. now rewrite (same_slice (integrity_start m) 8 b b' i D) by lia. }
    rewrite H1, H2 in E. revert E.
    eapply hash_differ; [reflexivity| | |].
    + now apply bytes_ok_skipn.
    + now apply bytes_ok_skipn.
    + apply differ_skipn; eauto.
Qed.

(* ---- writer ---- *)
Lemma put_end (b d : list N) : put (length b) d (b ++ zeros (length d)) = b ++ d.
Proof.
  unfold put. rewrite firstn_app, firstn_all, Nat.sub_diag. cbn [firstn]. rewrite app_nil_r.
  rewrite skipn_all2 by (rewrite app_length, zeros_length; lia). now rewrite app_nil_r.
Qed.

Lemma buf_write_append base b d al :
  (al <= 1 \/ b = [] \/ (base + length b) mod al = 0) ->
  buf_write base b d al = (b ++ d, length b).
Proof.
  intros H. unfold buf_write.
  assert (S : (if (Nat.ltb 1 al && negb (Nat.eqb (length b) 0))%bool
               then align_up al (base + length b) - base else length b) = length b).
  { destruct (Nat.ltb_spec 1 al); cbn [andb]; auto.
    destruct (Nat.eqb_spec (length b) 0); cbn [negb]; auto.
    destruct H as [H|[->|H]]; [lia|now cbn in n|].
    unfold align_up. rewrite H. cbn. lia. }
  rewrite S. replace (length b + length d - length b) with (length d) by lia.
  now rewrite put_end.
Qed.

Definition hdr_prefix : list N :=
  (if version_enabled m then hdr_bytes hb m th else []) ++
  (if is_mode_enabled m WITH_INTEGRITY then host_bytes hb 8 0 else []).

Lemma hdr_bytes_length x : length (hdr_bytes hb m x) = 8.
Proof. apply host_bytes_length. Qed.

Lemma writer_starts : writer_mode m ->
  integrity_start m = (if version_enabled m then 8 else 0) /\
  data_start m = (if version_enabled m then 8 else 0) +
                 (if is_mode_enabled m WITH_INTEGRITY then 8 else 0).
Proof.
  intros [H1 H2]. unfold data_start, integrity_start, version_enabled. rewrite H1, H2.
  rewrite !orb_false_r. destruct (_ || _)%bool; auto.
Qed.

Lemma hdr_prefix_length : writer_mode m -> length hdr_prefix = data_start m.
Proof.
  intros H. destruct (writer_starts H) as [_ ->]. unfold hdr_prefix. rewrite app_length.
  destruct (version_enabled m), (is_mode_enabled m WITH_INTEGRITY);
    rewrite ?hdr_bytes_length, ?host_bytes_length; reflexivity.
Qed.

Lemma serialize_start_eq base root ra : writer_mode m ->
  serialize_start hb m th base root ra =
  (fst (buf_write (base (data_start m)) hdr_prefix root ra),
   (if is_mode_enabled m WITH_INTEGRITY then integrity_start m else 0),
   snd (buf_write (base (data_start m)) hdr_prefix root ra)).
Proof.
  intros H. rewrite <- hdr_prefix_length by assumption.
  unfold serialize_start. fold (version_enabled m).
  destruct (writer_starts H) as [-> _].
  assert (E1 : forall x b y, buf_write x b y 0 = (b ++ y, length b)).
  { intros. apply buf_write_append. lia. }
  unfold hdr_prefix.
  destruct (version_enabled m), (is_mode_enabled m WITH_INTEGRITY); rewrite ?E1;
    cbn [fst snd app]; rewrite ?hdr_bytes_length; rewrite ?E1; cbn [fst snd app]; rewrite ?hdr_bytes_length, ?app_nil_r, ?app_nil_l, ?hdr_bytes_length; reflexivity.
Qed.

Lemma root_offset base root ra : writer_mode m ->
  (forall n, base n mod ra = 0) -> 0 < ra -> data_start m mod ra = 0 ->
  snd (serialize_start hb m th base root ra) = data_start m.
Proof.
  intros H HB Hra HD. rewrite serialize_start_eq by assumption. cbn [snd].
  rewrite buf_write_append, hdr_prefix_length by
    (try assumption; right; right; rewrite hdr_prefix_length by assumption;
     rewrite Nat.add_mod, HB, HD by lia; cbn; apply Nat.mod_0_l; lia).
  reflexivity.
Qed.

Lemma val8_hdr x c pre : (x < W64)%N -> val8 (length pre) (pre ++ hdr_bytes hb m x ++ c) = x.
Proof.
  intros Hx. unfold val8.
  assert (E : slice (length pre) 8 (pre ++ hdr_bytes hb m x ++ c) = hdr_bytes hb m x).
  { unfold slice. rewrite skipn_app, skipn_all, Nat.sub_diag. cbn [skipn app].
    rewrite firstn_app, hdr_bytes_length, Nat.sub_diag, firstn_O, app_nil_r.
    apply firstn_all2. rewrite hdr_bytes_length. lia. }
  rewrite E. unfold hdr_bytes. rewrite written_bytes.
  unfold big_endian_value, little_endian_value.
  destruct big; rewrite ?rev_involutive; apply le_dec_enc_small; exact Hx.
Qed.

Lemma hdr_ok x : bytes_ok (hdr_bytes hb m x).
Proof. apply host_bytes_ok. Qed.

Lemma writer_accepted payload : writer_mode m -> (th < W64)%N -> payload <> [] -> bytes_ok payload ->
  exists out, serialize_finish hb m (hdr_prefix ++ payload)
                (if is_mode_enabled m WITH_INTEGRITY then integrity_start m else 0) = Ok out /\
    length out = data_start m + length payload /\
    skipn (data_start m) out = payload /\ bytes_ok out /\
    check hb m th out = Ok tt.
Proof.
  intros H Hth Hne Hp. pose proof (hdr_prefix_length H) as HP.
  destruct (writer_starts H) as [HI HD].
  assert (HL : 0 < length payload) by (destruct payload; cbn; [congruence|lia]).
  unfold serialize_finish. destruct (is_mode_enabled m WITH_INTEGRITY) eqn:EI.
  - assert (SK : skipn (integrity_start m + 8) (hdr_prefix ++ payload) = payload).
    { replace (integrity_start m + 8) with (length hdr_prefix) by (rewrite HP; lia).
      rewrite skipn_app, skipn_all, Nat.sub_diag. reflexivity. }
    rewrite SK. set (cs := hash payload BASE_HASH).
    unfold buf_write_at. rewrite hdr_bytes_length, app_length.
    replace (integrity_start m + 8 <=? length hdr_prefix + length payload) with true
      by (symmetry; apply Nat.leb_le; lia).
    cbn [verify bind]. eexists. split; [reflexivity|].
    set (vb := if version_enabled m then hdr_bytes hb m th else []).
    assert (Hvb : length vb = integrity_start m).
    { unfold vb. rewrite HI. destruct (version_enabled m); rewrite ?hdr_bytes_length; auto. }
    assert (E : put (integrity_start m) (hdr_bytes hb m cs) (hdr_prefix ++ payload) =
                vb ++ hdr_bytes hb m cs ++ payload).
    { unfold put. rewrite hdr_bytes_length, SK. f_equal. unfold hdr_prefix. fold vb.
      rewrite <- Hvb, <- app_assoc, firstn_app, firstn_all, Nat.sub_diag. cbn [firstn]. apply app_nil_r. }
    rewrite E. rewrite !app_length, hdr_bytes_length, Hvb.
    assert (OK : bytes_ok (vb ++ hdr_bytes hb m cs ++ payload)).
    { unfold bytes_ok. rewrite !Forall_app. repeat split; auto; [|apply hdr_ok].
      unfold vb. destruct (version_enabled m); [apply hdr_ok|constructor]. }
    assert (SD : skipn (data_start m) (vb ++ hdr_bytes hb m cs ++ payload) = payload).
    { rewrite app_assoc. replace (data_start m) with (length (vb ++ hdr_bytes hb m cs))
        by (rewrite app_length, hdr_bytes_length, Hvb; lia).
      rewrite skipn_app, skipn_all, Nat.sub_diag. reflexivity. }
    repeat split; auto; [lia|].
    apply check_ok_iff; auto. rewrite !app_length, hdr_bytes_length, Hvb.
    repeat split; [lia| |].
    + intros EV. unfold vb. rewrite EV. apply (val8_hdr th _ []). exact Hth.
    + intros _. rewrite SD, <- Hvb. apply val8_hdr. apply hash_bound. reflexivity.
  - eexists. split; [reflexivity|]. rewrite app_length, HP.
    assert (OK : bytes_ok (hdr_prefix ++ payload)).
    { unfold hdr_prefix, bytes_ok. rewrite EI, !Forall_app. repeat split; auto.
      destruct (version_enabled m); [apply hdr_ok|constructor]. }
    assert (SD : skipn (data_start m) (hdr_prefix ++ payload) = payload).
    { rewrite <- HP, skipn_app, skipn_all, Nat.sub_diag. reflexivity. }
    repeat split; auto. apply check_ok_iff; auto. rewrite app_length, HP.
    repeat split; [lia| |congruence].
    intros EV. unfold hdr_prefix. rewrite EV, EI, app_nil_r. apply (val8_hdr th _ []). exact Hth.
Qed.

(* [b'] is what the serialize overloads made of the buffer after the header was written:
   same header bytes, any contents behind it. *)
Lemma writer_accepted' base root ra b io off b' : writer_mode m -> (th < W64)%N ->
  serialize_start hb m th base root ra = (b, io, off) ->
  bytes_ok b' -> data_start m < length b' -> firstn (data_start m) b' = firstn (data_start m) b ->
  exists out, serialize_finish hb m b' io = Ok out /\ length out = length b' /\
    skipn (data_start m) out = skipn (data_start m) b' /\ check hb m th out = Ok tt.
Proof.
  intros H Hth HS Hok HL HF. rewrite serialize_start_eq in HS by assumption.
  inversion HS as [[Hb Hio Hoff]]. clear HS.
  assert (FB : firstn (data_start m) b = hdr_prefix).
  { rewrite <- Hb. unfold buf_write. cbn [fst].
    set (st := if (_ && _)%bool then _ else _).
    assert (ST : length hdr_prefix <= st).
    { unfold st. destruct (_ && _)%bool; auto. unfold align_up.
      destruct (Nat.eqb _ 0); lia. }
    unfold put. rewrite firstn_app.
    rewrite firstn_firstn. rewrite <- (hdr_prefix_length H).
    rewrite Nat.min_l by assumption.
    rewrite firstn_app, firstn_all, Nat.sub_diag. cbn [firstn]. rewrite app_nil_r.
    rewrite firstn_length, app_length, zeros_length.
    match goal with |- _ ++ firstn ?n _ = _ => replace n with 0 by lia end.
    apply app_nil_r. }
  rewrite FB in HF.
  set (pl := skipn (data_start m) b').
  assert (EB : b' = hdr_prefix ++ pl) by (rewrite <- HF; symmetry; apply firstn_skipn).
  destruct (writer_accepted pl) as (out & A & B & C & _ & D); auto.
  - intros E. assert (length pl = 0) by now rewrite E. unfold pl in *. rewrite skipn_length in *. lia.
  - apply bytes_ok_skipn; auto.
  - exists out. rewrite EB. rewrite A. repeat split; auto.
    + rewrite B, app_length, hdr_prefix_length by assumption. reflexivity.
Qed.
End P.

Lemma cross_host (big wb rb : bool) (w : nat) (x : N) : (x < 256 ^ N.of_nat w)%N ->
  convert_endian big rb w (host_value rb (host_bytes wb w (convert_endian big wb w x))) = x.
Proof.
  intros H. rewrite read_value; auto using host_bytes_ok, host_bytes_length.
  rewrite written_bytes. destruct big; rewrite ?rev_involutive; now apply le_dec_enc_small.
Qed.
