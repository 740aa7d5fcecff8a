(* C62: buffers own their memory. *)
From Verif Require Import Base BufModel BufSpec BufProofs.
Local Open Scope N_scope.

(* Programs that construct buffers (with any size, from C strings and from bytes, where each allocation may fail), move them to new and to existing
   variables, also to itself, free, read and write them and end their lifetimes. Such a program has the answers of the specification, in which a
   value has one owner, keeps its address and its bytes when it is moved, and a construction that throws changes nothing; the blocks in use are
   exactly those of the variables, one each; and after the end of all lifetimes nothing is allocated, where freeing a block twice would be UB.
   Missing: reset(), which is public, on a buffer that has a block; see below. *)
Theorem C62_owner_partial : forall n os vs l,
  arun (repeat None n) os = Some (vs, l) ->
  exists s, run (start n) os = Ok (s, l) /\ holds s vs /\ exists s', finish s 0 n = Ok s' /\ forall a, blk (blocks s') a = None.
Proof.
  intros n os vs l E. destruct (run_ok _ _ _ _ _ (start_holds n) E) as (s & R & H). exists s. split; [exact R|]. split; [exact H|]. apply (finish_ok n 0 s vs H); [intros k Hk; lia|].
  assert (L : forall os vs vs' l, arun vs os = Some (vs', l) -> length vs' = length vs).
  { clear. induction os as [|o os IH]; intros vs vs' l E; cbn [arun] in E; [congruence|]. destruct (astep vs o) as [[vs1 a]|] eqn:E1; [|discriminate]. destruct (arun vs1 os) as [[vs2 l2]|] eqn:E2; [|discriminate]. injection E as <- _.
    rewrite (IH _ _ _ E2). clear - E1. destruct o; cbn [astep] in E1; unfold construct in E1;
      repeat match type of E1 with context [match ?x with _ => _ end] => lazymatch x with context [match _ with _ => _ end] => fail | _ => destruct x end end; try discriminate E1; injection E1 as <- _; rewrite ?upd_length; reflexivity. }
  rewrite (L _ _ _ _ E), repeat_length. reflexivity.
Qed.
Print Assumptions C62_owner_partial.

(* A move to a new variable keeps the address and the bytes, so pointers into the buffer stay valid, and leaves the source empty. *)
Theorem C62_move : forall n os vs l v w a b bs,
  arun (repeat None n) os = Some (vs, l) -> alive vs w = Some (a, b) -> known b = Some bs -> unborn vs v = true ->
  exists s, run (start n) (os ++ [Data w; All w; MoveNew v w; Data v; All v; Data w; Size w]) = Ok (s, l ++ [Num a; Bytes bs; Quiet; Num a; Bytes bs; Num 0; Num 0]).
Proof.
  intros n os vs l v w a b bs E A K U. pose proof (alive_nth _ _ _ A) as Ew. pose proof (unborn_nth _ _ U) as Ev. assert (Nvw : v <> w) by congruence. pose proof (nth_lt _ _ _ Ev) as Lv. pose proof (nth_lt _ _ _ Ew) as Lw.
  set (vs1 := upd w (Some nothing) (upd v (Some (a, b)) vs)).
  assert (Av : alive vs1 v = Some (a, b)) by (unfold alive, vs1; rewrite nth_upd by (rewrite upd_length; exact Lw); destruct (Nat.eqb_spec v w); [contradiction|]; rewrite nth_upd, Nat.eqb_refl by exact Lv; reflexivity).
  assert (Aw : alive vs1 w = Some nothing) by (unfold alive, vs1; rewrite nth_upd, Nat.eqb_refl by (rewrite upd_length; exact Lw); reflexivity).
  assert (E2 : arun vs [Data w; All w; MoveNew v w; Data v; All v; Data w; Size w] = Some (vs1, [Num a; Bytes bs; Quiet; Num a; Bytes bs; Num 0; Num 0])).
  { assert (S1 : astep vs (Data w) = Some (vs, Num a)) by (cbn [astep]; rewrite A; reflexivity). assert (S2 : astep vs (All w) = Some (vs, Bytes bs)) by (cbn [astep]; rewrite A; rewrite K; reflexivity).
    assert (S3 : astep vs (MoveNew v w) = Some (vs1, Quiet)) by (cbn [astep]; rewrite A, U; reflexivity). assert (S4 : astep vs1 (Data v) = Some (vs1, Num a)) by (cbn [astep]; rewrite Av; reflexivity).
    assert (S5 : astep vs1 (All v) = Some (vs1, Bytes bs)) by (cbn [astep]; rewrite Av; rewrite K; reflexivity). assert (S6 : astep vs1 (Data w) = Some (vs1, Num 0)) by (cbn [astep]; rewrite Aw; reflexivity).
    assert (S7 : astep vs1 (Size w) = Some (vs1, Num 0)) by (cbn [astep]; rewrite Aw; reflexivity). cbn [arun]. rewrite S1, S2, S3, S4, S5, S6, S7. reflexivity. }
  destruct (run_ok _ _ _ _ _ (start_holds n) E) as (s & R & H). destruct (run_ok _ _ _ _ _ H E2) as (s2 & R2 & _). exists s2. clear - R R2. revert R. generalize (start n). revert l. induction os as [|o os IH]; intros l s0 R; cbn [run app] in *.
  - injection R as -> <-. exact R2.
  - destruct (step s0 o) as [[s1 x]| | |]; try discriminate R. cbn [bind] in *. destruct (run s1 os) as [[s3 l3]| | |] eqn:E3; try discriminate R. cbn [bind] in R. injection R as -> <-. rewrite (IH _ _ E3). reflexivity.
Qed.
Print Assumptions C62_move.

(* A construction that fails throws and changes nothing, in every state. *)
Theorem C62_failed_allocation : forall s v n str k,
  dead s v = true -> strlen str = Ok k ->
  step s (New v n 0) = Ok (s, Threw) /\ step s (Cstr v str 0) = Ok (s, Threw) /\ step s (Copy v str n 0) = Ok (s, Threw).
Proof. intros s v n str k D E. cbn [step]. rewrite D, E. repeat split; reflexivity. Qed.
Print Assumptions C62_failed_allocation.

(* Refuted: reset() forgets the block, which is never freed. *)
Theorem C62_reset_refuted : exists s s', run (start 1) [New 0 4 16; Reset 0] = Ok (s, [Quiet; Quiet]) /\ finish s 0 1 = Ok s' /\ blk (blocks s') 16 <> None.
Proof. do 2 eexists. split; [reflexivity|]. split; [reflexivity|]. discriminate. Qed.
Print Assumptions C62_reset_refuted.
(* Refuted: a buffer of no bytes needs no memory, but where malloc(0) returns null it throws; so do the empty C string, and (file.h 252-256) the contents of an
   empty file. Without an argument the same buffer is made without an exception. *)
Theorem C62_empty_refuted :
  run (start 3) [New 0 0 0; Cstr 1 [0] 0; Copy 2 [] 0 0; Default 0; Size 0] = Ok (St [] [Some null; None; None], [Threw; Threw; Threw; Quiet; Num 0]).
Proof. reflexivity. Qed.
Print Assumptions C62_empty_refuted.

(* Four buffers at work; the second allocation fails; the address of a freed block is used again. *)
Definition prog : list op :=
  [ Cstr 0 [104; 105; 0; 7] 16; New 1 3 0; New 1 3 32; Write 1 0 9; Size 0; All 0; MoveNew 2 0; Data 2; Data 0; Size 0; MoveTo 2 1; Default 3; MoveTo 3 2; MoveTo 3 3; Read 3 0; Size 3; Data 3; Drop 2; Copy 2 [1; 2; 3] 2 16; All 2; Free 2; Size 2; Drop 3 ].
Example C62_example : exists vs s l, arun (repeat None 4) prog = Some (vs, l) /\ run (start 4) prog = Ok (s, l) /\ blocks s = [] /\
  filter (fun a => match a with Quiet => false | _ => true end) l = [Threw; Num 2; Bytes [104; 105]; Num 16; Num 0; Num 0; Num 9; Num 3; Num 32; Bytes [1; 2]; Num 0].
Proof. do 3 eexists. repeat (split; [vm_compute; reflexivity|]). vm_compute. reflexivity. Qed.
Example C62_example_finish : exists s s', run (start 2) [New 0 3 8; MoveNew 1 0; Write 1 2 5; Read 1 2] = Ok (s, [Quiet; Quiet; Quiet; Num 5]) /\ blk (blocks s) 8 = Some [None; None; Some 5] /\ finish s 0 2 = Ok s' /\ blocks s' = [].
Proof. do 2 eexists. repeat (split; [vm_compute; reflexivity|]). vm_compute. reflexivity. Qed.
