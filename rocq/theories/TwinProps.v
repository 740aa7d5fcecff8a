(* C54: what serialize writes depends on the object graph only. *)
From Verif Require Import Base Bytes HeaderModel HashModel SerialModel SerialSpec TwinSpec TwinProofs.
Local Open Scope Z_scope.

(* Two graphs that are the same (TwinSpec: equal contents, corresponding pointers, equal padding) give the same bytes, checksum included, wherever
   they are in memory, whatever their spare capacity and ownership flags, with raw or offset pointers, on hosts of either byte order. If one of the two
   fails, so does the other, in the same way. *)
Theorem C54_reproducible_partial : forall env A t s1 s2 blocks m th f a1 a2,
  types_ok A env t -> same_graph env s1 s2 blocks f t a1 a2 ->
  serialize env (d_be s1) (d_rel s1) m th (d_mem s1) f t a1 = serialize env (d_be s2) (d_rel s2) m th (d_mem s2) f t a2.
Proof. exact reproducible. Qed.
Print Assumptions C54_reproducible_partial.

(* ---------------- a graph in two memories ---------------- *)
(* memory given by pieces; everything else is 0 *)
Fixpoint pieces (l : list (Z * list N)) (z : Z) : option N :=
  match l with
  | [] => Some 0%N
  | (a, b) :: l => if (a <=? z) && (z <? a + Z.of_nat (length b)) then nth_error b (Z.to_nat (z - a)) else pieces l z
  end.
(* struct { uint32_t x; unique_ptr<uint64_t> u; ptr<uint64_t> p; vector<uint64_t> v; } *)
Definition demo_env : list ty := [TInt 8].
Definition demo_ty : ty := TAgg [(0, TInt 4); (8, TUniq 0); (24, TPtr 0); (32, TVec 4 true 0)] 56 8.
(* little-endian, raw pointers *)
Definition demo1 : side := Side false false (pieces
  [(4096, le_enc 4 5 ++ [9; 9; 9; 9]%N ++ le_enc 8 8192 ++ [1; 0; 0; 0; 0; 0; 0; 0]%N ++ le_enc 8 12296 ++
          le_enc 8 12288 ++ le_enc 4 2 ++ le_enc 4 2 ++ [1; 0; 0; 0; 0; 0; 0; 0]%N);
   (8192, le_enc 8 77); (12288, le_enc 8 1 ++ le_enc 8 2)]).
(* big-endian, offset pointers, other addresses in another order, spare capacity *)
Definition demo2 : side := Side true true (pieces
  [(65536, rev (le_enc 4 5) ++ [9; 9; 9; 9]%N ++ rev (le_enc 8 (u_of_z (40960 - 65544))) ++ [0; 0; 0; 0; 0; 0; 0; 0]%N ++
           rev (le_enc 8 (u_of_z (20488 - 65560))) ++
           rev (le_enc 8 (u_of_z (20480 - 65568))) ++ rev (le_enc 4 2) ++ rev (le_enc 4 64) ++ [1; 0; 0; 0; 0; 0; 0; 0]%N);
   (40960, rev (le_enc 8 77)); (20480, rev (le_enc 8 1) ++ rev (le_enc 8 2))]).
Definition demo_blocks : list (Z * Z * Z) := [(8192, 40960, 8); (12288, 20480, 16)].

Lemma demo_types : types_ok 8 demo_env demo_ty.
Proof.
  split; [|split; [|split]].
  - split; [exists 1; reflexivity|]. split; [lia|]. constructor; [|constructor]. constructor. cbn. auto.
  - lia.
  - constructor; [split; [lia|exists 1; reflexivity]|lia|exists 7; reflexivity| |].
    + intros o t [E|[E|[E|[E|[]]]]]; injection E as <- <-; (split; [constructor; cbn; auto|]); cbn [size_of align_of]; (split; [lia|]); (split; [lia|]);
        split; try (exists 2; reflexivity); try (exists 1; reflexivity); try (exists 0; reflexivity); try (exists 3; reflexivity); try (exists 4; reflexivity).
    + repeat (constructor; [repeat (constructor; [unfold apart; cbn; lia|]); constructor|]). constructor.
  - repeat constructor; cbn; lia.
Qed.

Lemma all_below (P : Z -> Prop) n : (forall k, (k < Z.to_nat n)%nat -> P (Z.of_nat k)) -> forall k, 0 <= k < n -> P k.
Proof. intros H k K. rewrite <- (Z2Nat.id k) by lia. apply H. lia. Qed.

(* The hypotheses are met by graphs that differ in all these respects, and the result is the expected image. *)
Example demo_same : same_graph demo_env demo1 demo2 demo_blocks 3 demo_ty 4096 65536.
Proof.
  split; [|split].
  - intros x y [<-|[<-|[]]] [<-|[<-|[]]]; try (left; reflexivity); right; unfold apart; lia.
  - unfold same_but. apply all_below. intros k K. cbn in K.
    assert (F : forall i, In i (seq 0 56) -> exists x y, d_mem demo1 (4096 + Z.of_nat i) = Some x /\ d_mem demo2 (65536 + Z.of_nat i) = Some y /\
      (x = y \/ (i < 4 \/ 8 <= i < 17 \/ 24 <= i < 49)%nat)).
    { intros i I. cbn in I. repeat (destruct I as [<-|I]; [eexists _, _; split; [vm_compute; reflexivity|]; split; [vm_compute; reflexivity|];
        first [left; reflexivity|right; lia]|]). destruct I. }
    destruct (F k) as (x & y & X & Y & E); [apply in_seq; lia|]. exists x, y. split; [exact X|]. split; [exact Y|].
    destruct E as [E|E]; [right; exact E|left]. cbn [free demo_ty].
    destruct E as [E|[E|E]].
    + exists 0, (TInt 4). cbn. split; [auto|lia].
    + exists 8, (TUniq 0). cbn. split; [auto|lia].
    + destruct (Nat.lt_ge_cases k 32).
      * exists 24, (TPtr 0). cbn. split; [auto|lia].
      * exists 32, (TVec 4 true 0). cbn. split; [auto|lia].
  - intros o t [E|[E|[E|[E|[]]]]]; injection E as <- <-; cbn [twin].
    + exists 5%N. split; vm_compute; reflexivity.
    + right. exists 8192, 40960. split; [vm_compute; reflexivity|]. split; [vm_compute; reflexivity|]. split; [|split].
      * exists 8192, 40960, 8, 0. cbn. repeat split; auto; lia.
      * unfold same_but. apply all_below. intros i I. cbn in I. cbn [free tyof demo_env nth]. assert (J : In i (seq 0 8)) by (apply in_seq; lia). clear I. cbn in J.
        repeat (destruct J as [<-|J]; [eexists _, _; split; [vm_compute; reflexivity|]; split; [vm_compute; reflexivity|]; left; cbn; lia|]). destruct J.
      * exists 77%N. split; vm_compute; reflexivity.
    + exists (Some 12296), (Some 20488). split; [vm_compute; reflexivity|]. split; [vm_compute; reflexivity|].
      apply sp_corr. exists 12288, 20480, 16, 8. cbn. repeat split; auto; lia.
    + exists (Some 12288), (Some 20480), 2%N. split; [vm_compute; reflexivity|]. split; [vm_compute; reflexivity|]. split; [split; vm_compute; reflexivity|].
      right. exists 12288, 20480. split; [reflexivity|]. split; [reflexivity|]. split; [discriminate|]. split; [|split].
      * intros _. exists 12288, 20480, 16, 0. cbn. repeat split; auto; lia.
      * unfold same_but. apply all_below. intros i I. cbn in I. assert (J : In i (seq 0 16)) by (apply in_seq; lia). clear I.
        assert (Q : exists x y, d_mem demo1 (12288 + Z.of_nat i) = Some x /\ d_mem demo2 (20480 + Z.of_nat i) = Some y).
        { cbn in J. repeat (destruct J as [<-|J]; [eexists _, _; split; vm_compute; reflexivity|]). destruct J. }
        apply in_seq in J. destruct Q as (x & y & X & Y). exists x, y. split; [exact X|]. split; [exact Y|]. left.
        destruct (Nat.lt_ge_cases i 8); [exists 0%nat|exists 1%nat]; cbn; split; lia.
      * intros i I. cbn in I. destruct i as [|[|i]]; [exists 1%N|exists 2%N|lia]; split; vm_compute; reflexivity.
Qed.
Example demo_image : exists out, serialize demo_env false false 0 0 (d_mem demo1) 3 demo_ty 4096 = Ok out /\ length out = 80%nat
  /\ serialize demo_env true true 0 0 (d_mem demo2) 3 demo_ty 65536 = Ok out.
Proof. eexists. split; [vm_compute; reflexivity|]. split; vm_compute; reflexivity. Qed.

(* ---------------- equal contents are not enough ---------------- *)
(* Finding: padding is copied into the image. Two equal structs { uint8_t a; uint32_t b; } at the same address with different padding give different
   bytes, so different checksums, and the image contains whatever was in memory before. *)
Definition padded : ty := TAgg [(0, TInt 1); (4, TInt 4)] 8 4.
Theorem C54_padding_refuted : exists src1 src2 a v tr out1 out2,
  graph_at [] false true src1 2 padded a v tr /\ graph_at [] false true src2 2 padded a v tr /\
  serialize [] false true 0 0 src1 2 padded a = Ok out1 /\ serialize [] false true 0 0 src2 2 padded a = Ok out2 /\ out1 <> out2.
Proof.
  exists (pieces [(4096, [1; 0; 0; 0; 2; 0; 0; 0]%N)]), (pieces [(4096, [1; 66; 77; 88; 2; 0; 0; 0]%N)]), 4096. do 4 eexists.
  split; [split; [vm_compute; reflexivity|]|].
  { split; [split; [constructor|intros ? ? ? ? ? [E|[E|[]]]; discriminate]|intros ? ? ? ? ? ? ? ? [E|[E|[]]]; discriminate]. }
  split; [split; [vm_compute; reflexivity|]|].
  { split; [split; [constructor|intros ? ? ? ? ? [E|[E|[]]]; discriminate]|intros ? ? ? ? ? ? ? ? [E|[E|[]]]; discriminate]. }
  split; [vm_compute; reflexivity|]. split; [vm_compute; reflexivity|]. discriminate.
Qed.
Print Assumptions C54_padding_refuted.

(* Finding: the unused bytes of a short string are copied as well: "a" after "secret". *)
Theorem C54_short_string_refuted : exists src1 src2 a v tr out1 out2,
  graph_at [] false true src1 2 TStr a v tr /\ graph_at [] false true src2 2 TStr a v tr /\ v = VStr [97%N] /\
  serialize [] false true 0 0 src1 2 TStr a = Ok out1 /\ serialize [] false true 0 0 src2 2 TStr a = Ok out2 /\ out1 <> out2.
Proof.
  exists (pieces [(4096, [1; 97; 0]%N)]), (pieces [(4096, [1; 97; 0; 99; 114; 101; 116]%N)]), 4096. do 4 eexists.
  split; [split; [vm_compute; reflexivity|]|].
  { split; [split; [constructor|intros ? ? ? ? ? [E|[E|[]]]; discriminate]|intros ? ? ? ? ? ? ? ? [E|[E|[]]]; discriminate]. }
  split; [split; [vm_compute; reflexivity|]|].
  { split; [split; [constructor|intros ? ? ? ? ? [E|[E|[]]]; discriminate]|intros ? ? ? ? ? ? ? ? [E|[E|[]]]; discriminate]. }
  split; [reflexivity|]. split; [vm_compute; reflexivity|]. split; [vm_compute; reflexivity|]. discriminate.
Qed.
Print Assumptions C54_short_string_refuted.
