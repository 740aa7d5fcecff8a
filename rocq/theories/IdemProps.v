(* C55: serializing what was loaded gives the same bytes again. Also C54 in terms of contents. *)
From Verif Require Import Base Bytes HeaderModel HeaderSpec HashModel SerialModel SerialSpec SerialProps TwinSpec TwinProps IdemSpec IdemTop.
Local Open Scope Z_scope.

(* An image, loaded anywhere on a host with the byte order of the image and serialized again from there, in the same mode, is reproduced byte for byte:
   header, checksum, padding and all. The source may have raw or offset pointers, either byte order, any addresses, spare capacity. *)
Theorem C55_serialize_again : forall env A t be_src rel src m th f a v tr out,
  types_ok A env t -> total_mem src -> writer_mode m -> (th < W64)%N ->
  Z.of_nat (data_start m) mod align_of t = 0 ->
  graph_at env be_src rel src f t a v tr ->
  serialize env be_src rel m th src f t a = Ok out -> Z.of_nat (length out) < 2 ^ 62 ->
  let be := is_mode_enabled m SERIALIZE_BIG_ENDIAN in
  forall B, 0 < B < 2 ^ 62 -> (A | B) ->
    deserialize env be true m th f t B out = Ok (B + Z.of_nat (data_start m)) /\
    serialize env be true m th (at_base B out) f t (B + Z.of_nat (data_start m)) = Ok out.
Proof.
  intros env A t be_src rel src m th f a v tr out Ht Hs Hm Hth Hr Hg Ho Hl be B HB HA. split.
  - apply (C01_round_trip env A t be_src rel src m th f a v tr out Ht Hs Hm Hth Hr Hg Ho Hl B HB HA).
  - exact (fixpoint env A t Ht be_src rel src Hs m th Hm Hth Hr f a v tr Hg out B Ho Hl HB HA).
Qed.
Print Assumptions C55_serialize_again.

(* C54 again, with the graphs given by their contents: equal contents, pointers to corresponding places and equal bytes between the members suffice. *)
Theorem C54_equal_graphs_partial : forall env A t be1 be2 rel1 rel2 src1 src2 m th f a1 a2 v tr1 tr2,
  types_ok A env t -> graph_at env be1 rel1 src1 f t a1 v tr1 -> graph_at env be2 rel2 src2 f t a2 v tr2 -> alike tr1 tr2 ->
  same_padding env (Side be1 rel1 src1) (Side be2 rel2 src2) f t a1 a2 ->
  serialize env be1 rel1 m th src1 f t a1 = serialize env be2 rel2 m th src2 f t a2.
Proof. exact equal_graphs. Qed.
Print Assumptions C54_equal_graphs_partial.

(* ---------------- examples ---------------- *)
(* The graph of C01_example (indexed vector, pointers into it, unique_ptr, optional, variant, hash table), whose other hypotheses are C01_types_example. *)
Example C55_example : exists tr out, graph_at ex_env false false ex_src 5 ex_ty 1000 ex_contents tr /\
  serialize ex_env false false 6 12345 ex_src 5 ex_ty 1000 = Ok out /\
  serialize ex_env false true 6 12345 (at_base 4096 out) 5 ex_ty 4112 = Ok out /\
  serialize ex_env false true 6 12345 (at_base 65536 out) 5 ex_ty 65552 = Ok out.
Proof.
  destruct C01_example as (tr & out & tr' & G & S & _). exists tr, out. split; [exact G|]. split; [exact S|]. vm_compute in S. injection S as <-.
  split; vm_compute; reflexivity.
Qed.

(* The two memories of demo_same meet the hypotheses of C54_equal_graphs_partial. *)
Definition demo_contents : val := VAgg [VInt 5; VObj (VInt 77); VPtr; VVec [VInt 1; VInt 2]].
Ltac demo_graph :=
  split; [vm_compute; reflexivity|]; split;
  [split; [cbn [blks flat_map app]; repeat (constructor; try (left; lia); try (right; lia))|
           intros ix a n al q _ H; exfalso; cbn in H; repeat (destruct H as [H|H]; [discriminate H|]); exact H]|
   intros slot q sz al ix a n al' H H' Hq; cbn in H, H';
   repeat (destruct H as [H|H]; [try discriminate H; injection H as <- <- <- <-|]); try contradiction H;
   repeat (destruct H' as [H'|H']; [try discriminate H'; injection H' as <- <- <- <-; cbn in Hq; try lia|]); try contradiction H';
   split; [lia|]; split; exists 1; reflexivity].
Example C54_contents_example : exists tr1 tr2,
  graph_at demo_env false false (d_mem demo1) 3 demo_ty 4096 demo_contents tr1 /\
  graph_at demo_env true true (d_mem demo2) 3 demo_ty 65536 demo_contents tr2 /\ alike tr1 tr2 /\
  same_padding demo_env demo1 demo2 3 demo_ty 4096 65536.
Proof.
  eexists. eexists. split; [|split; [|split]].
  - demo_graph.
  - demo_graph.
  - split; [repeat constructor|]. cbn [ptrs flat_map app]. constructor; [|constructor]. cbn [fst snd]. left.
    exists true, 12288, 16, 8, 20480, 16, 8. split; [cbn; auto|lia].
  - destruct demo_same as (_ & S & T). split; [exact S|]. intros o t I. specialize (T o t I). destruct I as [E|[E|[E|[E|[]]]]]; injection E as <- <-; cbn [pads]; try exact I.
    + intros q1 q2 Q1 Q2. cbn [twin] in T. destruct T as [[T _]|(p1 & p2 & P1 & P2 & _ & T & _)]; [congruence|]. rewrite P1 in Q1. rewrite P2 in Q2.
      injection Q1 as <-. injection Q2 as <-. split; [exact T|exact I].
    + intros q1 q2 used Q1 Q2 U NZ. cbn [twin] in T. destruct T as (p1 & p2 & us & P1 & P2 & [U1 _] & [[E _]|(r1 & r2 & -> & -> & _ & _ & T & _)]); [congruence|].
      rewrite P1 in Q1. rewrite P2 in Q2. rewrite U1 in U. injection Q1 as <-. injection Q2 as <-. injection U as <-. split; [exact T|]. intros i _. exact I.
Qed.
