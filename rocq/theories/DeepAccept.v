(* What serialize writes passes the deep check. *)
From Verif Require Import Base Bytes HeaderModel HeaderSpec HashModel SerialModel SerialSpec SerialMem SerialDeser SerialRead SerialFinal SerialLimits
  ConvModel ConvSpec ConvTop DeepModel DeepSpec DeepProofs DeepTop DeepSer.
Local Open Scope Z_scope.

Lemma reach_tab env hb m rel ck tab tab' t a t1 a1 : reach env (plain hb m rel ck tab) t a t1 a1 -> reach env (plain hb m rel ck tab') t a t1 a1.
Proof.
  assert (Hh : forall t a n s, holds env (plain hb m rel ck tab) t a n s -> holds env (plain hb m rel ck tab') t a n s).
  { induction 1; [eapply h_ptr|eapply h_agg|eapply h_opt|eapply h_var|eapply h_uniq|eapply h_vec|eapply h_hash]; eauto. }
  induction 1 as [|t' a' n s q Hr IH Hs Hq]; [constructor|]. eapply r_step; [exact IH|apply Hh; exact Hs|exact Hq].
Qed.

Lemma deep_serialized env A t be_src rel src m th f a v tr out :
  types_ok A env t -> no_cstring env t -> total_mem src -> writer_mode m -> (th < W64)%N ->
  Z.of_nat (data_start m) mod align_of t = 0 ->
  graph_at env be_src rel src f t a v tr -> typed_pointers env (plain be_src src rel None clean_table) t a ->
  serialize env be_src rel m th src f t a = Ok out -> Z.of_nat (length out) < 2 ^ 62 ->
  forall B, 0 < B < 2 ^ 62 -> (A | B) ->
  forall hb raw strict m' keys g, same_format m m' -> is_mode_enabled m' UNCHECKED = false -> (deep_fuel f keys (length out) <= g)%nat ->
  let root := B + Z.of_nat (data_start m) in
  exists m1 tr', deserialize_deep env keys hb raw strict m' th f g t B out = Ok (root, m1) /\
    host_image env hb raw B (Z.of_nat (length out)) m1 clean_table f t root v tr' /\ mirrors tr tr' /\
    outside_same B (Z.of_nat (length out)) (at_base B out) m1.
Proof.
  intros Ht Hn Hs Hm Hth Hr Hg Hty Ho Hl B HB HA hb raw strict m' keys g Hf Hun Hgf root.
  destruct (converts_serialized env A t be_src rel src m th f a v tr out Ht Hn Hs Hm Hth Hr Hg Ho Hl B HB HA hb raw strict m' Hf)
    as (m1 & tr' & E & Hi & Hmir & _ & Hout). fold root in E, Hi.
  exists m1, tr'. split; [|auto].
  destruct (trip_ok env A t Ht be_src rel src Hs m th Hm Hth Hr f a v tr Hg out Ho Hl) as (Hb & _).
  eapply (deep_finite env A t keys hb raw strict m' th f B out Ht HB Hl Hb Hun root m1 f g E); [|exact Hgf].
  intros t1 a1 Hr1. apply (reach_tab env hb m1 (negb raw) _ _ clean_table) in Hr1.
  destruct Hg as (Hd & _).
  destruct (reach2 env _ _ f t a root v tr tr' Hd Hi Hmir Hty t1 a1 Hr1) as (a0 & (f0 & v0 & u & u' & Hf0 & _ & Hd' & _) & _).
  exists f0, (v0, u'). split; [exact Hf0|]. eapply dec_frame; [|exact Hd'|intros ? ? ? ? ?; reflexivity].
  unfold wider, plain. cbn. repeat split; auto; try lia. exact clean_accepted.
Qed.
