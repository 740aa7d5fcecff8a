(* deserialize with DEEP_CHECK *)
From Verif Require Import Base Bytes HeaderModel HeaderSpec HeaderProofs HashModel SerialModel SerialSpec SerialMem SerialPost SerialSer SerialDeser SerialRead SerialTop SerialFinal SerialLimits
  ConvModel ConvSpec ConvProofs ConvSafe DeepModel DeepSpec DeepProofs.
Local Open Scope Z_scope.

Lemma first_pass env hb raw strict m th f t B b r m1 : bytes_ok b ->
  convert env hb raw strict m th f t B b = Ok (r, m1) ->
  r = B + Z.of_nat (data_start m) /\ tame B (B + Z.of_nat (length b)) m1.
Proof.
  intros Hb. unfold convert. destruct (check hb m th b); try discriminate. cbn [bind].
  match goal with |- context [conv ?e ?h ?fb ?rw ?c ?s ?x ?y ?f ?t ?m0 ?a] =>
    pose proof (t_conv e h fb rw c s B (B + Z.of_nat (length b)) x y f t m0 a) as H; destruct (conv e h fb rw c s x y f t m0 a) as [m'| | |] end; try discriminate.
  cbn [bind]. intros E. injection E as <- <-. split; [reflexivity|]. apply H. clear H. split.
  - intros z Hz. unfold at_base. replace (z <? B) with false by lia. destruct (nth_error b (Z.to_nat (z - B))) as [x|] eqn:En.
    + exists x. split; [reflexivity|]. apply nth_error_In in En. unfold bytes_ok in Hb. rewrite Forall_forall in Hb. now apply Hb.
    + apply nth_error_None in En. lia.
  - intros z x Hz. apply at_base_some in Hz. lia.
Qed.

Section Top.
Variables (env : list ty) (A : Z) (t : ty) (keys : list N) (hb raw strict : bool) (m th : N) (f : nat) (B : Z) (b : list N).
Hypothesis Ht : types_ok A env t.
Hypothesis HB : 0 < B < 2 ^ 62.
Hypothesis Hl : Z.of_nat (length b) < 2 ^ 62.
Hypothesis Hb : bytes_ok b.
Hypothesis Hun : is_mode_enabled m UNCHECKED = false.
Notation hi := (B + Z.of_nat (length b)).
Notation R m1 := (plain hb m1 (negb raw) (Some (B, hi)) ctrl_tab).

Lemma second_pass r m1 g (F : Prop) K (P : nat -> Z -> Prop) : convert env hb raw strict m th f t B b = Ok (r, m1) ->
  F \/ (forall n q, P n q -> depth env (R m1) P K (tyof env n) q) ->
  F \/ (exists k, depth env (R m1) P k t r /\ (k + K * (S (length keys) * length b) <= g)%nat) ->
  okp raw strict F (fun st' => grow env B hi hb raw m1 keys [] st' /\ seenall env B hi hb raw m1 keys g t r st')
    (bad env B hi hb raw m1 t r) (dchk env keys hb raw true strict B hi m1 g t r []).
Proof.
  intros Hc HK Hg. destruct (first_pass _ _ _ _ _ _ _ _ _ _ _ _ Hb Hc) as [-> [Hm _]].
  destruct Ht as (Hwf & HA & Hwt & Hs). inversion Hs as [|? ? Hs1 Hs2]; subst.
  pose proof (start_small m). apply (walk_start env A) with (K := K) (P := P).
  - exact Hwf.
  - intros n. apply tyof_ok; [cbn; lia|exact Hs2].
  - lia.
  - lia.
  - lia.
  - exact Hm.
  - exact HK.
  - exact Hwt.
  - exact Hs1.
  - unfold adr. lia.
  - rewrite M_size. replace (Z.to_nat (hi - B)) with (length b) by lia. exact Hg.
Qed.
Lemma deep_eq r m1 g : convert env hb raw strict m th f t B b = Ok (r, m1) ->
  deserialize_deep env keys hb raw strict m th f g t B b =
  (let* _ := dchk env keys hb raw true strict B hi m1 g t r [] in Ok (r, m1)).
Proof. intros E. unfold deserialize_deep. rewrite E, Hun. reflexivity. Qed.
Lemma valid_image m1 t' a' : tame B hi m1 -> valid env B hi hb raw m1 t' a' ->
  exists f v tr, host_image env hb raw B (Z.of_nat (length b)) m1 ctrl_tab f t' a' v tr /\ Forall (in_buffer B hi) tr.
Proof.
  intros [_ Hm] (f' & [v tr] & H). exists f', v, tr. split; [exact H|].
  eapply dec_inside; [|exact H]. exact Hm.
Qed.
Lemma deep_accepts r m1 g : no_cstring env t -> distinct_keys env keys ->
  deserialize_deep env keys hb raw strict m th f g t B b = Ok (r, m1) ->
  r = B + Z.of_nat (data_start m) /\ outside_same B (Z.of_nat (length b)) (at_base B b) m1 /\
  all_valid env hb raw B (Z.of_nat (length b)) m1 ctrl_tab t r.
Proof.
  intros [Hct Hce] Hkey E. destruct (convert env hb raw strict m th f t B b) as [[r' m']| | |] eqn:Ec;
    unfold deserialize_deep in E; rewrite Ec in E; try discriminate E.
  cbn [bind] in E. destruct (first_pass _ _ _ _ _ _ _ _ _ _ _ _ Hb Ec) as [Er Hm].
  assert (Hfr : forall n, cstr_free (tyof env n)) by (intros n; apply tyof_ok; [constructor|exact Hce]).
  pose proof (second_pass r' m' g True 0 (fun _ _ => True) Ec (or_introl I) (or_introl I)) as H. rewrite Hun in E. cbn [fst snd negb] in E.
  destruct (dchk env keys hb raw true strict B hi m' g t r' []) as [st'| | |]; try discriminate E. cbn [bind okp] in E, H. injection E as <- <-.
  split; [exact Er|]. split.
  - intros z Hz. destruct Hm as [_ Hm]. destruct (m' z) as [x|] eqn:E; [apply Hm in E; lia|].
    destruct (at_base B b z) as [x|] eqn:E'; [|reflexivity]. apply at_base_some in E'. lia.
  - intros t' a' Hr. apply valid_image; [exact Hm|]. destruct H as [H1 H2].
    eapply walk_valid; try eassumption.
Qed.

Lemma deep_exact r m1 K g : no_cstring env t -> distinct_keys env keys -> raw = true \/ strict = false ->
  nesting env K t -> Forall (nesting env K) env -> (deep_fuel K keys (length b) <= g)%nat ->
  convert env hb raw strict m th f t B b = Ok (r, m1) ->
  let V := all_valid env hb raw B (Z.of_nat (length b)) m1 ctrl_tab t r in
  (V /\ deserialize_deep env keys hb raw strict m th f g t B b = Ok (r, m1)) \/
  (~ V /\ deserialize_deep env keys hb raw strict m th f g t B b = Throw).
Proof.
  intros Hnc Hkey Hmode Hn Hne Hg Ec V. unfold deep_fuel in Hg.
  assert (HK : forall n, nesting env K (tyof env n)).
  { intros n. apply tyof_ok; [|exact Hne]. destruct K; [inversion Hn|constructor]. }
  pose proof (second_pass r m1 g False K (fun _ _ => True) Ec (or_intror (fun n q _ => nesting_depth env _ K _ q (HK n)))
                (or_intror (ex_intro _ K (conj (nesting_depth env _ K t r Hn) Hg)))) as H.
  pose proof (deep_eq r m1 g Ec) as E.
  destruct (dchk env keys hb raw true strict B hi m1 g t r []) as [st'| | |] eqn:Ed; cbn [bind okp] in *.
  - left. split; [|exact E]. now apply (deep_accepts r m1 g).
  - right. split; [|exact E]. intros HV. destruct H as (t' & a' & Hr & Hnone). destruct (HV t' a' Hr) as (f' & v & tr & Hi & _).
    unfold host_image in Hi. rewrite Hnone in Hi. discriminate Hi.
  - destruct H as [[-> ->] _]. destruct Hmode; discriminate.
  - destruct H.
Qed.
Lemma deep_total K g : raw = true \/ strict = false ->
  nesting env K t -> Forall (nesting env K) env -> (deep_fuel K keys (length b) <= g)%nat ->
  (convert env hb raw strict m th f t B b <> UB -> deserialize_deep env keys hb raw strict m th f g t B b <> UB) /\
  (convert env hb raw strict m th f t B b <> Fuel -> deserialize_deep env keys hb raw strict m th f g t B b <> Fuel).
Proof.
  intros Hmode Hn Hne Hg. unfold deep_fuel in Hg.
  assert (HK : forall n, nesting env K (tyof env n)).
  { intros n. apply tyof_ok; [|exact Hne]. destruct K; [inversion Hn|constructor]. }
  destruct (convert env hb raw strict m th f t B b) as [[r m1]| | |] eqn:Ec.
  - pose proof (second_pass r m1 g False K (fun _ _ => True) Ec (or_intror (fun n q _ => nesting_depth env _ K _ q (HK n)))
                (or_intror (ex_intro _ K (conj (nesting_depth env _ K t r Hn) Hg)))) as H.
    rewrite (deep_eq r m1 g Ec). destruct (dchk env keys hb raw true strict B hi m1 g t r []) as [st'| | |]; cbn [bind okp] in *; try now split.
    destruct H as [[-> ->] _]. destruct Hmode; discriminate.
  - unfold deserialize_deep. rewrite Ec. now split.
  - unfold deserialize_deep. rewrite Ec. split; [tauto|discriminate].
  - unfold deserialize_deep. rewrite Ec. split; [discriminate|tauto].
Qed.
(* everything reachable is well formed and at most K deep: accepted *)
Lemma deep_finite r m1 K g : convert env hb raw strict m th f t B b = Ok (r, m1) ->
  (forall t' a', reach env (R m1) t r t' a' -> exists k x, (k <= K)%nat /\ dec env (R m1) k t' a' = Some x) ->
  (deep_fuel K keys (length b) <= g)%nat -> deserialize_deep env keys hb raw strict m th f g t B b = Ok (r, m1).
Proof.
  intros Ec Hv Hg. unfold deep_fuel in Hg. rewrite (deep_eq r m1 g Ec).
  set (P := fun n q => reach env (R m1) t r (tyof env n) q).
  assert (HD : forall t' a', reach env (R m1) t r t' a' -> depth env (R m1) P K t' a').
  { intros t' a' Hr. destruct (Hv t' a' Hr) as (k & x & Hk & Hx). eapply depth_up; [|exact Hk]. eapply dec_depth; [exact Hx|].
    intros n s q Hh Hq. unfold P. eapply r_step; eassumption. }
  pose proof (second_pass r m1 g False K P Ec (or_intror (fun n q Hq => HD _ q Hq)) (or_intror (ex_intro _ K (conj (HD _ _ (r_here _ _ _ _)) Hg)))) as H.
  destruct (dchk env keys hb raw true strict B hi m1 g t r []) as [st'| | |]; cbn [bind okp] in *.
  - reflexivity.
  - destruct H as (t' & a' & Hr & Hnone). destruct (Hv t' a' Hr) as (k & x & _ & Hx). now rewrite Hnone in Hx.
  - destruct H as (_ & t' & a' & Hr & Hnone). destruct (Hv t' a' Hr) as (k & x & _ & Hx). now rewrite Hnone in Hx.
  - destruct H.
Qed.
End Top.
