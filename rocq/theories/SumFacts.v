(** * SumFacts: a rounded sum of non-negative numbers vanishes only if all of them do. *)
From Coq Require Import Permutation.
From Verif Require Import Base BaseFacts F32 F32Facts RoundFacts SampleModel SampleFacts.
Require Import ZifyBool.

Definition nn32 (x : f32) : Prop := x = f0 \/ x = S754_infinity false \/ exists m e, x = S754_finite false m e /\ -149 <= e.
Lemma unit_nn x : unit32 x -> nn32 x.
Proof. 
  intros [->|(m & e & -> & He & _)]; [left; reflexivity|right; right]. exists m, e. split; [reflexivity|].
  unfold valid_binary, bounded, canonical_mantissa, fexp, emin in He. apply andb_prop in He. destruct He as [He _]. apply Zeq_bool_eq in He. lia.
Qed.
Lemma shl_min m e ez : ez <= e -> Z.pos (fst (shl_align m e ez)) = Z.pos m * 2 ^ (e - ez).
Proof.
  intros H. unfold shl_align. destruct (ez - e) as [|z|z] eqn:E; [replace (e - ez) with 0 by lia; cbn; lia|lia|].
  cbn [fst]. rewrite shift_pos_eq. f_equal. f_equal. lia.
Qed.
Lemma fadd_pos mx ex my ey : -149 <= ex -> -149 <= ey ->
  nn32 (fadd (S754_finite false mx ex) (S754_finite false my ey)) /\ fadd (S754_finite false mx ex) (S754_finite false my ey) <> f0.
Proof.
  intros Hex Hey. unfold fadd, SFadd. set (ez := Z.min ex ey). cbn [cond_Zopp].
  rewrite !shl_min by (unfold ez; lia).
  pose proof (pow2_pos (ex - ez) ltac:(unfold ez; lia)) as Hp1. pose proof (pow2_pos (ey - ez) ltac:(unfold ez; lia)) as Hp2.
  destruct (Z.pos mx * 2 ^ (ex - ez) + Z.pos my * 2 ^ (ey - ez)) as [|M|M] eqn:EM; try nia.
  cbn [binary_normalize]. unfold binary_round.
  set (t := fexp 24 128 (Z.pos (digits2_pos M) + ez)).
  assert (Ht : -149 <= t) by (unfold t, fexp, emin; lia).
  assert (HA : exists m0 e0, shl_align M ez t = (m0, e0) /\ -149 <= e0).
  { unfold shl_align. destruct (t - ez) as [|z|z] eqn:E; [exists M, ez; split; [reflexivity|unfold ez; lia]|exists M, ez; split; [reflexivity|unfold ez; lia]|].
    exists (shift_pos z M), t. split; [reflexivity|]. exact Ht. }
  destruct HA as (m0 & e0 & -> & He0).
  destruct (round_aux_spec 24 128 ltac:(lia) false (Z.pos m0) e0 loc_Exact ltac:(lia) ltac:(unfold emin; lia)) as (m2 & m3 & e3 & _ & _ & He3 & _ & _ & ->).
  destruct (e3 <=? 128 - 24); [|split; [right; left; reflexivity|discriminate]].
  split; [right; right; exists m3, e3; split; [reflexivity|lia]|discriminate].
Qed.
Lemma fadd_nn x y : nn32 x -> nn32 y -> nn32 (fadd x y) /\ (fadd x y = f0 -> x = f0 /\ y = f0).
Proof.
  intros [->|[->|(mx & ex & -> & Hx)]] [->|[->|(my & ey & -> & Hy)]].
  1: split; [left; reflexivity|tauto].
  1-7: cbn; (split; [unfold nn32; eauto 8|discriminate]).
  destruct (fadd_pos mx ex my ey Hx Hy) as [H1 H2]. split; [exact H1|contradiction].
Qed.
Lemma sums_nn l x : sums l x -> Forall nn32 l -> nn32 x /\ (x = f0 -> Forall (fun y => y = f0) l).
Proof.
  induction 1 as [|y|a b l x y HP Ha IHa Hb IHb]; intros HF.
  - split; [left; reflexivity|constructor].
  - inversion HF; subst. split; [assumption|]. intros ->. repeat constructor.
  - assert (HF' : Forall nn32 (a ++ b)) by (eapply Permutation_Forall; [symmetry; exact HP|exact HF]).
    apply Forall_app in HF'. destruct HF' as [Fa Fb]. destruct (IHa Fa) as [Na Za], (IHb Fb) as [Nb Zb].
    destruct (fadd_nn x y Na Nb) as [Nn Z]. split; [exact Nn|]. intros H. destruct (Z H) as [-> ->].
    eapply Permutation_Forall; [exact HP|]. apply Forall_app. auto.
Qed.
Lemma sum_zero tsum l : tsum_ok tsum -> Forall unit32 l -> SFeqb (tsum l) f0 = true -> Forall (fun y => y = f0) l.
Proof.
  intros HS HF E. destruct (sums_nn l _ (HS l)) as [HN HZ]; [eapply Forall_impl; [|exact HF]; apply unit_nn|].
  apply HZ. destruct HN as [H|[H|(m & e & H & _)]]; [exact H|rewrite H in E; discriminate|rewrite H in E; discriminate].
Qed.
