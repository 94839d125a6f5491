(** * ConfigNum: conversion of float settings and recognition of agent names (C53). *)
From Verif Require Import Base BaseFacts F32 F32Facts RoundFacts SumFacts GapFacts VersusModel ConfigModel ConfigSpec ConfigApi.
Require Import ZifyBool ZifyNat Lia.
Local Open Scope string_scope.
Local Open Scope Z_scope.

Lemma round_long s m e : 2 ^ 24 <= Z.pos m -> -149 <= e -> binary_round 24 128 s m e = binary_round_aux 24 128 s (Z.pos m) e loc_Exact.
Proof.
  intros Hm He. unfold binary_round, shl_align. pose proof (digits_bound m) as Hd.
  assert (H24 : 24 < Z.pos (digits2_pos m)) by (apply (Z.pow_lt_mono_r_iff 2); [lia|lia|]; lia).
  destruct (fexp 24 128 (Z.pos (digits2_pos m) + e) - e) as [|d|d] eqn:Ed; try reflexivity. unfold fexp, emin in Ed. lia.
Qed.
Theorem C53_rounding_lemma :
  (forall s m e, 2 ^ 52 <= Z.pos m < 2 ^ 53 -> -149 <= e <= 47 ->
     exists m' e', f32_of_f64 (S754_finite s m e) = S754_finite s m' e' /\ 2 ^ 23 <= Z.pos m' < 2 ^ 24 /\ -149 <= e' <= 104
       /\ 2 ^ 23 * Z.abs (Z.pos m' * 2 ^ (e' + 149) - Z.pos m * 2 ^ (e + 149)) <= 2 * (Z.pos m * 2 ^ (e + 149)))
  /\ (forall x : f32, valid_binary 24 128 x = true -> f32_of_f64 (f64_of_f32 x) = x).
Proof.
  split.
  - intros s m e Hm He. cbn [f32_of_f64]. rewrite round_long by lia.
    assert (Hd : Zdigits2 (Z.pos m) = 53) by (cbn [Zdigits2]; apply digits_unique; [lia|exact Hm]).
    destruct (round_relative s (Z.pos m) e loc_Exact ltac:(lia) ltac:(lia) ltac:(lia) ltac:(lia)) as (m3 & e3 & E & HN & H1 & H2).
    destruct (round_faithful s (Z.pos m) e loc_Exact ltac:(lia) ltac:(lia) ltac:(lia)) as (m4 & e4 & f & k & E' & _ & _ & H23 & _).
    rewrite E in E'. injection E' as <- <-. specialize (H23 ltac:(lia)).
    exists m3, e3. split; [exact E|]. split; [destruct HN as (H & _ & _); lia|].
    cbn [mag] in H1, H2. set (P := 2 ^ (e + 149)) in *. assert (HP : 0 < P) by (apply pow2_pos; lia). set (V := Z.pos m3 * 2 ^ (e3 + 149)) in *.
    split.
    + split; [apply HN|]. destruct (Z_le_gt_dec e3 104) as [H|H]; [exact H|exfalso].
      assert (HV : 2 ^ 23 * 2 ^ 254 <= V).
      { unfold V. pose proof (Z.pow_le_mono_r 2 254 (e3 + 149) ltac:(lia) ltac:(lia)). nia. }
      assert (HX : Z.pos m * P < 2 ^ 53 * 2 ^ 196).
      { assert (P <= 2 ^ 196) by (apply Z.pow_le_mono_r; lia). nia. }
      lia.
    + assert (Z.pos m * P <= (Z.pos m + 1) * P) by nia. set (X := Z.pos m * P) in *. assert (HX : 0 < X) by (unfold X; nia). assert (H2' : 2 ^ 23 * X <= (2 ^ 23 + 1) * V) by lia. clearbody X V. clear - H1 H2' HX. lia.
  - intros [s|s| |s m e] HV; try reflexivity. cbn [valid_binary] in HV. unfold bounded, canonical_mantissa in HV. apply andb_true_iff in HV. destruct HV as [HC HE].
    apply Zeq_bool_eq in HC. apply Z.leb_le in HE. unfold f64_of_f32. pose proof (digits_bound m) as Hd. set (d := Z.pos (digits2_pos m)) in *.
    assert (Hd24 : d <= 24 /\ -149 <= e) by (unfold fexp, emin in HC; lia). assert (Hd1 : 1 <= d) by (unfold d; lia).
    assert (HP : 0 < 2 ^ (53 - d)) by (apply pow2_pos; lia).
    assert (Eq : Z.pos (Z.to_pos (Z.pos m * 2 ^ (53 - d))) = Z.pos m * 2 ^ (53 - d)) by (apply Z2Pos.id; nia).
    rewrite (round_exact 53 1024 s m e (Z.to_pos (Z.pos m * 2 ^ (53 - d))) (d + e - 53)).
    + cbn [f32_of_f64]. pose proof (digits_scale m _ (53 - d) ltac:(lia) Eq) as Hs. fold d in Hs.
      rewrite (round_exact 24 128 s _ (d + e - 53) m e); [reflexivity| |lia| |].
      * rewrite Hs. replace (d + (53 - d) + (d + e - 53)) with (d + e) by lia. symmetry. exact HC.
      * intros H. lia.
      * intros _. rewrite Eq. do 2 f_equal. lia.
    + unfold fexp, emin. fold d. lia.
    + lia.
    + intros _. rewrite Eq. do 2 f_equal. lia.
    + intros H. lia.
Qed.

Lemma lower_nocase a c : (97 <= N_of_ascii c <= 122)%N -> (lower a = c <-> nocase a c).
Proof.
  intros Hc. unfold nocase. split.
  - intros <-. destruct a as [[] [] [] [] [] [] [] []]; vm_compute; first [left; reflexivity|right; repeat split; discriminate].
  - intros [->|[H _]].
    + unfold lower. replace ((65 <=? N_of_ascii c)%N && (N_of_ascii c <=? 90)%N) with false; [reflexivity|]. symmetry. apply andb_false_iff. right. apply N.leb_gt. lia.
    + unfold lower. replace ((65 <=? N_of_ascii a)%N && (N_of_ascii a <=? 90)%N) with true by (symmetry; apply andb_true_iff; split; apply N.leb_le; lia).
      rewrite H. apply ascii_N_embedding.
Qed.
Fixpoint all_low (s : string) : bool := match s with EmptyString => true | String c s' => ((97 <=? N_of_ascii c) && (N_of_ascii c <=? 122))%N && all_low s' end.
Lemma lower_nocases s t : all_low t = true -> (to_ascii_lowercase s = t <-> nocases s t).
Proof.
  revert t. induction s as [|a s IH]; intros [|c t] H; cbn [to_ascii_lowercase nocases]; try (split; [discriminate|contradiction]); [tauto|].
  cbn [all_low] in H. apply andb_true_iff in H. destruct H as [H1 H2]. apply andb_true_iff in H1. destruct H1 as [H1 H1']. apply N.leb_le in H1, H1'.
  rewrite <- (IH t H2), <- (lower_nocase a c) by lia. split; [intros E; injection E; auto|intros [-> ->]; reflexivity].
Qed.
Theorem C53_agents_lemma : forall arg a, parse_agent arg = Ok a <->
  exists s, arg = Some s /\ ((a = AModel /\ nocases s "model") \/ (a = AMcts /\ nocases s "mcts") \/ (a = ARandom /\ nocases s "random")).
Proof.
  intros arg a. rewrite agents_lowered. split; intros (s & H & Hc); exists s; (split; [exact H|]);
    rewrite ?(lower_nocases s "model"), ?(lower_nocases s "mcts"), ?(lower_nocases s "random") in * by reflexivity; exact Hc.
Qed.
