(** * NanFacts: when single precision arithmetic gives a number. *)
From Verif Require Import Base F32 F32Facts.
Require Import ZifyBool.

Lemma shr_1_nonneg r : 0 <= shr_m r -> 0 <= shr_m (shr_1 r).
Proof. destruct r as [m rb sb]. cbn. destruct m as [|[m|m|]|[m|m|]]; cbn; lia. Qed.
Lemma iter_shr_nonneg p r : 0 <= shr_m r -> 0 <= shr_m (SpecFloat.iter_pos shr_1 p r).
Proof. intros H. rewrite iter_pos_nat. generalize (Pos.to_nat p) as k. induction k as [|k IH]; [exact H|]. cbn. apply shr_1_nonneg. exact IH. Qed.
Lemma shr_fexp_nonneg prec emax m e l : 0 <= m -> 0 <= shr_m (fst (shr_fexp prec emax m e l)).
Proof.
  intros H. unfold shr_fexp, shr. assert (Hr : 0 <= shr_m (shr_record_of_loc m l)) by (destruct l as [|[]]; exact H).
  destruct (SpecFloat.fexp prec emax (Zdigits2 m + e) - e); [exact Hr|apply iter_shr_nonneg; exact Hr|exact Hr].
Qed.
Lemma round_ne_nonneg m l : 0 <= m -> 0 <= round_nearest_even m l.
Proof. intros H. destruct l as [|[]]; cbn; try lia. destruct (Z.even m); lia. Qed.
Lemma round_aux_number prec emax s m e l : 0 <= m -> binary_round_aux prec emax s m e l <> S754_nan.
Proof.
  intros H. unfold binary_round_aux. pose proof (shr_fexp_nonneg prec emax m e l H) as H1. destruct (shr_fexp prec emax m e l) as [r1 e1]. cbn [fst] in H1.
  assert (H2 : 0 <= round_nearest_even (shr_m r1) (loc_of_shr_record r1)) by (apply round_ne_nonneg; exact H1).
  pose proof (shr_fexp_nonneg prec emax _ e1 loc_Exact H2) as H3. destruct (shr_fexp prec emax (round_nearest_even _ _) e1 loc_Exact) as [r2 e2]. cbn [fst] in H3.
  destruct (shr_m r2); [discriminate|destruct (e2 <=? emax - prec); discriminate|lia].
Qed.
Lemma normalize_number prec emax m e s : binary_normalize prec emax m e s <> S754_nan.
Proof.
  unfold binary_normalize. destruct m as [|m|m]; [discriminate| |]; unfold binary_round; destruct (shl_align m e _) as [m' e']; apply round_aux_number; lia.
Qed.

(** a number that is not infinite *)
Definition finite (x : f32) : Prop := match x with S754_zero _ | S754_finite _ _ _ => True | _ => False end.
(** a number that is not negative; the infinity included *)
Definition nonneg (x : f32) : Prop := match x with S754_zero _ => True | S754_finite s _ _ | S754_infinity s => s = false | S754_nan => False end.

Lemma div_core_nonneg prec emax m1 e1 m2 e2 : 0 < m1 -> 0 < m2 -> 0 <= fst (fst (SFdiv_core_binary prec emax m1 e1 m2 e2)).
Proof.
  intros H1 H2. unfold SFdiv_core_binary. set (e' := Z.min _ _). set (s := _ - e').
  assert (Hm : 0 <= match s with Z.pos _ => Z.shiftl m1 s | 0 => m1 | Z.neg _ => 0 end).
  { destruct s; [lia|apply Z.shiftl_nonneg; lia|lia]. }
  pose proof (Z.div_eucl_eq (match s with Z.pos _ => Z.shiftl m1 s | 0 => m1 | Z.neg _ => 0 end) m2 ltac:(lia)) as He.
  pose proof (Z_div_nonneg_nonneg _ m2 Hm ltac:(lia)) as Hq. unfold Z.div in Hq.
  destruct (Z.div_eucl _ m2) as [q r]. exact Hq.
Qed.
Lemma fdiv_number a b : finite a -> finite b -> (forall s, b <> S754_zero s) -> fdiv a b <> S754_nan.
Proof.
  intros Ha Hb Hz. destruct a as [sa|sa| |sa ma ea]; try destruct Ha; destruct b as [sb|sb| |sb mb eb]; try destruct Hb; try (destruct (Hz sb); reflexivity).
  - discriminate.
  - unfold fdiv, SFdiv. pose proof (div_core_nonneg 24 128 (Z.pos ma) ea (Z.pos mb) eb ltac:(lia) ltac:(lia)) as H.
    destruct (SFdiv_core_binary 24 128 (Z.pos ma) ea (Z.pos mb) eb) as [[q e] l]. apply round_aux_number. exact H.
Qed.
Lemma round_aux_nonneg prec emax m e l : 0 <= m -> nonneg (binary_round_aux prec emax false m e l).
Proof.
  intros H. pose proof (round_aux_number prec emax false m e l H) as Hn. unfold binary_round_aux in *.
  destruct (shr_fexp prec emax m e l) as [r1 e1]. destruct (shr_fexp prec emax (round_nearest_even _ _) e1 loc_Exact) as [r2 e2].
  destruct (shr_m r2); [exact Logic.I|destruct (e2 <=? emax - prec); reflexivity|exact (Hn eq_refl)].
Qed.
Lemma fdiv_nonneg a b : nonneg a -> nonneg b -> finite b -> (forall s, b <> S754_zero s) -> nonneg (fdiv a b).
Proof.
  intros Ha Hb Hf Hz. destruct b as [sb|sb| |sb mb eb]; try destruct Hf; [destruct (Hz sb); reflexivity|]. cbn in Hb. subst sb.
  destruct a as [sa|sa| |sa ma ea]; cbn in Ha; try contradiction; subst; [exact Logic.I|reflexivity|].
  unfold fdiv, SFdiv. pose proof (div_core_nonneg 24 128 (Z.pos ma) ea (Z.pos mb) eb ltac:(lia) ltac:(lia)) as H.
  destruct (SFdiv_core_binary 24 128 (Z.pos ma) ea (Z.pos mb) eb) as [[q e] l]. apply round_aux_nonneg. exact H.
Qed.
Lemma sqrt_core_nonneg prec emax m e : 0 <= fst (fst (SFsqrt_core_binary prec emax m e)).
Proof.
  unfold SFsqrt_core_binary. set (e' := Z.min _ _). set (s := e - 2 * e'). set (m' := match s with Z.pos p => _ | 0 => m | Z.neg _ => 0 end).
  pose proof (Z.sqrt_nonneg m') as H. rewrite <- (Z.sqrtrem_sqrt m') in H. destruct (Z.sqrtrem m') as [q r]. exact H.
Qed.
Lemma fsqrt_nonneg a : nonneg a -> nonneg (fsqrt a).
Proof.
  intros Ha. destruct a as [sa|sa| |sa ma ea]; cbn in Ha; try contradiction; subst; [exact Logic.I|reflexivity|].
  unfold fsqrt, SFsqrt. pose proof (sqrt_core_nonneg 24 128 (Z.pos ma) ea) as H.
  destruct (SFsqrt_core_binary 24 128 (Z.pos ma) ea) as [[q e] l]. apply round_aux_nonneg. exact H.
Qed.
Lemma fadd_number a b : (a = S754_nan -> False) -> nonneg b -> a <> S754_infinity true -> fadd a b <> S754_nan.
Proof.
  intros Ha Hb Hi.
  assert (Hsa : forall s, a = S754_infinity s -> s = false) by (intros [] ->; congruence).
  destruct a as [sa|sa| |sa ma ea]; [| |destruct (Ha eq_refl)|]; destruct b as [sb|sb| |sb mb eb]; cbn in Hb; try contradiction;
    unfold fadd, SFadd; try congruence.
  - destruct (Bool.eqb sa sb); congruence.
  - rewrite (Hsa sa eq_refl), Hb. cbn. congruence.
  - apply normalize_number.
Qed.

(** ** quotients of small integers are finite *)
Lemma shr_1_le r : 0 <= shr_m r -> shr_m (shr_1 r) <= shr_m r.
Proof. destruct r as [m rb sb]. cbn. destruct m as [|[m|m|]|[m|m|]]; cbn; lia. Qed.
Lemma iter_shr_le p r : 0 <= shr_m r -> shr_m (SpecFloat.iter_pos shr_1 p r) <= shr_m r.
Proof.
  intros H. rewrite iter_pos_nat. generalize (Pos.to_nat p) as k.
  assert (Hk : forall k, 0 <= shr_m (Nat.iter k shr_1 r) <= shr_m r); [|intros k; apply Hk].
  induction k as [|k IH]; [cbn; lia|]. change (Nat.iter (S k) shr_1 r) with (shr_1 (Nat.iter k shr_1 r)). pose proof (shr_1_nonneg (Nat.iter k shr_1 r) ltac:(lia)).
  pose proof (shr_1_le (Nat.iter k shr_1 r) ltac:(lia)). lia.
Qed.
Lemma shr_fexp_le prec emax m e l : 0 <= m -> shr_m (fst (shr_fexp prec emax m e l)) <= m
  /\ snd (shr_fexp prec emax m e l) = Z.max e (SpecFloat.fexp prec emax (Zdigits2 m + e)).
Proof.
  intros H. unfold shr_fexp, shr. assert (Hr : shr_m (shr_record_of_loc m l) = m) by (destruct l as [|[]]; reflexivity).
  destruct (SpecFloat.fexp prec emax (Zdigits2 m + e) - e) as [|p|p] eqn:E; cbn [fst snd]; try lia.
  pose proof (iter_shr_le p (shr_record_of_loc m l)). split; [lia|]. rewrite <- E. lia.
Qed.
Lemma digits_le m k : 0 <= m < 2 ^ k -> 0 <= k -> Zdigits2 m <= k.
Proof.
  intros H Hk. destruct m as [|p|p]; cbn [Zdigits2]; [exact Hk| |lia]. pose proof (digits_bound p) as Hb.
  destruct (Z_le_gt_dec (Z.pos (digits2_pos p)) k) as [Hle|Hg]; [exact Hle|].
  pose proof (Z.pow_le_mono_r 2 k (Z.pos (digits2_pos p) - 1)). lia.
Qed.
Lemma round_aux_finite s m e l k : 0 <= m < 2 ^ k -> 0 <= k <= 72 -> e <= 30 -> k + e <= 54 -> finite (binary_round_aux 24 128 s m e l).
Proof.
  intros Hm Hk He Hke. pose proof (round_aux_number 24 128 s m e l ltac:(lia)) as Hn. unfold binary_round_aux in *.
  pose proof (shr_fexp_nonneg 24 128 m e l ltac:(lia)) as H1. destruct (shr_fexp_le 24 128 m e l ltac:(lia)) as [H2 H3].
  destruct (shr_fexp 24 128 m e l) as [r1 e1]. cbn [fst snd] in *.
  pose proof (digits_le m k Hm ltac:(lia)) as Hd.
  assert (He1 : e1 <= 30) by (rewrite H3; unfold SpecFloat.fexp, emin; lia).
  set (m1 := round_nearest_even (shr_m r1) (loc_of_shr_record r1)) in *.
  assert (Hm1 : 0 <= m1 <= shr_m r1 + 1).
  { unfold m1. pose proof (round_ne_nonneg (shr_m r1) (loc_of_shr_record r1) H1). split; [assumption|].
    destruct (loc_of_shr_record r1) as [|[]]; cbn; try lia. destruct (Z.even (shr_m r1)); lia. }
  assert (Hd1 : Zdigits2 m1 <= k + 1).
  { apply digits_le; [|lia]. pose proof (Z.pow_add_r 2 k 1 ltac:(lia) ltac:(lia)). pose proof (Z.pow_pos_nonneg 2 k ltac:(lia) ltac:(lia)). lia. }
  destruct (shr_fexp_le 24 128 m1 e1 loc_Exact ltac:(lia)) as [H4 H5]. destruct (shr_fexp 24 128 m1 e1 loc_Exact) as [r2 e2]. cbn [fst snd] in *.
  assert (He2 : e2 <= 104) by (rewrite H5; unfold SpecFloat.fexp, emin; lia).
  destruct (shr_m r2); [exact Logic.I| |exact (Hn eq_refl)].
  replace (e2 <=? 128 - 24) with true by lia. exact Logic.I.
Qed.
Lemma f32_of_Z_canon z : - 2 ^ 24 <= z <= 2 ^ 24 -> z <> 0 ->
  exists m e, f32_of_Z z = S754_finite (z <? 0) m e /\ -23 <= e <= 1 /\ Z.pos (digits2_pos m) = 24.
Proof.
  intros Hz Hz0.
  assert (HP : forall s n, Z.pos n <= 2 ^ 24 -> exists m e, binary_round 24 128 s n 0 = S754_finite s m e
     /\ -23 <= e <= 1 /\ Z.pos (digits2_pos m) = 24).
  { intros s n Hn. exists (cmant n), (Z.pos (digits2_pos n) - 24). split; [apply round_int; lia|].
    destruct (pow24_digits n ltac:(lia)) as [Hd|[Hn24 Hd]].
    - split; [lia|]. unfold cmant. replace (Z.pos (digits2_pos n) <=? 24) with true by lia.
      rewrite (digits_scale n _ (24 - Z.pos (digits2_pos n))); [lia|lia|]. apply Z2Pos.id.
      pose proof (Z.pow_pos_nonneg 2 (24 - Z.pos (digits2_pos n))). nia.
    - split; [lia|]. unfold cmant. rewrite Hd. reflexivity. }
  unfold f32_of_Z. destruct z as [|n|n]; [lia| |]; cbn [binary_normalize]; apply HP; lia.
Qed.
Lemma quotient_finite a b : - 2 ^ 24 <= a <= 2 ^ 24 -> 1 <= b <= 2 ^ 24 -> finite (fdiv (f32_of_Z a) (f32_of_Z b)).
Proof.
  intros Ha Hb. destruct (f32_of_Z_canon b ltac:(lia) ltac:(lia)) as (m2 & e2 & E2 & He2 & Hd2). rewrite E2.
  destruct (Z.eq_dec a 0) as [->|Hne]; [exact Logic.I|]. destruct (f32_of_Z_canon a Ha Hne) as (m1 & e1 & E1 & He1 & Hd1). rewrite E1.
  unfold fdiv, SFdiv. pose proof (div_core_nonneg 24 128 (Z.pos m1) e1 (Z.pos m2) e2 ltac:(lia) ltac:(lia)) as Hq.
  assert (Hc : fst (fst (SFdiv_core_binary 24 128 (Z.pos m1) e1 (Z.pos m2) e2)) < 2 ^ 48 /\ snd (fst (SFdiv_core_binary 24 128 (Z.pos m1) e1 (Z.pos m2) e2)) = e1 - e2 - 24).
  { unfold SFdiv_core_binary. cbn [Zdigits2]. rewrite Hd1, Hd2. rewrite fexp32 by lia. replace (Z.min (24 + e1 - (24 + e2) - 24) (e1 - e2)) with (e1 - e2 - 24) by lia.
    replace (e1 - e2 - (e1 - e2 - 24)) with 24 by lia. rewrite Z.shiftl_mul_pow2 by lia.
    pose proof (digits_bound m1) as Hb1. rewrite Hd1 in Hb1.
    assert (Hqe : Z.pos m1 * 2 ^ 24 / Z.pos m2 <= Z.pos m1 * 2 ^ 24) by (apply Z.div_le_upper_bound; nia).
    unfold Z.div in Hqe. destruct (Z.div_eucl (Z.pos m1 * 2 ^ 24) (Z.pos m2)) as [q r]. cbn [fst snd]. split; [|reflexivity].
    change (2 ^ 48) with (2 ^ 24 * 2 ^ 24). lia. }
  destruct (SFdiv_core_binary 24 128 (Z.pos m1) e1 (Z.pos m2) e2) as [[q e] l]. cbn [fst snd] in *. destruct Hc as [Hc ->].
  apply (round_aux_finite _ q _ l 48); lia.
Qed.
