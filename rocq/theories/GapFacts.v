(** * GapFacts: division, square root and addition in f32 up to a few units in the last place, and
    the distance of two upper confidence bounds. *)
From Verif Require Import Base BaseFacts F32 F32Facts RoundFacts SumFacts NanFacts LogSpec McProof LogProof NumFacts.
Require Import ZifyBool ZifyNat Lia.

(** absolute value and value of a number in units of 2^-149 *)
Definition mag (x : f32) : Z := match x with S754_finite _ m e => Z.pos m * 2 ^ (e + 149) | _ => 0 end.
Definition sval (x : f32) : Z := match x with S754_finite s m e => cond_Zopp s (Z.pos m * 2 ^ (e + 149)) | _ => 0 end.
(** a number *)
Definition plain (x : f32) : Prop := match x with S754_zero _ => True | S754_finite _ m e => -149 <= e | _ => False end.
(** ... in its normal form *)
Definition normal (x : f32) : Prop :=
  match x with S754_zero _ => True | S754_finite _ m e => Z.pos m < 2 ^ 24 /\ -149 <= e /\ (2 ^ 23 <= Z.pos m \/ e = -149) | _ => False end.

Lemma mag_nonneg x : plain x -> 0 <= mag x.
Proof. destruct x as [s|s| |s m e]; cbn [plain mag]; intros H; [lia|lia|lia|]. pose proof (pow2_pos (e + 149) ltac:(lia)). nia. Qed.
Lemma mag_pos s m e : -149 <= e -> 0 < mag (S754_finite s m e).
Proof. intros H. cbn. pose proof (pow2_pos (e + 149) ltac:(lia)). nia. Qed.
Lemma sval_mag x : nonneg x -> sval x = mag x.
Proof. destruct x as [s|s| |s m e]; cbn; intros H; try reflexivity. subst s. reflexivity. Qed.

(** ** rounding *)
Lemma round_faithful s m e l : 0 < m -> -149 <= e -> Zdigits2 m + e <= 100 ->
  exists m3 e3 f k, binary_round_aux 24 128 s m e l = S754_finite s m3 e3 /\ -149 <= e3 /\ Z.pos m3 < 2 ^ 24 /\ (24 <= Zdigits2 m -> 2 ^ 23 <= Z.pos m3)
    /\ 0 <= k /\ k = Z.max 0 (Zdigits2 m - 24) /\ f * 2 ^ k <= m < (f + 1) * 2 ^ k /\ (24 <= Zdigits2 m -> 2 ^ 23 <= f)
    /\ f * (2 ^ k * 2 ^ (e + 149)) <= mag (S754_finite s m3 e3) <= (f + 1) * (2 ^ k * 2 ^ (e + 149))
    /\ (l = loc_Exact -> m = f * 2 ^ k -> mag (S754_finite s m3 e3) = m * 2 ^ (e + 149)).
Proof.
  intros Hm He Hd. destruct (round_aux_spec 24 128 ltac:(lia) s m e l Hm ltac:(unfold emin; lia)) as (m2 & m3 & e3 & Hm2 & Em3 & He3 & Hm3 & Hm3' & ->).
  pose proof (digits2_bound m Hm) as [Hdm Hdp]. set (d := Zdigits2 m) in *. set (k := Z.max 0 (d - 24)) in *.
  pose proof (pow2_pos k ltac:(lia)) as Hpk. pose proof (pow2_pos (e + 149) ltac:(lia)) as Hpe.
  replace (e3 <=? 128 - 24) with true by lia. exists m3, e3, (m / 2 ^ k), k.
  pose proof (Z.div_mod m (2 ^ k) ltac:(lia)) as Hdiv. pose proof (Z.mod_pos_bound m (2 ^ k) Hpk) as Hmod.
  split; [reflexivity|]. split; [lia|]. split; [exact Hm3|]. split; [exact Hm3'|]. split; [lia|]. split; [reflexivity|]. split; [nia|].
  split.
  { intros H24. assert (Ek : k = d - 24) by lia. apply Z.div_le_lower_bound; [lia|]. rewrite <- Z.pow_add_r by lia. replace (k + 23) with (d - 1) by lia. lia. }
  assert (Hmag : mag (S754_finite s m3 e3) = m2 * (2 ^ k * 2 ^ (e + 149))).
  { cbn [mag]. rewrite <- Em3, <- !Z.pow_add_r by lia. rewrite <- Z.mul_assoc, <- Z.pow_add_r by lia. do 2 f_equal. lia. }
  rewrite Hmag. set (W := 2 ^ k * 2 ^ (e + 149)). assert (HW : 0 < W) by (unfold W; nia).
  split; [nia|]. intros Hl Hex. destruct Hm2 as [->|[_ Hn]].
  - unfold W. rewrite Z.mul_assoc. rewrite Hex at 2. reflexivity.
  - exfalso. apply Hn. split; [exact Hl|]. rewrite Hex. apply Z.mod_mul. lia.
Qed.
(** with 24 digits before rounding, the error is one part in 2^23 *)
Lemma round_relative s m e l : 0 < m -> -149 <= e -> Zdigits2 m + e <= 100 -> 24 <= Zdigits2 m ->
  exists m3 e3, binary_round_aux 24 128 s m e l = S754_finite s m3 e3 /\ normal (S754_finite s m3 e3)
    /\ 2 ^ 23 * mag (S754_finite s m3 e3) <= (2 ^ 23 + 1) * (m * 2 ^ (e + 149))
    /\ 2 ^ 23 * ((m + 1) * 2 ^ (e + 149)) <= (2 ^ 23 + 1) * mag (S754_finite s m3 e3).
Proof.
  intros Hm He Hd H24. destruct (round_faithful s m e l Hm He Hd) as (m3 & e3 & f & k & E & He3 & Hm3 & Hm3' & Hk & _ & Hf & Hf23 & Hmag & _).
  exists m3, e3. split; [exact E|]. split; [split; [exact Hm3|split; [exact He3|left; apply Hm3'; exact H24]]|]. specialize (Hf23 H24). set (V := mag _) in *. clearbody V.
  pose proof (pow2_pos k ltac:(lia)) as Hpk. pose proof (pow2_pos (e + 149) ltac:(lia)) as Hpe. set (K := 2 ^ k) in *. set (P := 2 ^ (e + 149)) in *. clearbody K P.
  assert (H1 : f * K * P <= m * P) by nia. assert (H2 : (m + 1) * P <= (f + 1) * K * P) by nia. assert (H3 : 2 ^ 23 * (K * P) <= f * (K * P)) by nia.
  rewrite <- !Z.mul_assoc in *. set (W := K * P) in *. rewrite !Z.mul_add_distr_r in *. clearbody W. nia.
Qed.
Lemma normal_plain x : normal x -> plain x.
Proof. destruct x; cbn; tauto. Qed.
(** a small number at the smallest exponent keeps it *)
Lemma round_sub s m l : 0 <= m < 2 ^ 23 -> normal (binary_round_aux 24 128 s m (-149) l).
Proof.
  intros Hm. assert (Hd : Zdigits2 m <= 23) by (apply digits_le; lia). unfold binary_round_aux, shr_fexp at 1.
  replace (fexp 24 128 (Zdigits2 m + -149) - -149) with 0 by (unfold fexp, emin; lia). cbn [shr]. set (r := shr_record_of_loc m l).
  assert (Hr : shr_m r = m) by (unfold r; destruct l as [|[]]; reflexivity). rewrite Hr.
  set (m1 := round_nearest_even m (loc_of_shr_record r)). assert (Hm1 : 0 <= m1 <= 2 ^ 23) by (unfold m1; destruct (loc_of_shr_record r) as [|[]]; cbn [round_nearest_even]; try lia; destruct (Z.even m); lia).
  assert (Hd1 : Zdigits2 m1 <= 24) by (apply digits_le; lia). unfold shr_fexp. replace (fexp 24 128 (Zdigits2 m1 + -149) - -149) with 0 by (unfold fexp, emin; lia).
  cbn [shr shr_record_of_loc shr_m]. destruct m1 as [|p|p]; [exact Logic.I| |lia]. change (-149 <=? 128 - 24) with true. cbn [normal]. lia.
Qed.
Lemma digits_24 m : 2 ^ 23 <= m -> 24 <= Zdigits2 m.
Proof.
  intros H. pose proof (digits2_bound m ltac:(lia)) as [Hb _]. destruct (Z_le_gt_dec 24 (Zdigits2 m)) as [|Hg]; [assumption|].
  pose proof (Z.pow_le_mono_r 2 (Zdigits2 m) 23 ltac:(lia) ltac:(lia)). lia.
Qed.
Lemma digits_upper m k : 0 < m < 2 ^ k -> Zdigits2 m <= k.
Proof.
  intros H. pose proof (digits2_bound m ltac:(lia)) as [Hb _]. destruct (Z_le_gt_dec (Zdigits2 m) k) as [|Hg]; [assumption|].
  destruct (Z_le_gt_dec 0 k) as [Hk|Hk]; [|rewrite Z.pow_neg_r in H by lia; lia].
  pose proof (Z.pow_le_mono_r 2 k (Zdigits2 m - 1) ltac:(lia) ltac:(lia)). lia.
Qed.

(** ** quotients *)
Lemma round_zero s l : binary_round_aux 24 128 s 0 (-149) l = S754_zero s \/ binary_round_aux 24 128 s 0 (-149) l = S754_finite s 1 (-149).
Proof. destruct l as [|[]]; vm_compute; auto. Qed.
Lemma times_n n V lo hi a : 0 <= n -> 2 ^ 23 * V <= (2 ^ 23 + 1) * lo -> 2 ^ 23 * hi <= (2 ^ 23 + 1) * V -> n * lo <= a -> a < n * hi ->
  2 ^ 23 * (n * V) <= (2 ^ 23 + 1) * a + 2 ^ 23 * n /\ 2 ^ 23 * a <= (2 ^ 23 + 1) * (n * V) + 2 ^ 23 * n.
Proof. intros Hn H1 H2 H3 H4. pose proof (Z.mul_le_mono_nonneg_l _ _ n Hn H1). pose proof (Z.mul_le_mono_nonneg_l _ _ n Hn H2). lia. Qed.
Lemma fdiv_near A n : at_most (2 ^ 24) A -> 1 <= n < 2 ^ 24 ->
  normal (fdiv A (f32_of_Z n)) /\ (nonneg A -> nonneg (fdiv A (f32_of_Z n)))
  /\ 2 ^ 23 * (n * mag (fdiv A (f32_of_Z n))) <= (2 ^ 23 + 1) * mag A + 2 ^ 23 * n
  /\ 2 ^ 23 * mag A <= (2 ^ 23 + 1) * (n * mag (fdiv A (f32_of_Z n))) + 2 ^ 23 * n.
Proof.
  intros HA Hn. destruct (f32_of_Z_form n ltac:(unfold small; lia) ltac:(lia)) as (m2 & e2 & E2 & He2 & Hm2). replace (n <? 0) with false in E2 by lia. rewrite Z.abs_eq in Hm2 by lia. rewrite E2.
  destruct A as [sa|sa| |sa m1 e1]; cbn [at_most] in HA; try contradiction.
  { unfold fdiv, SFdiv. cbn [normal nonneg mag]. split; [exact Logic.I|]. split; [auto|lia]. }
  destruct HA as (Hm1 & He1 & HA). unfold fdiv, SFdiv. replace (xorb sa false) with sa by (destruct sa; reflexivity).
  set (d1 := Zdigits2 (Z.pos m1)). set (d2 := Zdigits2 (Z.pos m2)).
  pose proof (digits2_bound (Z.pos m1) ltac:(lia)) as [Hd1 Hd1p]. pose proof (digits2_bound (Z.pos m2) ltac:(lia)) as [Hd2 Hd2p]. fold d1 in Hd1, Hd1p. fold d2 in Hd2, Hd2p.
  unfold SFdiv_core_binary. fold d1 d2. set (e' := Z.min _ _).
  assert (He' : -149 <= e' /\ e' <= e1 - e2 /\ (e' <= d1 + e1 - (d2 + e2) - 24 \/ e' = -149)) by (unfold e', fexp, emin; lia).
  set (sh := e1 - e2 - e'). assert (Hsh : 0 <= sh) by (unfold sh; lia).
  assert (Em' : (match sh with Z0 => Z.pos m1 | Zpos _ => Z.shiftl (Z.pos m1) sh | Zneg _ => 0 end) = Z.pos m1 * 2 ^ sh).
  { destruct sh as [|p|p] eqn:E; try lia. rewrite Z.shiftl_mul_pow2 by lia. reflexivity. }
  rewrite Em'. set (P := Z.pos m1 * 2 ^ sh).
  pose proof (Z.div_mod P (Z.pos m2) ltac:(lia)) as Hdm. pose proof (Z.mod_pos_bound P (Z.pos m2) ltac:(lia)) as Hmb. unfold Z.div, Z.modulo in Hdm, Hmb.
  destruct (Z.div_eucl P (Z.pos m2)) as [q r]. set (l := new_location _ _). clearbody l.
  pose proof (pow2_pos sh Hsh) as Hps. pose proof (pow2_pos (e' + 149) ltac:(lia)) as Hpe.
  (* q * 2^(e'+149) <= mag A / n < (q+1) * 2^(e'+149) *)
  set (a := mag (S754_finite sa m1 e1)).
  assert (Ha : P * 2 ^ (e' + 149) = a * 2 ^ (- e2)).
  { unfold a, P. cbn [mag]. rewrite <- !Z.mul_assoc, <- !Z.pow_add_r by lia. do 2 f_equal. unfold sh. lia. }
  pose proof (pow2_pos (- e2) ltac:(lia)) as Hp2.
  assert (Hlo : n * (q * 2 ^ (e' + 149)) <= a).
  { apply (Z.mul_le_mono_pos_r _ _ (2 ^ (- e2)) Hp2). rewrite <- Ha.
    replace (n * (q * 2 ^ (e' + 149)) * 2 ^ (- e2)) with (Z.pos m2 * q * 2 ^ (e' + 149)) by (rewrite Hm2; ring). apply Z.mul_le_mono_nonneg_r; lia. }
  assert (Hhi : a < n * ((q + 1) * 2 ^ (e' + 149))).
  { apply (Z.mul_lt_mono_pos_r (2 ^ (- e2)) _ _ Hp2). rewrite <- Ha.
    replace (n * ((q + 1) * 2 ^ (e' + 149)) * 2 ^ (- e2)) with (Z.pos m2 * (q + 1) * 2 ^ (e' + 149)) by (rewrite Hm2; ring). apply Z.mul_lt_mono_pos_r; lia. }
  assert (Hq0 : 0 <= q) by nia.
  assert (Hq24 : 2 ^ 23 <= q \/ e' = -149).
  { destruct He' as (_ & _ & [He'|He']); [left|right; exact He'].
    assert (H : 2 ^ d2 * 2 ^ 23 <= 2 ^ (d1 - 1) * 2 ^ sh) by (rewrite <- !Z.pow_add_r by lia; apply Z.pow_le_mono_r; unfold sh; lia).
    assert (HP : 2 ^ d2 * 2 ^ 23 <= P) by (unfold P; nia). assert (Hqq : 2 ^ 23 < q + 1) by nia. lia. }
  destruct (Z.eq_dec q 0) as [->|Hqn].
  { destruct Hq24 as [Hq|He149]; [lia|]. rewrite He149 in *. change (2 ^ (-149 + 149)) with 1 in *.
    destruct (round_zero sa l) as [E|E]; rewrite E; (split; [cbn [normal]; lia|]); (split; [cbn [nonneg]; auto|]); cbn [mag]; change (2 ^ (-149 + 149)) with 1; lia. }
  assert (Hdq : Zdigits2 q + e' <= 100).
  { assert (Hb : q * 2 ^ (e' + 149) <= 2 ^ 24 * 2 ^ 149) by (clear -Hlo HA Hn Hq0 Hpe; unfold mag in *; nia).
    destruct (Z_le_gt_dec (Zdigits2 q + e') 100) as [|Hg]; [assumption|]. exfalso. pose proof (digits2_bound q ltac:(lia)) as [Hb2 Hb3].
    assert (H : 2 ^ (Zdigits2 q - 1) * 2 ^ (e' + 149) <= 2 ^ 24 * 2 ^ 149) by (pose proof (Z.mul_le_mono_nonneg_r (2 ^ (Zdigits2 q - 1)) q (2 ^ (e' + 149)) ltac:(lia) ltac:(lia)); lia). rewrite <- !Z.pow_add_r in H by lia.
    pose proof (Z.pow_lt_mono_r 2 (24 + 149) (Zdigits2 q - 1 + (e' + 149)) ltac:(lia) ltac:(lia) ltac:(lia)). lia. }
  destruct Hq24 as [Hq23|He149].
  - destruct (round_relative sa q e' l ltac:(lia) ltac:(lia) Hdq (digits_24 q Hq23)) as (m3 & e3 & E & He3 & H1 & H2). rewrite E.
    set (V := mag (S754_finite sa m3 e3)) in *. split; [exact He3|]. split; [auto|]. clearbody V a. set (W := 2 ^ (e' + 149)) in *. clearbody W. exact (times_n n V (q * W) ((q + 1) * W) a ltac:(lia) H1 H2 Hlo Hhi).
  - destruct (round_faithful sa q e' l ltac:(lia) ltac:(lia) Hdq) as (m3 & e3 & f & k & E & He3 & Hm3 & Hm3' & Hk & Ek & Hf & Hf23 & Hmag & _). rewrite E.
    set (V := mag (S754_finite sa m3 e3)) in *. split.
    { destruct (Z_le_gt_dec 24 (Zdigits2 q)) as [H24|H24]; [split; [exact Hm3|split; [exact He3|left; apply Hm3'; exact H24]]|]. rewrite <- E, He149. apply round_sub.
      destruct (Z_lt_le_dec q (2 ^ 23)) as [|Hg]; [lia|]. apply digits_24 in Hg. lia. }
    split; [auto|].
    rewrite He149 in *. change (2 ^ (-149 + 149)) with 1 in *. destruct (Z_le_gt_dec 24 (Zdigits2 q)) as [H24|H24].
    + specialize (Hf23 H24). set (K := 2 ^ k) in *. clearbody V a K. rewrite !Z.mul_1_r in *.
      assert (HfK : 2 ^ 23 * K <= f * K) by (apply Z.mul_le_mono_nonneg_r; [nia|exact Hf23]). assert (HfK2 : (f + 1) * K = f * K + K) by ring. rewrite HfK2 in *. apply (times_n n V q (q + 1) a); [lia|lia|lia|exact Hlo|exact Hhi].
    + replace k with 0 in * by lia. change (2 ^ 0) with 1 in *. clearbody V a. rewrite !Z.mul_1_r in *. assert (f = q) by lia. subst f. split; [pose proof (Z.mul_le_mono_nonneg_l V (q + 1) n ltac:(lia) ltac:(lia))|pose proof (Z.mul_le_mono_nonneg_l q V n ltac:(lia) ltac:(lia))]; lia.
Qed.

(** ** square roots *)
Lemma fsqrt_near a : plain a -> nonneg a -> mag a <= 2 ^ 200 ->
  normal (fsqrt a) /\ nonneg (fsqrt a)
  /\ 2 ^ 46 * (mag (fsqrt a) * mag (fsqrt a)) <= (2 ^ 23 + 1) * (2 ^ 23 + 1) * (mag a * 2 ^ 149)
  /\ 2 ^ 46 * (mag a * 2 ^ 149) <= (2 ^ 23 + 1) * (2 ^ 23 + 1) * (mag (fsqrt a) * mag (fsqrt a)).
Proof.
  intros Hp Hn Hb. destruct a as [s|s| |s m e]; cbn [plain nonneg] in Hp, Hn; try contradiction.
  { cbn [fsqrt SFsqrt normal nonneg mag]. split; [exact Logic.I|]. split; [exact Logic.I|lia]. }
  subst s. unfold fsqrt, SFsqrt, SFsqrt_core_binary. set (d := Zdigits2 (Z.pos m)). pose proof (digits2_bound (Z.pos m) ltac:(lia)) as [Hd Hdp]. fold d in Hd, Hdp.
  set (e' := Z.min _ _).
  assert (He' : -149 <= e' /\ 2 * e' <= e /\ 2 * e' <= d + e + 1 - 48).
  { unfold e'. rewrite !Z.div2_div. pose proof (Z.div_mod e 2 ltac:(lia)). pose proof (Z.mod_pos_bound e 2 ltac:(lia)).
    pose proof (Z.div_mod (d + e + 1) 2 ltac:(lia)). pose proof (Z.mod_pos_bound (d + e + 1) 2 ltac:(lia)). unfold fexp, emin. lia. }
  set (s := e - 2 * e') in *.
  assert (Hm' : match s with Z.pos _ => Z.shiftl (Z.pos m) s | 0 => Z.pos m | Z.neg _ => 0 end = Z.pos m * 2 ^ s).
  { destruct s as [|p|p] eqn:Es; [rewrite Z.mul_1_r; reflexivity|rewrite Z.shiftl_mul_pow2 by lia; reflexivity|unfold s in Es; lia]. }
  rewrite Hm'. pose proof (pow2_pos s ltac:(unfold s; lia)) as Hps. set (M := Z.pos m * 2 ^ s).
  assert (HM : 0 <= M) by (unfold M; nia).
  pose proof (Z.sqrt_spec M HM) as Hsq. pose proof (Z.sqrt_nonneg M) as Hs0. rewrite <- Z.sqrtrem_sqrt in Hsq, Hs0.
  destruct (Z.sqrtrem M) as [q r]. cbn [fst snd] in *. cbv beta iota zeta. match goal with |- context [binary_round_aux 24 128 false q e' ?x] => generalize x; intros l end.
  assert (HM46 : 2 ^ 46 <= M).
  { assert (H : 2 ^ 46 <= 2 ^ (d - 1) * 2 ^ s) by (rewrite <- Z.pow_add_r by (unfold s; lia); apply Z.pow_le_mono_r; unfold s; lia). unfold M. nia. }
  assert (Hq23 : 2 ^ 23 <= q).
  { destruct (Z_le_gt_dec (2 ^ 23) q) as [|Hg]; [assumption|]. exfalso. assert (Hq1 : q + 1 <= 2 ^ 23) by lia. pose proof (Z.square_le_mono_nonneg (q + 1) (2 ^ 23) ltac:(lia) Hq1). unfold Z.succ in Hsq. lia. }
  set (a := mag (S754_finite false m e)) in *. set (P := 2 ^ (e' + 149)). pose proof (pow2_pos (e' + 149) ltac:(lia)) as HP. fold P in HP.
  assert (Ha : M * (P * P) = a * 2 ^ 149).
  { unfold a, M, P. cbn [mag]. rewrite <- !Z.mul_assoc, <- !Z.pow_add_r by (unfold s; lia). do 2 f_equal. unfold s. lia. }
  assert (Hlo : (q * P) * (q * P) <= a * 2 ^ 149) by (rewrite <- Ha; replace (q * P * (q * P)) with (q * q * (P * P)) by ring; apply Z.mul_le_mono_nonneg_r; [nia|lia]).
  assert (Hhi : a * 2 ^ 149 <= ((q + 1) * P) * ((q + 1) * P)) by (rewrite <- Ha; replace ((q + 1) * P * ((q + 1) * P)) with (Z.succ q * Z.succ q * (P * P)) by (unfold Z.succ; ring); apply Z.mul_le_mono_nonneg_r; [nia|lia]).
  assert (Hdq : Zdigits2 q + e' <= 100).
  { destruct (Z_le_gt_dec (Zdigits2 q + e') 100) as [|Hg]; [assumption|]. exfalso. pose proof (digits2_bound q ltac:(lia)) as [Hb2 Hb3].
    assert (H : 2 ^ 200 <= q * P).
    { assert (H1 : 2 ^ (Zdigits2 q - 1) * P <= q * P) by (apply Z.mul_le_mono_nonneg_r; lia). unfold P in H1 at 1. rewrite <- Z.pow_add_r in H1 by lia.
      pose proof (Z.pow_le_mono_r 2 200 (Zdigits2 q - 1 + (e' + 149)) ltac:(lia) ltac:(lia)). lia. }
    pose proof (Z.square_le_mono_nonneg (2 ^ 200) (q * P) ltac:(lia) H). lia. }
  destruct (round_relative false q e' l ltac:(lia) ltac:(lia) Hdq (digits_24 q Hq23)) as (m3 & e3 & E & He3 & H1 & H2). rewrite E. fold P in H1, H2.
  split; [exact He3|]. split; [reflexivity|].
  set (V := mag (S754_finite false m3 e3)) in *. assert (HV : 0 < V) by (apply mag_pos; exact (proj1 (proj2 He3))). clearbody V a. set (X := q * P) in *. set (Y := (q + 1) * P) in *.
  assert (HX : 0 <= X) by (unfold X; nia). assert (HY : 0 <= Y) by (unfold Y; nia). clearbody X Y. change (2 ^ 46) with (2 ^ 23 * 2 ^ 23). split.
  - pose proof (Z.square_le_mono_nonneg (2 ^ 23 * V) ((2 ^ 23 + 1) * X) ltac:(lia) H1) as H. replace (2 ^ 23 * V * (2 ^ 23 * V)) with (2 ^ 23 * 2 ^ 23 * (V * V)) in H by ring.
    replace ((2 ^ 23 + 1) * X * ((2 ^ 23 + 1) * X)) with ((2 ^ 23 + 1) * (2 ^ 23 + 1) * (X * X)) in H by ring. lia.
  - pose proof (Z.square_le_mono_nonneg (2 ^ 23 * Y) ((2 ^ 23 + 1) * V) ltac:(lia) H2) as H. replace (2 ^ 23 * Y * (2 ^ 23 * Y)) with (2 ^ 23 * 2 ^ 23 * (Y * Y)) in H by ring.
    replace ((2 ^ 23 + 1) * V * ((2 ^ 23 + 1) * V)) with ((2 ^ 23 + 1) * (2 ^ 23 + 1) * (V * V)) in H by ring. lia.
Qed.

(** ** sums: rounding does not cross a multiple of 2^-20 *)
Lemma round_grid s M e g : -149 <= e -> Z.pos M * 2 ^ (e + 149) < 2 ^ 153 -> let x := binary_round 24 128 s M e in
  normal x /\ sval x = cond_Zopp s (mag x) /\ (Z.pos M * 2 ^ (e + 149) <= g * 2 ^ 129 -> mag x <= g * 2 ^ 129) /\ (g * 2 ^ 129 <= Z.pos M * 2 ^ (e + 149) -> g * 2 ^ 129 <= mag x).
Proof.
  intros He HM. cbv zeta. unfold binary_round. set (t := fexp 24 128 (Z.pos (digits2_pos M) + e)).
  assert (Ht : -149 <= t) by (unfold t, fexp, emin; lia).
  assert (Hal : exists m0 e0, shl_align M e t = (m0, e0) /\ -149 <= e0 /\ Z.pos m0 * 2 ^ (e0 + 149) = Z.pos M * 2 ^ (e + 149) /\ (24 <= Zdigits2 (Z.pos m0) \/ e0 = -149)).
  { unfold shl_align. destruct (t - e) as [|z|z] eqn:Ez.
    - exists M, e. cbn [Zdigits2]. split; [reflexivity|]. split; [lia|]. split; [reflexivity|]. unfold t, fexp, emin in Ez. lia.
    - exists M, e. cbn [Zdigits2]. split; [reflexivity|]. split; [lia|]. split; [reflexivity|]. unfold t, fexp, emin in Ez. lia.
    - exists (shift_pos z M), t. split; [reflexivity|]. split; [lia|].
      split; [rewrite shift_pos_eq, <- Z.mul_assoc, <- Z.pow_add_r by lia; do 2 f_equal; lia|].
      cbn [Zdigits2]. rewrite (digits_scale M _ (Z.pos z) ltac:(lia) (shift_pos_eq z M)). unfold t, fexp, emin in *. lia. }
  destruct Hal as (m0 & e0 & -> & He0 & Hv0 & Hc). rewrite <- Hv0 in *. clear Hv0 t Ht.
  pose proof (pow2_pos (e0 + 149) ltac:(lia)) as Hpe. pose proof (digits2_bound (Z.pos m0) ltac:(lia)) as [Hd Hd0].
  assert (Hdm : Zdigits2 (Z.pos m0) + e0 <= 4).
  { destruct (Z_le_gt_dec (Zdigits2 (Z.pos m0) + e0) 4) as [|Hg]; [assumption|]. exfalso.
    assert (H : 2 ^ (Zdigits2 (Z.pos m0) - 1) * 2 ^ (e0 + 149) < 2 ^ 153) by nia. rewrite <- Z.pow_add_r in H by lia.
    pose proof (Z.pow_le_mono_r 2 153 (Zdigits2 (Z.pos m0) - 1 + (e0 + 149)) ltac:(lia) ltac:(lia)). lia. }
  destruct (round_faithful s (Z.pos m0) e0 loc_Exact ltac:(lia) He0 ltac:(lia)) as (m3 & e3 & f & k & E & He3 & Hm3 & Hm3' & Hk & Ek & Hf & Hf23 & Hmag & Hex). rewrite E.
  split.
  { cbn [normal]. split; [exact Hm3|]. split; [exact He3|]. destruct Hc as [Hc|Hc]; [left; apply Hm3'; exact Hc|].
    destruct (Z_le_gt_dec 24 (Zdigits2 (Z.pos m0))) as [H24|H24]; [left; apply Hm3'; exact H24|]. right.
    assert (Es : binary_round_aux 24 128 s (Z.pos m0) e0 loc_Exact = S754_finite s m0 e0) by (apply round_aux_canon; cbn [Zdigits2] in H24; unfold fexp, emin; lia).
    rewrite Es in E. injection E as <- <-. exact Hc. }
  split; [reflexivity|]. set (V := mag _) in *. set (m := Z.pos m0) in *. clearbody V.
  destruct (Z.eq_dec k 0) as [Hk0|Hk0].
  { assert (HV : V = m * 2 ^ (e0 + 149)) by (apply Hex; [reflexivity|]; rewrite Hk0 in Hf |- *; change (2 ^ 0) with 1 in *; lia). rewrite HV. auto. }
  assert (Hw : 2 ^ 129 = 2 ^ (-20 - k - e0) * (2 ^ k * 2 ^ (e0 + 149))) by (rewrite <- !Z.pow_add_r by lia; f_equal; lia).
  rewrite Hw. rewrite !Z.mul_assoc, <- (Z.mul_assoc _ (2 ^ k)). set (c := g * 2 ^ (-20 - k - e0)). pose proof (pow2_pos k ltac:(lia)) as Hpk. clearbody c.
  set (K := 2 ^ k) in *. set (P := 2 ^ (e0 + 149)) in *. clearbody K P m. split; intros H.
  - assert (Hc2 : m <= c * K) by (rewrite Z.mul_assoc in H; exact (proj2 (Z.mul_le_mono_pos_r _ _ _ Hpe) H)).
    destruct (Z.eq_dec m (f * K)) as [Em|Em]; [rewrite (Hex eq_refl Em); exact H|].
    assert (Hfc : f < c) by (apply (Z.mul_lt_mono_pos_r K _ _ Hpk); lia). pose proof (Z.mul_le_mono_nonneg_r (f + 1) c (K * P) ltac:(nia) ltac:(lia)). lia.
  - assert (Hc2 : c * K <= m) by (rewrite Z.mul_assoc in H; exact (proj2 (Z.mul_le_mono_pos_r _ _ _ Hpe) H)).
    assert (Hfc : c < f + 1) by (apply (Z.mul_lt_mono_pos_r K _ _ Hpk); lia). pose proof (Z.mul_le_mono_nonneg_r c f (K * P) ltac:(nia) ltac:(lia)). lia.
Qed.
Lemma sval_cond s m e : sval (S754_finite s m e) = cond_Zopp s (mag (S754_finite s m e)).
Proof. reflexivity. Qed.
Lemma fadd_grid x y g : normal x -> normal y -> Z.abs (sval x + sval y) < 2 ^ 153 ->
  normal (fadd x y) /\ (sval x + sval y <= g * 2 ^ 129 -> sval (fadd x y) <= g * 2 ^ 129) /\ (g * 2 ^ 129 <= sval x + sval y -> g * 2 ^ 129 <= sval (fadd x y)).
Proof.
  intros Hx Hy HS. destruct x as [sx|sx| |sx mx ex], y as [sy|sy| |sy my ey]; cbn [normal] in Hx, Hy; try contradiction; unfold fadd, SFadd.
  - destruct (Bool.eqb sx sy); cbn [normal sval]; (split; [exact Logic.I|]); cbn [sval] in HS |- *; lia.
  - split; [exact Hy|]. change (sval (S754_zero sx)) with 0 in *. rewrite Z.add_0_l in *. auto.
  - split; [exact Hx|]. change (sval (S754_zero sy)) with 0 in *. rewrite Z.add_0_r in *. auto.
  - set (ez := Z.min ex ey). rewrite !shl_min by (unfold ez; lia). destruct Hx as (_ & Hex & _), Hy as (_ & Hey & _).
    set (A := cond_Zopp sx (Z.pos mx * 2 ^ (ex - ez))). set (B := cond_Zopp sy (Z.pos my * 2 ^ (ey - ez))).
    assert (HA : sval (S754_finite sx mx ex) = A * 2 ^ (ez + 149)).
    { unfold A. cbn [sval]. replace (2 ^ (ex + 149)) with (2 ^ (ex - ez) * 2 ^ (ez + 149)) by (rewrite <- Z.pow_add_r by (unfold ez; lia); f_equal; lia). destruct sx; cbn [cond_Zopp]; ring. }
    assert (HB : sval (S754_finite sy my ey) = B * 2 ^ (ez + 149)).
    { unfold B. cbn [sval]. replace (2 ^ (ey + 149)) with (2 ^ (ey - ez) * 2 ^ (ez + 149)) by (rewrite <- Z.pow_add_r by (unfold ez; lia); f_equal; lia). destruct sy; cbn [cond_Zopp]; ring. }
    rewrite HA, HB, <- Z.mul_add_distr_r in *. assert (Hez : -149 <= ez) by (unfold ez; lia). pose proof (pow2_pos (ez + 149) ltac:(lia)) as Hpz. clear HA HB. set (S := A + B) in *. clearbody S.
    destruct S as [|p|p]; cbn [binary_normalize].
    + cbn [normal sval]. split; [exact Logic.I|lia].
    + rewrite Z.abs_eq in HS by nia. destruct (round_grid false p ez g Hez HS) as (H1 & H2 & H3 & H4). rewrite H2. cbn [cond_Zopp]. auto.
    + replace (Z.abs (Z.neg p * 2 ^ (ez + 149))) with (Z.pos p * 2 ^ (ez + 149)) in HS by nia. destruct (round_grid true p ez (- g) Hez HS) as (H1 & H2 & H3 & H4). rewrite H2. cbn [cond_Zopp].
      split; [exact H1|]. split; intros H; [assert (- g * 2 ^ 129 <= Z.pos p * 2 ^ (ez + 149)) by lia|assert (Z.pos p * 2 ^ (ez + 149) <= - g * 2 ^ 129) by lia]; lia.
Qed.
(** comparing numbers in normal form *)
Lemma mag_lt m e n f : Z.pos m < 2 ^ 24 -> -149 <= e -> -149 <= f -> (2 ^ 23 <= Z.pos n \/ f = -149) -> e < f -> Z.pos m * 2 ^ (e + 149) < Z.pos n * 2 ^ (f + 149).
Proof.
  intros Hm He Hf Hn Hef. destruct Hn as [Hn|Hn]; [|lia]. pose proof (pow2_pos (e + 149) ltac:(lia)) as Hp.
  pose proof (Z.pow_le_mono_r 2 (e + 149 + 1) (f + 149) ltac:(lia) ltac:(lia)) as H. rewrite Z.pow_add_r in H by lia. change (2 ^ 1) with 2 in H. nia.
Qed.
Lemma normal_ltb x y : normal x -> normal y -> sval x < sval y -> SFltb x y = true.
Proof.
  intros Hx Hy H. destruct x as [sx|sx| |sx mx ex], y as [sy|sy| |sy my ey]; cbn [normal] in Hx, Hy; try contradiction; cbn [sval] in H.
  - lia.
  - destruct sy; [|reflexivity]. cbn [cond_Zopp] in H. pose proof (pow2_pos (ey + 149) ltac:(lia)). nia.
  - destruct sx; [reflexivity|]. cbn [cond_Zopp] in H. pose proof (pow2_pos (ex + 149) ltac:(lia)). nia.
  - destruct Hx as (Hmx & Hex & Hnx), Hy as (Hmy & Hey & Hny). pose proof (pow2_pos (ex + 149) ltac:(lia)). pose proof (pow2_pos (ey + 149) ltac:(lia)).
    destruct sx, sy; cbn [cond_Zopp] in H; [|reflexivity|nia|]; unfold SFltb, SFcompare; change (Pos.compare_cont Eq mx my) with (Pos.compare mx my).
    + destruct (Z.compare_spec ex ey) as [E|E|E]; [|exfalso; pose proof (mag_lt mx ex my ey Hmx Hex Hey Hny E); lia|reflexivity].
      subst ey. destruct (Pos.compare_spec mx my) as [E|E|E]; [subst; lia|nia|reflexivity].
    + destruct (Z.compare_spec ex ey) as [E|E|E]; [|reflexivity|exfalso; pose proof (mag_lt my ey mx ex Hmy Hey Hex Hnx E); lia].
      subst ey. destruct (Pos.compare_spec mx my) as [E|E|E]; [subst; lia|reflexivity|nia].
Qed.
(** sums at least 2^-19 apart stay apart *)
Lemma fadd_gap x y x' y' : normal x -> normal y -> normal x' -> normal y' -> Z.abs (sval x + sval y) < 2 ^ 153 -> Z.abs (sval x' + sval y') < 2 ^ 153 ->
  sval x + sval y + 2 ^ 130 <= sval x' + sval y' -> SFltb (fadd x y) (fadd x' y') = true.
Proof.
  intros Hx Hy Hx' Hy' HS HS' Hgap. set (S := sval x + sval y) in *. set (S' := sval x' + sval y') in *.
  pose proof (Z.div_mod (- S) (2 ^ 129) ltac:(lia)) as Hd. pose proof (Z.mod_pos_bound (- S) (2 ^ 129) ltac:(lia)) as Hm. set (g := - (- S / 2 ^ 129)).
  assert (H1 : S <= g * 2 ^ 129 < S + 2 ^ 129) by (unfold g; lia).
  destruct (fadd_grid x y g Hx Hy HS) as (N1 & U1 & _). destruct (fadd_grid x' y' (g + 1) Hx' Hy' HS') as (N2 & _ & L2).
  fold S in U1. fold S' in L2. change (2 ^ 130) with (2 * 2 ^ 129) in Hgap. specialize (U1 ltac:(lia)). specialize (L2 ltac:(lia)). apply normal_ltb; [exact N1|exact N2|lia].
Qed.

(** ** two square roots of neighbouring quotients *)
Lemma root_gap a V1 V2 E1 E2 n U : 1 <= n < 2 ^ 14 -> 2 ^ 100 <= U -> 0 <= a -> 0 <= V1 -> 0 <= V2 -> 0 <= E1 -> 0 <= E2 ->
  2 ^ 46 * (E1 * E1) <= (2 ^ 23 + 1) * (2 ^ 23 + 1) * (V1 * U) -> 2 ^ 23 * (n * V1) <= (2 ^ 23 + 1) * a + 2 ^ 23 * n ->
  2 ^ 46 * (E2 * E2) <= (2 ^ 23 + 1) * (2 ^ 23 + 1) * (V2 * U) -> 2 ^ 46 * (V2 * U) <= (2 ^ 23 + 1) * (2 ^ 23 + 1) * (E2 * E2) ->
  2 ^ 23 * ((n + 1) * V2) <= (2 ^ 23 + 1) * a + 2 ^ 23 * (n + 1) -> 2 ^ 23 * a <= (2 ^ 23 + 1) * ((n + 1) * V2) + 2 ^ 23 * (n + 1) ->
  a <= 3 * ((n + 1) * U) -> 16 * (n * (E1 - E2)) < 15 * U.
Proof.
  intros Hn HU Ha HV1 HV2 HE1 HE2 H1 H2 H3 H4 H5 H6 H7. destruct (Z_lt_le_dec (16 * (n * (E1 - E2))) (15 * U)) as [|Hg]; [assumption|exfalso].
  set (h := 2 ^ 23) in *. change (2 ^ 46) with (h * h) in *.
  (* the upper bound of E1^2 *)
  pose proof (Z.mul_le_mono_nonneg_l _ _ n ltac:(lia) H1) as K1. pose proof (Z.mul_le_mono_nonneg_l _ _ U ltac:(lia) H2) as K2.
  pose proof (Z.mul_le_mono_nonneg_l _ _ (n + 1) ltac:(lia) H4) as K4. pose proof (Z.mul_le_mono_nonneg_l _ _ U ltac:(lia) H6) as K6.
  set (X1 := n * (E1 * E1)) in *. set (X2 := n * (E2 * E2)) in *. set (Y := E2 * E2) in *. set (W := n * U).
  set (T1 := n * (V1 * U)). set (T2 := (n + 1) * (V2 * U)). set (aU := a * U).
  assert (L1 : h * h * X1 <= (h + 1) * (h + 1) * T1) by (unfold X1, T1; lia).
  assert (L2 : h * T1 <= (h + 1) * aU + h * W) by (unfold T1, aU, W; lia).
  assert (L4 : h * h * T2 <= (h + 1) * (h + 1) * (X2 + Y)) by (unfold T2, X2, Y; lia).
  assert (L6 : h * aU <= (h + 1) * T2 + h * (W + U)) by (unfold T2, aU, W; lia).
  assert (HY : 0 <= Y) by (unfold Y; apply Z.mul_nonneg_nonneg; assumption).
  assert (HX2 : X2 <= 2 ^ 14 * Y) by (unfold X2; apply Z.mul_le_mono_nonneg_r; [exact HY|lia]).
  assert (HW : U <= W <= 2 ^ 14 * U) by (unfold W; split; [pose proof (Z.mul_le_mono_nonneg_r 1 n U ltac:(lia) ltac:(lia)); lia|apply Z.mul_le_mono_nonneg_r; lia]).
  assert (M : 50 * X1 <= 50 * X2 + 51 * Y + 200 * W).
  { clear -L1 L2 L4 L6 HY HX2 HW. clearbody X1 X2 Y W T1 T2 aU. unfold h in *. clear h. lia. }
  (* the lower bound of E1^2 - E2^2 *)
  set (d := E1 - E2) in *. assert (HX1 : X1 = X2 + n * d * (2 * E2 + d)) by (unfold X1, X2, Y, d; ring).
  assert (Hd : 0 < d) by (destruct (Z_le_gt_dec d 0) as [Hd0|]; [pose proof (Z.mul_nonneg_nonpos n d ltac:(lia) Hd0); lia|lia]).
  assert (Hnd : 15 * (U * (2 * E2 + d)) <= 16 * (n * d * (2 * E2 + d))) by (pose proof (Z.mul_le_mono_nonneg_r _ _ (2 * E2 + d) ltac:(lia) Hg); lia).
  assert (HdU : 15 * U <= 2 ^ 18 * d) by (pose proof (Z.mul_le_mono_nonneg_r n (2 ^ 14) d ltac:(lia) ltac:(lia)); lia).
  assert (HUd : 2 ^ 40 * U <= U * d) by (rewrite (Z.mul_comm (2 ^ 40)); apply Z.mul_le_mono_nonneg_l; lia).
  assert (Hmain : 93 * (U * E2) < 51 * Y) by lia.
  assert (HE2U : 93 * U < 51 * E2) by (destruct (Z_lt_le_dec (93 * U) (51 * E2)) as [|Hle]; [assumption|]; pose proof (Z.mul_le_mono_nonneg_r _ _ E2 HE2 Hle); unfold Y in Hmain; lia).
  (* but E2 is small *)
  pose proof (Z.mul_le_mono_nonneg_l _ _ h ltac:(unfold h; lia) H7) as K7.
  assert (HV : h * V2 <= (h + 1) * (3 * U) + h).
  { apply (Z.mul_le_mono_pos_l _ _ (n + 1)); [lia|]. unfold h in *. clear h. lia. }
  pose proof (Z.mul_le_mono_nonneg_l _ _ U ltac:(lia) HV) as KV. assert (HUU : 2 ^ 100 * U <= U * U) by (apply Z.mul_le_mono_nonneg_r; lia).
  assert (HY2 : 100 * Y <= 301 * (U * U)) by (set (VU := V2 * U) in *; set (UU := U * U) in *; clear -H3 KV HUU HU; assert (h * VU <= (h + 1) * (3 * UU) + h * U) by (unfold VU, UU; lia); clearbody VU UU Y; unfold h in *; clear h; lia).
  pose proof (Z.square_le_mono_nonneg (93 * U) (51 * E2) ltac:(lia) ltac:(lia)) as Hsq. unfold Y in HY2. lia.
Qed.

(** ** two confidence bounds *)
Lemma f32_of_Z_mag z : - 2 ^ 24 < z < 2 ^ 24 -> at_most (2 ^ 24) (f32_of_Z z) /\ mag (f32_of_Z z) = Z.abs z * 2 ^ 149 /\ (0 <= z -> nonneg (f32_of_Z z)).
Proof.
  intros Hz. destruct (Z.eq_dec z 0) as [->|Hz0]; [cbn; split; [exact Logic.I|split; [lia|auto]]|].
  destruct (f32_of_Z_canon z ltac:(lia) Hz0) as (m' & e' & E' & He' & Hd').
  destruct (f32_of_Z_form z ltac:(unfold small; lia) Hz0) as (m & e & E & He & Hm). rewrite E in *. injection E' as <- <-.
  assert (Hmag : mag (S754_finite (z <? 0) m e) = Z.abs z * 2 ^ 149).
  { cbn [mag]. rewrite Hm, <- Z.mul_assoc, <- Z.pow_add_r by lia. do 2 f_equal. lia. }
  split; [|split; [exact Hmag|intros H; cbn [nonneg]; lia]]. cbn [at_most]. cbn [mag] in Hmag. rewrite Hmag. pose proof (digits_bound m) as Hb. rewrite Hd' in Hb. split; [lia|]. split; [lia|].
  apply Z.mul_le_mono_nonneg_r; lia.
Qed.
Lemma round_neg m e l : sval (binary_round_aux 24 128 true m e l) <= 0.
Proof.
  unfold binary_round_aux. destruct (shr_fexp 24 128 m e l) as [r1 e1]. destruct (shr_fexp 24 128 _ e1 loc_Exact) as [r2 e2].
  destruct (shr_m r2) as [|p|p]; [cbn; lia| |cbn; lia]. destruct (e2 <=? 128 - 24); [|cbn; lia]. cbn [sval cond_Zopp]. pose proof (Z.pow_nonneg 2 (e2 + 149)). nia.
Qed.
Lemma fdiv_neg a n : - 2 ^ 24 < a < 0 -> 1 <= n < 2 ^ 24 -> sval (fdiv (f32_of_Z a) (f32_of_Z n)) <= 0.
Proof.
  intros Ha Hn. destruct (f32_of_Z_form a ltac:(unfold small; lia) ltac:(lia)) as (m & e & -> & _). destruct (f32_of_Z_form n ltac:(unfold small; lia) ltac:(lia)) as (m2 & e2 & -> & _).
  replace (a <? 0) with true by lia. replace (n <? 0) with false by lia. unfold fdiv, SFdiv. destruct (SFdiv_core_binary 24 128 (Z.pos m) e (Z.pos m2) e2) as [[q e'] l]. apply round_neg.
Qed.
(** the mean of [n] results with sum [v] *)
Lemma mean_near v n : - n <= v <= n -> 1 <= n <= 2 ^ 14 -> let q := fdiv (f32_of_Z v) (f32_of_Z n) in
  normal q /\ Z.abs (sval q) <= 2 * 2 ^ 149 /\ 2 ^ 23 * (n * sval q) <= (2 ^ 23 + 1) * (Z.max v 0 * 2 ^ 149) + 2 ^ 23 * n
  /\ (0 <= v -> 2 ^ 23 * (v * 2 ^ 149) <= (2 ^ 23 + 1) * (n * sval q) + 2 ^ 23 * n).
Proof.
  intros Hv Hn. cbv zeta. destruct (f32_of_Z_mag v ltac:(lia)) as (H1 & H2 & H3). destruct (fdiv_near (f32_of_Z v) n H1 ltac:(lia)) as (N & NN & U & L). rewrite H2 in U, L.
  set (q := fdiv _ _) in *. pose proof (mag_nonneg q (normal_plain _ N)) as Hq.
  assert (Habs : Z.abs (sval q) <= mag q) by (destruct q as [s|s| |s m e]; cbn [sval mag] in *; try lia; destruct s; cbn [cond_Zopp]; lia).
  assert (Hb : mag q <= 2 * 2 ^ 149).
  { apply (Z.mul_le_mono_pos_l _ _ n); [lia|]. assert (Hvn : Z.abs v * 2 ^ 149 <= n * 2 ^ 149) by (apply Z.mul_le_mono_nonneg_r; lia). lia. }
  split; [exact N|]. split; [lia|]. destruct (Z_lt_le_dec v 0) as [Hneg|Hpos].
  - pose proof (fdiv_neg v n ltac:(lia) ltac:(lia)) as Hs. fold q in Hs. split; [|lia]. pose proof (Z.mul_nonneg_nonpos n (sval q) ltac:(lia) Hs). rewrite Z.max_r by lia. lia.
  - rewrite (sval_mag q (NN (H3 Hpos))). rewrite Z.max_l by lia. rewrite Z.abs_eq in U, L by lia. split; [exact U|intros _; exact L].
Qed.
(** the bonus of a node with [n] visits *)
Lemma bonus_near A B n : nonneg A -> at_most B A -> 0 <= B <= 48 -> 1 <= n <= 2 ^ 14 -> let V := mag (fdiv A (f32_of_Z n)) in let b := fsqrt (fdiv A (f32_of_Z n)) in
  normal b /\ 0 <= sval b <= 8 * 2 ^ 149 /\ 0 <= V /\ 0 <= mag A <= B * 2 ^ 149
  /\ 2 ^ 23 * (n * V) <= (2 ^ 23 + 1) * mag A + 2 ^ 23 * n /\ 2 ^ 23 * mag A <= (2 ^ 23 + 1) * (n * V) + 2 ^ 23 * n
  /\ 2 ^ 46 * (sval b * sval b) <= (2 ^ 23 + 1) * (2 ^ 23 + 1) * (V * 2 ^ 149) /\ 2 ^ 46 * (V * 2 ^ 149) <= (2 ^ 23 + 1) * (2 ^ 23 + 1) * (sval b * sval b).
Proof.
  intros HA HB Hb Hn. cbv zeta.
  assert (HmA : 0 <= mag A <= B * 2 ^ 149).
  { destruct A as [s|s| |s m e]; cbn [at_most mag] in *; try lia. }
  assert (HB24 : at_most (2 ^ 24) A) by (destruct A as [s|s| |s m e]; cbn [at_most mag] in *; try tauto; lia).
  destruct (fdiv_near A n HB24 ltac:(lia)) as (N & NN & U & L). specialize (NN HA). set (q := fdiv _ _) in *. pose proof (mag_nonneg q (normal_plain _ N)) as Hq.
  assert (Hq49 : mag q <= 49 * 2 ^ 149).
  { apply (Z.mul_le_mono_pos_l _ _ n); [lia|]. lia. }
  destruct (fsqrt_near q (normal_plain _ N) NN ltac:(lia)) as (N2 & NN2 & U2 & L2). pose proof (mag_nonneg _ (normal_plain _ N2)) as Hs. rewrite (sval_mag _ NN2) in *. set (V := mag q) in *. set (E := mag (fsqrt q)) in *.
  assert (HE : E <= 8 * 2 ^ 149).
  { destruct (Z_le_gt_dec E (8 * 2 ^ 149)) as [|Hg]; [assumption|exfalso]. pose proof (Z.square_le_mono_nonneg (8 * 2 ^ 149) E ltac:(lia) ltac:(lia)) as Hsq. clearbody V E. lia. }
  repeat (split; [first [exact N2|exact U|exact L|exact U2|lia]|]). exact L2.
Qed.
Lemma score_gap A B n n' v : nonneg A -> at_most B A -> 0 <= B <= 48 -> 1 <= n' -> n <= 2 ^ 14 -> - n' <= v < n' -> (n' = n \/ (n = n' + 1 /\ B <= 3 * n)) ->
  SFltb (fadd (fdiv (f32_of_Z v) (f32_of_Z n')) (fsqrt (fdiv A (f32_of_Z n')))) (fadd (fdiv (f32_of_Z n) (f32_of_Z n)) (fsqrt (fdiv A (f32_of_Z n)))) = true.
Proof.
  intros HA HB Hb Hn' Hn Hv Hnn.
  destruct (mean_near v n' ltac:(lia) ltac:(lia)) as (Nx & Ax & Ux & _). destruct (mean_near n n ltac:(lia) ltac:(lia)) as (Nw & Aw & _ & Lw). specialize (Lw ltac:(lia)).
  destruct (bonus_near A B n' HA HB Hb ltac:(lia)) as (N1 & R1 & P1 & a1 & B1 & C1 & D1 & F1). destruct (bonus_near A B n HA HB Hb ltac:(lia)) as (N2 & R2 & P2 & _ & B2 & C2 & D2 & F2).
  set (qx := fdiv (f32_of_Z v) _) in *. set (qw := fdiv (f32_of_Z n) _) in *. set (V1 := mag (fdiv A (f32_of_Z n'))) in *. set (V2 := mag (fdiv A (f32_of_Z n))) in *.
  apply fadd_gap; [exact Nx|exact N1|exact Nw|exact N2|lia|lia|].
  assert (Hw : 2 ^ 149 <= sval qw + 2 ^ 127) by (assert (H : 2 ^ 23 * (n * 2 ^ 149) <= (2 ^ 23 + 1) * (n * (sval qw + 1))) by lia;
    assert (H2 : n * (2 ^ 23 * 2 ^ 149) <= n * ((2 ^ 23 + 1) * (sval qw + 1))) by lia; apply (Z.mul_le_mono_pos_l _ _ n) in H2; lia).
  assert (Hx : n' * sval qx <= (n' - 1) * 2 ^ 149 + n' * 2 ^ 127).
  { assert (H : Z.max v 0 * 2 ^ 149 <= (n' - 1) * 2 ^ 149) by (apply Z.mul_le_mono_nonneg_r; lia). lia. }
  apply (Z.mul_le_mono_pos_l _ _ n'); [lia|].
  assert (HE : 16 * (n' * (sval (fsqrt (fdiv A (f32_of_Z n'))) - sval (fsqrt (fdiv A (f32_of_Z n))))) < 15 * 2 ^ 149).
  { destruct Hnn as [->|[-> HB3]]; [rewrite Z.sub_diag; lia|].
    apply (root_gap (mag A) V1 V2); try lia. }
  assert (Hw2 : n' * 2 ^ 149 <= n' * (sval qw + 2 ^ 127)) by (apply Z.mul_le_mono_nonneg_l; lia).
  lia.
Qed.

(** ** products with a bounded value *)
Lemma round_form s m e l s' m' e' : 0 <= m -> binary_round_aux 24 128 s m e l = S754_finite s' m' e' -> Z.pos m' < 2 ^ 24 /\ -149 <= e'.
Proof.
  intros Hm. unfold binary_round_aux.
  destruct (shr_fexp_eq m e l Hm) as [H1 H2]. destruct (shr_fexp 24 128 m e l) as [r1 e1]. cbn [fst snd] in *.
  set (k1 := Z.max 0 (Z.max (Zdigits2 m - 24) (-149 - e))) in *.
  assert (Hr : 0 <= shr_m r1 < 2 ^ 24).
  { rewrite H1. destruct (Z.eq_dec m 0) as [->|Hm0]; [rewrite Z.div_0_l by (pose proof (pow2_pos k1); lia); lia|].
    pose proof (digits2_bound m ltac:(lia)) as [Hb _]. pose proof (pow2_pos k1 ltac:(lia)). split; [apply Z.div_pos; lia|].
    apply Z.div_lt_upper_bound; [lia|]. rewrite <- Z.pow_add_r by lia. pose proof (Z.pow_le_mono_r 2 (Zdigits2 m) (k1 + 24) ltac:(lia) ltac:(lia)). lia. }
  set (m1 := round_nearest_even (shr_m r1) (loc_of_shr_record r1)) in *.
  assert (Hm1 : 0 <= m1 <= 2 ^ 24).
  { unfold m1. pose proof (round_ne_nonneg (shr_m r1) (loc_of_shr_record r1) ltac:(lia)). split; [assumption|].
    destruct (loc_of_shr_record r1) as [|[]]; cbn; try lia. destruct (Z.even (shr_m r1)); lia. }
  assert (He1 : -149 <= e1) by lia.
  destruct (shr_fexp_eq m1 e1 loc_Exact ltac:(lia)) as [H4 H5]. destruct (shr_fexp 24 128 m1 e1 loc_Exact) as [r2 e2]. cbn [fst snd] in *.
  assert (Hk2 : 0 <= shr_m r2 < 2 ^ 24 /\ -149 <= e2).
  { destruct (Z.eq_dec m1 (2 ^ 24)) as [E|Hne].
    - rewrite E in H4, H5. change (Zdigits2 (2 ^ 24)) with 25 in *. replace (Z.max 0 (Z.max (25 - 24) (-149 - e1))) with 1 in * by lia.
      change (2 ^ 24 / 2 ^ 1) with (2 ^ 23) in H4. split; [rewrite H4; lia|lia].
    - pose proof (digits_le m1 24 ltac:(lia) ltac:(lia)). replace (Z.max 0 (Z.max (Zdigits2 m1 - 24) (-149 - e1))) with 0 in * by (clear - H He1; lia).
      change (2 ^ 0) with 1 in H4. rewrite Z.div_1_r in H4. lia. }
  destruct (shr_m r2) as [|p|p]; [discriminate| |discriminate]. destruct (e2 <=? 128 - 24); [|discriminate]. intros [= _ <- <-]. lia.
Qed.
Lemma mul_bounded x y b : 1 <= b < 2 ^ 24 -> SFleb f0 (fmul x y) = true -> SFleb (fmul x y) (f32_of_Z b) = true -> nonneg (fmul x y) /\ at_most b (fmul x y).
Proof.
  intros Hb H0 H1.
  destruct (f32_of_Z_canon b ltac:(lia) ltac:(lia)) as (m' & e' & E' & He' & Hd').
  destruct (f32_of_Z_form b ltac:(unfold small; lia) ltac:(lia)) as (m & e & E & He & Hm). rewrite E in *. injection E' as <- <-. replace (b <? 0) with false in * by lia.
  destruct (fmul x y) as [s|s| |s p q] eqn:Ef.
  - cbn. auto.
  - destruct s; cbn in H0, H1; discriminate.
  - discriminate.
  - destruct s; [cbn in H0; discriminate|]. cbn [nonneg at_most]. split; [reflexivity|].
    assert (Hf : Z.pos p < 2 ^ 24 /\ -149 <= q).
    { unfold fmul, SFmul in Ef. destruct x as [sx|sx| |sx mx ex], y as [sy|sy| |sy my ey]; try discriminate. eapply round_form; [|exact Ef]. lia. }
    destruct Hf as [Hp Hq]. split; [exact Hp|]. split; [exact Hq|].
    assert (Hv : Z.pos m * 2 ^ (e + 149) = b * 2 ^ 149).
    { rewrite Hm, Z.abs_eq by lia. rewrite <- Z.mul_assoc, <- Z.pow_add_r by lia. do 2 f_equal. lia. }
    rewrite <- Hv. apply leb_fin in H1. pose proof (digits_bound m) as Hdm. rewrite Hd' in Hdm. destruct H1 as [H1|[-> H1]].
    + pose proof (mag_lt p q m e Hp Hq ltac:(lia) ltac:(left; lia) H1). lia.
    + apply Z.mul_le_mono_nonneg_r; [apply Z.pow_nonneg; lia|exact H1].
Qed.
