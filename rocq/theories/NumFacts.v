(** * NumFacts: sums and quotients of bounded single precision numbers stay finite. *)
From Verif Require Import Base F32 F32Facts RoundFacts SumFacts NanFacts LogSpec McProof LogProof.
Require Import ZifyBool ZifyNat.

(** [x] is a single precision number with absolute value at most [N], an integer (the exponent of
    the smallest such number is -149) *)
Definition at_most (N : Z) (x : f32) : Prop :=
  match x with S754_zero _ => True | S754_finite _ m e => Z.pos m < 2 ^ 24 /\ -149 <= e /\ Z.pos m * 2 ^ (e + 149) <= N * 2 ^ 149 | _ => False end.
(** [x] is a single precision number below [2 ^ (24 + K)] in absolute value *)
Definition sized (K : Z) (x : f32) : Prop :=
  match x with S754_zero _ => True | S754_finite _ m e => Z.pos m < 2 ^ 24 /\ e <= K | _ => False end.

Lemma sized_finite K x : sized K x -> finite x.
Proof. destruct x; cbn; auto. Qed.
Lemma at_most_sized N x : at_most N x -> N <= 2 ^ 24 -> sized 24 x.
Proof.
  destruct x as [s|s| |s m e]; cbn [at_most sized]; auto. intros (Hm & He & Hv) HN. split; [exact Hm|].
  destruct (Z_le_gt_dec e 24) as [|Hg]; [assumption|]. exfalso.
  pose proof (Z.pow_le_mono_r 2 174 (e + 149) ltac:(lia) ltac:(lia)). change (2 ^ 174) with (2 ^ 25 * 2 ^ 149) in *. pose proof (pow2_pos 149 ltac:(lia)). nia.
Qed.

(** ** rounding, whatever the exponent *)
Lemma shr_fexp_eq m e l : 0 <= m -> let k := Z.max 0 (Z.max (Zdigits2 m - 24) (-149 - e)) in
  shr_m (fst (shr_fexp 24 128 m e l)) = m / 2 ^ k /\ snd (shr_fexp 24 128 m e l) = e + k.
Proof.
  intros Hm k. unfold shr_fexp. assert (fexp 24 128 (Zdigits2 m + e) - e = Z.max (Zdigits2 m - 24) (-149 - e)) as -> by (unfold fexp, emin; lia).
  assert (Hl : exists r s, shr_record_of_loc m l = Build_shr_record m r s) by (destruct l as [|[]]; cbn [shr_record_of_loc]; eauto).
  destruct Hl as (r & s & ->). destruct (Z.max (Zdigits2 m - 24) (-149 - e)) as [|p|p] eqn:E; cbn [shr fst snd].
  - assert (k = 0) as -> by (unfold k; lia). change (2 ^ 0) with 1. rewrite Z.div_1_r. cbn. split; lia.
  - assert (k = Z.pos p) as Ek by (unfold k; lia). rewrite iter_pos_nat. destruct (shr_iter (Pos.to_nat p) m r s Hm) as (r' & s' & E1 & _). rewrite E1. cbn [shr_m].
    rewrite Ek. replace (Z.of_nat (Pos.to_nat p)) with (Z.pos p) by lia. split; lia.
  - assert (k = 0) as -> by (unfold k; lia). change (2 ^ 0) with 1. rewrite Z.div_1_r. cbn. split; lia.
Qed.
Lemma round_sized s m e l k K : 0 <= m < 2 ^ k -> 0 <= k -> e < K -> k + e < 24 + K -> -149 < K <= 104 -> sized K (binary_round_aux 24 128 s m e l).
Proof.
  intros Hm Hk He Hke HK. pose proof (digits_le m k Hm Hk) as Hd. unfold binary_round_aux.
  destruct (shr_fexp_eq m e l ltac:(lia)) as [H1 H2]. destruct (shr_fexp 24 128 m e l) as [r1 e1]. cbn [fst snd] in *.
  set (k1 := Z.max 0 (Z.max (Zdigits2 m - 24) (-149 - e))) in *.
  assert (Hr : 0 <= shr_m r1 < 2 ^ 24).
  { rewrite H1. destruct (Z.eq_dec m 0) as [->|Hm0]; [rewrite Z.div_0_l by (pose proof (pow2_pos k1); lia); lia|].
    pose proof (digits2_bound m ltac:(lia)) as [Hb _]. pose proof (pow2_pos k1 ltac:(lia)). split; [apply Z.div_pos; lia|].
    apply Z.div_lt_upper_bound; [lia|]. rewrite <- Z.pow_add_r by lia. pose proof (Z.pow_le_mono_r 2 (Zdigits2 m) (k1 + 24) ltac:(lia) ltac:(lia)). lia. }
  set (m1 := round_nearest_even (shr_m r1) (loc_of_shr_record r1)) in *.
  assert (Hm1 : 0 <= m1 <= 2 ^ 24).
  { unfold m1. pose proof (round_ne_nonneg (shr_m r1) (loc_of_shr_record r1) ltac:(lia)). split; [assumption|].
    destruct (loc_of_shr_record r1) as [|[]]; cbn; try lia. destruct (Z.even (shr_m r1)); lia. }
  assert (He1 : -149 <= e1 < K) by lia.
  destruct (shr_fexp_eq m1 e1 loc_Exact ltac:(lia)) as [H4 H5]. destruct (shr_fexp 24 128 m1 e1 loc_Exact) as [r2 e2]. cbn [fst snd] in *.
  assert (Hk2 : 0 <= shr_m r2 < 2 ^ 24 /\ e2 <= K).
  { destruct (Z.eq_dec m1 (2 ^ 24)) as [E|Hne].
    - rewrite E in H4, H5. change (Zdigits2 (2 ^ 24)) with 25 in *. replace (Z.max 0 (Z.max (25 - 24) (-149 - e1))) with 1 in * by lia.
      change (2 ^ 24 / 2 ^ 1) with (2 ^ 23) in H4. split; [rewrite H4; lia|lia].
    - pose proof (digits_le m1 24 ltac:(lia) ltac:(lia)). replace (Z.max 0 (Z.max (Zdigits2 m1 - 24) (-149 - e1))) with 0 in * by (clear - H He1; lia).
      change (2 ^ 0) with 1 in H4. rewrite Z.div_1_r in H4. lia. }
  destruct (shr_m r2) as [|p|p]; [exact Logic.I| |lia]. replace (e2 <=? 128 - 24) with true by (clear - Hk2 HK; lia). cbn [sized]. clear - Hk2; lia.
Qed.

(** ** a sum grows by at most one *)
Lemma shl_align_val m e ez : -149 <= e -> -149 <= ez -> exists m0 e0, shl_align m e ez = (m0, e0) /\ -149 <= e0 /\ Z.pos m0 * 2 ^ (e0 + 149) = Z.pos m * 2 ^ (e + 149).
Proof.
  intros He Hz. unfold shl_align. destruct (ez - e) as [|z|z] eqn:E; [exists m, e; auto|exists m, e; auto|].
  exists (shift_pos z m), ez. split; [reflexivity|]. split; [exact Hz|]. rewrite shift_pos_eq, <- Z.mul_assoc, <- Z.pow_add_r by lia. do 2 f_equal. lia.
Qed.
Lemma round_at_most s M e N : -149 <= e -> 0 <= N <= 2 ^ 24 -> Z.pos M * 2 ^ (e + 149) <= N * 2 ^ 149 -> at_most N (binary_round 24 128 s M e).
Proof.
  intros He HN HM. unfold binary_round. set (t := fexp 24 128 (Z.pos (digits2_pos M) + e)).
  assert (Ht : -149 <= t) by (unfold t, fexp, emin; lia).
  destruct (shl_align_val M e t He Ht) as (m0 & e0 & -> & He0 & Hv0). rewrite <- Hv0 in HM.
  destruct (round_aux_spec 24 128 ltac:(lia) s (Z.pos m0) e0 loc_Exact ltac:(lia) ltac:(unfold emin; lia)) as (m2 & m3 & e3 & Hm2 & Em3 & He3 & Hm3 & _ & ->).
  set (k := Z.max 0 (Zdigits2 (Z.pos m0) - 24)) in *. pose proof (pow2_pos k ltac:(lia)) as Hpk. pose proof (pow2_pos (e0 + 149) ltac:(lia)) as Hpe.
  pose proof (digits2_bound (Z.pos m0) ltac:(lia)) as [Hd Hd0].
  assert (Hval : Z.pos m3 * 2 ^ (e3 + 149) = m2 * 2 ^ (e0 + k + 149)).
  { rewrite <- Em3, <- Z.mul_assoc, <- Z.pow_add_r by lia. do 2 f_equal. lia. }
  assert (Hle : m2 * 2 ^ (e0 + k + 149) <= N * 2 ^ 149).
  { replace (e0 + k + 149) with (k + (e0 + 149)) by lia. rewrite Z.pow_add_r by lia.
    pose proof (Z.mod_pos_bound (Z.pos m0) (2 ^ k) Hpk) as Hmod. pose proof (Z.div_mod (Z.pos m0) (2 ^ k) ltac:(lia)) as Hdm.
    destruct Hm2 as [->|[-> Hn]].
    - nia.
    - assert (Hk1 : 0 < k).
      { destruct (Z.eq_dec k 0) as [E0|]; [|lia]. exfalso. apply Hn. split; [reflexivity|]. rewrite E0. apply Z.mod_1_r. }
      assert (Hr0 : 0 < Z.pos m0 mod 2 ^ k) by (assert (Z.pos m0 mod 2 ^ k <> 0) by (intros E0; apply Hn; auto); lia).
      assert (Hde : Zdigits2 (Z.pos m0) = 24 + k) by lia.
      (* the bound is a multiple of the last place *)
      destruct (Z_le_gt_dec (e0 + k) 0) as [Hez|Hez].
      + assert (EN : N * 2 ^ 149 = N * 2 ^ (- (e0 + k)) * (2 ^ k * 2 ^ (e0 + 149))).
        { rewrite <- !Z.mul_assoc, <- !Z.pow_add_r by lia. do 2 f_equal. lia. }
        rewrite EN in *. set (c := N * 2 ^ (- (e0 + k))) in *.
        assert (Hc : Z.pos m0 <= c * 2 ^ k) by nia.
        assert (Z.pos m0 / 2 ^ k + 1 <= c) by (assert (Z.pos m0 / 2 ^ k < c) by nia; lia).
        rewrite !Z.mul_assoc. nia.
      + exfalso. assert (2 ^ 24 * 2 ^ 149 <= Z.pos m0 * 2 ^ (e0 + 149)).
        { replace (24 + k - 1) with (23 + k) in * by lia. rewrite Hde in Hd. replace (24 + k - 1) with (23 + k) in Hd by lia.
          pose proof (Z.pow_le_mono_r 2 (24 + 149) (23 + k + (e0 + 149)) ltac:(lia) ltac:(lia)). rewrite !Z.pow_add_r in * by lia. nia. }
        assert (E24 : Z.pos m0 * 2 ^ (e0 + 149) = 2 ^ 24 * 2 ^ 149) by (pose proof (pow2_pos 149 ltac:(lia)); nia).
        rewrite <- Z.pow_add_r in E24 by lia.
        assert (Hm0 : Z.pos m0 = 2 ^ (24 - e0)).
        { assert (e0 <= 24) by (destruct (Z_le_gt_dec e0 24); [assumption|]; pose proof (Z.pow_lt_mono_r 2 (24 + 149) (e0 + 149) ltac:(lia) ltac:(lia) ltac:(lia)); nia).
          assert (E2 : 2 ^ (24 + 149) = 2 ^ (24 - e0) * 2 ^ (e0 + 149)) by (rewrite <- Z.pow_add_r by lia; f_equal; lia). rewrite E2 in E24. apply (Z.mul_reg_r _ _ (2 ^ (e0 + 149))); [lia|exact E24]. }
        assert (k <= 24 - e0).
        { destruct (Z_le_gt_dec k (24 - e0)) as [|Hg]; [assumption|]. rewrite Hde in Hd. rewrite Hm0 in Hd. pose proof (Z.pow_lt_mono_r 2 (24 - e0) (24 + k - 1) ltac:(lia) ltac:(lia) ltac:(lia)). lia. }
        rewrite Hm0 in Hr0. assert (E3 : 2 ^ (24 - e0) = 2 ^ (24 - e0 - k) * 2 ^ k) by (rewrite <- Z.pow_add_r by lia; f_equal; lia). rewrite E3, Z.mod_mul in Hr0 by lia. lia. }
  assert (He3' : e3 <= 24).
  { destruct (Z_le_gt_dec e3 24) as [|Hg]; [assumption|]. exfalso. pose proof (Z.pow_le_mono_r 2 174 (e3 + 149) ltac:(lia) ltac:(lia)).
    change (2 ^ 174) with (2 ^ 25 * 2 ^ 149) in *. pose proof (pow2_pos 149 ltac:(lia)). nia. }
  replace (e3 <=? 128 - 24) with true by lia. cbn [at_most]. lia.
Qed.
Lemma at_most_add N a v : 0 <= N -> N + 1 <= 2 ^ 24 -> at_most N a -> at_most 1 v -> at_most (N + 1) (fadd a v).
Proof.
  intros HN HN1 Ha Hv. pose proof (pow2_pos 149 ltac:(lia)) as H149.
  destruct a as [sa|sa| |sa ma ea], v as [sv|sv| |sv mv ev]; cbn [at_most] in Ha, Hv; try contradiction; unfold fadd, SFadd.
  - destruct (Bool.eqb sa sv); exact Logic.I.
  - cbn [at_most]. lia.
  - cbn [at_most]. lia.
  - set (ez := Z.min ea ev). rewrite !shl_min by (unfold ez; lia). destruct Ha as (_ & Hea & Hva), Hv as (_ & Hev & Hvv).
    pose proof (pow2_pos (ea - ez) ltac:(unfold ez; lia)). pose proof (pow2_pos (ev - ez) ltac:(unfold ez; lia)).
    set (A := Z.pos ma * 2 ^ (ea - ez)) in *. set (B := Z.pos mv * 2 ^ (ev - ez)) in *.
    assert (HA : A * 2 ^ (ez + 149) <= N * 2 ^ 149) by (unfold A; rewrite <- Z.mul_assoc, <- Z.pow_add_r by (unfold ez; lia); replace (ea - ez + (ez + 149)) with (ea + 149) by lia; lia).
    assert (HB : B * 2 ^ (ez + 149) <= 1 * 2 ^ 149) by (unfold B; rewrite <- Z.mul_assoc, <- Z.pow_add_r by (unfold ez; lia); replace (ev - ez + (ez + 149)) with (ev + 149) by lia; lia).
    pose proof (pow2_pos (ez + 149) ltac:(unfold ez; lia)) as Hpz.
    assert (HS : forall S, S = cond_Zopp sa A + cond_Zopp sv B -> Z.abs S * 2 ^ (ez + 149) <= (N + 1) * 2 ^ 149).
    { intros S ->. assert (H1 : 0 <= A) by (unfold A; nia). assert (H2 : 0 <= B) by (unfold B; nia). assert (Hab : Z.abs (cond_Zopp sa A + cond_Zopp sv B) <= A + B) by (clear - H1 H2; destruct sa, sv; cbn [cond_Zopp]; lia).
      pose proof (Z.mul_le_mono_nonneg_r _ _ (2 ^ (ez + 149)) ltac:(lia) Hab) as Hm. rewrite Z.mul_add_distr_r in Hm. rewrite Z.mul_add_distr_r. lia. }
    set (S := cond_Zopp sa A + cond_Zopp sv B) in *. specialize (HS S eq_refl).
    destruct S as [|p|p]; cbn [binary_normalize]; [exact Logic.I| |]; apply round_at_most; try lia; unfold ez; lia.
Qed.
Lemma at_most_total vs : Forall (at_most 1) vs -> Z.of_nat (length vs) <= 2 ^ 24 -> at_most (Z.of_nat (length vs)) (total f0 vs).
Proof.
  induction vs as [|v vs IH] using rev_ind; intros HF HL; [exact Logic.I|]. rewrite total_snoc. apply Forall_app in HF. destruct HF as [HF Hv].
  rewrite app_length in *. cbn [length] in *. replace (Z.of_nat (length vs + 1)) with (Z.of_nat (length vs) + 1) by lia.
  apply at_most_add; [lia|lia|apply IH; [exact HF|lia]|]. inversion Hv; assumption.
Qed.

(** ** products, quotients, roots *)
Lemma fmul_sized K L a b : sized K a -> sized L b -> -174 < K + L <= 79 -> sized (K + L + 25) (fmul a b).
Proof.
  intros Ha Hb HK. destruct a as [sa|sa| |sa ma ea], b as [sb|sb| |sb mb eb]; cbn [sized] in Ha, Hb; try contradiction; unfold fmul, SFmul; try exact Logic.I.
  apply (round_sized _ _ _ _ 48); [|lia..]. rewrite Pos2Z.inj_mul. change (2 ^ 48) with (2 ^ 24 * 2 ^ 24). nia.
Qed.
Lemma fdiv_sized K a n : sized K a -> 1 <= n <= 2 ^ 24 -> -100 < K <= 80 -> sized (K + 24) (fdiv a (f32_of_Z n)).
Proof.
  intros Ha Hn HK. destruct (f32_of_Z_canon n ltac:(lia) ltac:(lia)) as (m2 & e2 & -> & He2 & Hd2). replace (n <? 0) with false by lia.
  destruct a as [sa|sa| |sa m1 e1]; cbn [sized] in Ha; try contradiction; [exact Logic.I|]. unfold fdiv, SFdiv.
  pose proof (div_core_nonneg 24 128 (Z.pos m1) e1 (Z.pos m2) e2 ltac:(lia) ltac:(lia)) as Hq.
  assert (Hc : exists j, 0 <= j /\ fst (fst (SFdiv_core_binary 24 128 (Z.pos m1) e1 (Z.pos m2) e2)) < 2 ^ (24 + j) /\ snd (fst (SFdiv_core_binary 24 128 (Z.pos m1) e1 (Z.pos m2) e2)) = e1 - e2 - j).
  { unfold SFdiv_core_binary. set (e' := Z.min _ _). assert (He' : e' <= e1 - e2) by (unfold e'; lia). exists (e1 - e2 - e'). split; [lia|].
    set (s := e1 - e2 - e') in *.
    assert (Hm' : match s with Z.pos _ => Z.shiftl (Z.pos m1) s | 0 => Z.pos m1 | Z.neg _ => 0 end = Z.pos m1 * 2 ^ s).
    { destruct s as [|p|p] eqn:Es; [rewrite Z.mul_1_r; reflexivity|rewrite Z.shiftl_mul_pow2 by lia; reflexivity|unfold s in Es; lia]. }
    rewrite Hm'. pose proof (pow2_pos s ltac:(unfold s; lia)) as Hps.
    assert (Hqe : Z.pos m1 * 2 ^ s / Z.pos m2 <= Z.pos m1 * 2 ^ s) by (apply Z.div_le_upper_bound; nia).
    unfold Z.div in Hqe. destruct (Z.div_eucl (Z.pos m1 * 2 ^ s) (Z.pos m2)) as [q r]. cbn [fst snd]. split; [|unfold s; lia].
    rewrite Z.pow_add_r by (unfold s; lia). nia. }
  destruct (SFdiv_core_binary 24 128 (Z.pos m1) e1 (Z.pos m2) e2) as [[q e] l]. cbn [fst snd] in *. destruct Hc as (j & Hj & Hc & ->).
  apply (round_sized _ q _ l (24 + j)); lia.
Qed.
Lemma fsqrt_sized n : 0 <= n <= 2 ^ 24 -> sized 2 (fsqrt (f32_of_Z n)).
Proof.
  intros Hn. destruct (Z.eq_dec n 0) as [->|Hn0]; [exact Logic.I|]. destruct (f32_of_Z_canon n ltac:(lia) Hn0) as (m & e & -> & He & Hd). replace (n <? 0) with false by lia.
  unfold fsqrt, SFsqrt. pose proof (digits_bound m) as Hb. rewrite Hd in Hb.
  pose proof (sqrt_core_nonneg 24 128 (Z.pos m) e) as Hq.
  assert (Hc : fst (fst (SFsqrt_core_binary 24 128 (Z.pos m) e)) < 2 ^ 60 /\ -40 <= snd (fst (SFsqrt_core_binary 24 128 (Z.pos m) e)) <= 0
    /\ fst (fst (SFsqrt_core_binary 24 128 (Z.pos m) e)) * fst (fst (SFsqrt_core_binary 24 128 (Z.pos m) e)) <= Z.pos m * 2 ^ (e - 2 * snd (fst (SFsqrt_core_binary 24 128 (Z.pos m) e)))).
  { unfold SFsqrt_core_binary. cbn [Zdigits2]. rewrite Hd. set (e' := Z.min _ _).
    assert (He' : -40 <= e' <= 0 /\ 2 * e' <= e).
    { unfold e'. rewrite !Z.div2_div. pose proof (Z.div_mod e 2 ltac:(lia)). pose proof (Z.mod_pos_bound e 2 ltac:(lia)).
      pose proof (Z.div_mod (24 + e + 1) 2 ltac:(lia)). pose proof (Z.mod_pos_bound (24 + e + 1) 2 ltac:(lia)). unfold fexp, emin. lia. }
    set (s := e - 2 * e') in *.
    assert (Hm' : match s with Z.pos _ => Z.shiftl (Z.pos m) s | 0 => Z.pos m | Z.neg _ => 0 end = Z.pos m * 2 ^ s).
    { destruct s as [|p|p] eqn:Es; [rewrite Z.mul_1_r; reflexivity|rewrite Z.shiftl_mul_pow2 by lia; reflexivity|unfold s in Es; lia]. }
    rewrite Hm'. pose proof (pow2_pos s ltac:(unfold s; lia)) as Hps.
    pose proof (Z.sqrt_spec (Z.pos m * 2 ^ s) ltac:(nia)) as Hsq. pose proof (Z.sqrt_nonneg (Z.pos m * 2 ^ s)) as Hs0. rewrite <- Z.sqrtrem_sqrt in Hsq, Hs0.
    destruct (Z.sqrtrem (Z.pos m * 2 ^ s)) as [q r]. cbn [fst snd] in *. split; [|split; [lia|exact (proj1 Hsq)]].
    assert (Hs : s <= 81) by (unfold s; lia). pose proof (Z.pow_le_mono_r 2 s 81 ltac:(lia) Hs). change (2 ^ 60) with (2 ^ 30 * 2 ^ 30).
    assert (Z.pos m * 2 ^ s < 2 ^ 24 * 2 ^ 81) by nia. change (2 ^ 24 * 2 ^ 81) with (2 ^ 105) in *. assert (q * q < 2 ^ 60 * 2 ^ 60) by (change (2 ^ 60 * 2 ^ 60) with (2 ^ 120); lia). nia. }
  destruct (SFsqrt_core_binary 24 128 (Z.pos m) e) as [[q e'] l]. cbn [fst snd] in *. destruct Hc as (_ & He' & Hqq).
  apply (round_sized _ q _ l (13 - e')); [|lia..]. split; [exact Hq|].
  assert (Hlt : Z.pos m * 2 ^ (e - 2 * e') < 2 ^ (13 - e') * 2 ^ (13 - e')).
  { rewrite <- Z.pow_add_r by lia. replace (13 - e' + (13 - e')) with (24 + (2 - 2 * e')) by lia. rewrite (Z.pow_add_r 2 24) by lia.
    destruct (Z_le_gt_dec 0 (e - 2 * e')) as [Hp|Hg].
    - pose proof (Z.pow_le_mono_r 2 (e - 2 * e') (2 - 2 * e') ltac:(lia) ltac:(lia)). pose proof (pow2_pos (e - 2 * e') Hp). nia.
    - rewrite (Z.pow_neg_r 2 (e - 2 * e')) by lia. pose proof (pow2_pos (2 - 2 * e') ltac:(lia)). nia. }
  pose proof (pow2_pos (13 - e') ltac:(lia)). nia.
Qed.
Lemma fmul_nonneg a b : finite a -> nonneg a -> finite b -> nonneg b -> nonneg (fmul a b).
Proof.
  intros Fa Na Fb Nb. destruct a as [sa|sa| |sa ma ea], b as [sb|sb| |sb mb eb]; cbn in Fa, Na, Fb, Nb; try contradiction; subst; cbn; auto.
  apply round_aux_nonneg. lia.
Qed.

(** a score with a bounded sum of values, exact counters and a proper prior is a number *)
Lemma puct_number c (a : f32) N v w (p : f32) : sized 50 c -> nonneg c -> 0 <= N <= 2 ^ 24 -> at_most N a -> 0 <= v < 2 ^ 24 -> 0 <= w <= 2 ^ 24 -> finite p -> nonneg p ->
  fadd (if SFeqb (f32_of_Z v) f0 then f0 else fdiv a (f32_of_Z v)) (fmul (fmul c (fdiv (fsqrt (f32_of_Z w)) (fadd (f32_of_Z v) f1))) p) <> S754_nan.
Proof.
  intros Hc Hcn HN Ha Hv Hw Hp Hpn.
  assert (HQ : finite (if SFeqb (f32_of_Z v) f0 then f0 else fdiv a (f32_of_Z v))).
  { destruct (Z.eq_dec v 0) as [->|Hv0]; [exact Logic.I|]. destruct (f32_of_Z_canon v ltac:(lia) Hv0) as (m & e & Ev & _). rewrite Ev. cbn [SFeqb]. rewrite <- Ev.
    replace (SFeqb (f32_of_Z v) f0) with false by (rewrite Ev; destruct (v <? 0); reflexivity).
    apply (sized_finite (24 + 24)). apply fdiv_sized; [eapply at_most_sized; [exact Ha|lia]|lia|lia]. }
  rewrite counter_step by lia. rewrite Z.add_comm.
  assert (HR : sized 26 (fdiv (fsqrt (f32_of_Z w)) (f32_of_Z (1 + v))) /\ nonneg (fdiv (fsqrt (f32_of_Z w)) (f32_of_Z (1 + v)))).
  { split; [apply (fdiv_sized 2); [apply fsqrt_sized; lia|lia|lia]|].
    destruct (f32_of_Z_canon (1 + v) ltac:(lia) ltac:(lia)) as (m & e & Ev & _). rewrite Ev. replace (1 + v <? 0) with false by lia.
    apply fdiv_nonneg; [|reflexivity|exact Logic.I|discriminate]. apply fsqrt_nonneg. destruct (Z.eq_dec w 0) as [->|Hw0]; [exact Logic.I|].
    destruct (f32_of_Z_canon w ltac:(lia) Hw0) as (m' & e' & -> & _). cbn. lia. }
  destruct HR as [HR HRn]. pose proof (fmul_sized 50 26 c _ Hc HR ltac:(lia)) as HM.
  apply fadd_number.
  - intros E. rewrite E in HQ. exact HQ.
  - apply fmul_nonneg; [eapply sized_finite; exact HM| |exact Hp|exact Hpn]. apply fmul_nonneg; [eapply sized_finite; exact Hc|exact Hcn|eapply sized_finite; exact HR|exact HRn].
  - intros E. rewrite E in HQ. exact HQ.
Qed.
