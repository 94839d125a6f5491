(** * DivError: how far quotients of visit counters in f32 are from the exact ones. *)
From Verif Require Import Base BaseFacts F32 F32Facts RoundFacts McSpec AlphaCount.
Require Import ZifyBool ZifyNat Lia.

(** a non-negative finite f32 in units of 2^-149, the smallest positive f32 *)
Definition units32 (x : f32) : Z := match x with S754_finite false m e => Z.pos m * 2 ^ (e + 149) | _ => 0 end.

(** the quotient is one of the two neighbours of a/b, at spacing 2^t *)
Lemma fdiv_faithful a b : 0 < a <= b -> 0 < b < 2 ^ 24 ->
  exists t m2 m e, fdiv (f32_of_Z a) (f32_of_Z b) = S754_finite false m e /\ -149 <= t <= e /\ Z.pos m * 2 ^ (e - t) = m2
    /\ 2 ^ 23 <= Z.pos m < 2 ^ 24
    /\ 2 ^ 23 * 2 ^ (t + 149) * b <= a * 2 ^ 149 < 2 ^ 24 * 2 ^ (t + 149) * b
    /\ - (2 ^ (t + 149) * b) < m2 * 2 ^ (t + 149) * b - a * 2 ^ 149 < 2 ^ (t + 149) * b.
Proof.
  intros Ha Hb. destruct (fdiv_raw a b Ha Hb) as (P & D & e' & HP & HD & He' & HPD & Hq24 & E).
  destruct (fdiv_unit a b ltac:(lia) Hb) as [[Hz|(m & e & Ef & Hv & _)] _].
  { exfalso. destruct (fdiv_unit a b ltac:(lia) Hb) as [_ H]. apply H in Hz. lia. }
  clear Hv. set (q := P / D) in *. set (loc := new_location D (P mod D)) in *. assert (Hq0 : 0 < q) by lia.
  destruct (round_aux_spec 24 128 ltac:(lia) false q e' loc Hq0 ltac:(unfold emin; lia)) as (m2 & m3 & e3 & Hm2 & Em3 & He3 & Hm3 & Hm3' & Er).
  rewrite E, Er in Ef. destruct (e3 <=? 128 - 24) eqn:Ele; [|discriminate Ef]. injection Ef as -> ->.
  pose proof (digits2_bound q Hq0) as [Hdq Hdqp]. set (dq := Zdigits2 q) in *.
  assert (Hdq24 : 24 <= dq).
  { destruct (Z_le_gt_dec 24 dq) as [|Hg]; [assumption|]. pose proof (Z.pow_le_mono_r 2 dq 23 ltac:(lia) ltac:(lia)). lia. }
  replace (Z.max 0 (dq - 24)) with (dq - 24) in * by lia. set (k := dq - 24) in *. specialize (Hm3' Hdq24). change (24 - 1) with 23 in Hm3'.
  pose proof (pow2_pos k ltac:(lia)) as Hpk. pose proof (pow2_pos (e' + 149) ltac:(lia)) as Hpe.
  exists (e' + k), m2, m, e. split; [rewrite E, Er; reflexivity|]. split; [lia|]. split; [exact Em3|]. split; [lia|].
  replace (e' + k + 149) with (k + (e' + 149)) by lia. rewrite Z.pow_add_r by lia. set (W := 2 ^ (e' + 149)) in *. set (K := 2 ^ k) in *.
  assert (H149 : 2 ^ 149 = 2 ^ (- e') * W) by (unfold W; rewrite <- Z.pow_add_r by lia; f_equal; lia). rewrite H149.
  set (X := a * 2 ^ (- e')). replace (a * (2 ^ (- e') * W)) with (X * W) by (unfold X; ring).
  assert (HX : P * b = D * X) by (unfold X; rewrite HPD; ring).
  assert (Hm1 : q / K * (D * K) <= P < (q / K + 1) * (D * K)).
  { assert (Eq : q / K = P / (D * K)) by (unfold q; apply Z.div_div; lia). rewrite Eq.
    assert (HDK : 0 < D * K) by (apply Z.mul_pos_pos; assumption).
    pose proof (Z.div_mod P (D * K) ltac:(lia)). pose proof (Z.mod_pos_bound P (D * K) HDK). set (M := D * K) in *. set (Q := P / M) in *. clearbody M Q. lia. }
  set (m1 := q / K) in *.
  assert (Hm1b : 2 ^ 23 <= m1 < 2 ^ 24).
  { assert (E1 : 2 ^ (dq - 1) = 2 ^ 23 * K) by (unfold K; rewrite <- Z.pow_add_r by lia; f_equal; unfold k; lia).
    assert (E2 : 2 ^ dq = 2 ^ 24 * K) by (unfold K; rewrite <- Z.pow_add_r by lia; f_equal; unfold k; lia).
    split; [apply Z.div_le_lower_bound; lia|apply Z.div_lt_upper_bound; lia]. }
  assert (Hlo : m1 * K * b <= X) by (apply (Z.mul_le_mono_pos_l _ _ D HD); rewrite <- HX; pose proof (Z.mul_le_mono_nonneg_r _ _ b ltac:(lia) (proj1 Hm1)); lia).
  assert (Hhi : X < (m1 + 1) * K * b) by (apply (Z.mul_lt_mono_pos_l D _ _ HD); rewrite <- HX; pose proof (proj1 (Z.mul_lt_mono_pos_r b _ _ ltac:(lia)) (proj2 Hm1)); lia).
  assert (HKb : 0 < K * b) by (apply Z.mul_pos_pos; lia).
  assert (Hup : m2 * (K * b) < X + K * b).
  { destruct Hm2 as [->|[-> Hne]]; [lia|]. destruct (Z.eq_dec X (m1 * K * b)) as [EX|EX]; [|lia]. exfalso. apply Hne.
    assert (EP : P = m1 * K * D) by (apply (Z.mul_reg_r _ _ b ltac:(lia)); rewrite HX, EX; ring).
    assert (Eq : q = m1 * K) by (unfold q; rewrite EP; apply Z.div_mul; lia).
    split; [|rewrite Eq; apply Z.mod_mul; lia].
    unfold loc. rewrite EP, Z.mod_mul by lia. unfold new_location, new_location_even, new_location_odd. destruct (Z.even D); reflexivity. }
  assert (Hdn : X - K * b < m2 * (K * b)) by (destruct Hm2 as [->|[-> _]]; lia).
  split; [split|split].
  - replace (2 ^ 23 * (K * W) * b) with (2 ^ 23 * (K * b) * W) by ring. apply Z.mul_le_mono_nonneg_r; [lia|]. pose proof (Z.mul_le_mono_nonneg_r _ _ (K * b) ltac:(lia) (proj1 Hm1b)). lia.
  - replace (2 ^ 24 * (K * W) * b) with (2 ^ 24 * (K * b) * W) by ring. apply Z.mul_lt_mono_pos_r; [lia|]. pose proof (Z.mul_le_mono_nonneg_r (m1 + 1) (2 ^ 24) (K * b) ltac:(lia) ltac:(lia)). lia.
  - replace (m2 * (K * W) * b - X * W) with ((m2 * (K * b) - X) * W) by ring. replace (- (K * W * b)) with (- (K * b) * W) by ring. apply Z.mul_lt_mono_pos_r; lia.
  - replace (m2 * (K * W) * b - X * W) with ((m2 * (K * b) - X) * W) by ring. replace (K * W * b) with (K * b * W) by ring. apply Z.mul_lt_mono_pos_r; lia.
Qed.

Lemma units32_scaled m e t m2 : -149 <= t <= e -> Z.pos m * 2 ^ (e - t) = m2 -> units32 (S754_finite false m e) = m2 * 2 ^ (t + 149).
Proof. intros H <-. cbn [units32]. rewrite <- Z.mul_assoc, <- Z.pow_add_r by lia. do 2 f_equal. lia. Qed.

(** relative error below 2^-23 *)
Lemma fdiv_error a b : 0 <= a <= b -> 0 < b < 2 ^ 24 -> Z.abs (units32 (fdiv (f32_of_Z a) (f32_of_Z b)) * b - a * 2 ^ 149) <= a * 2 ^ 126.
Proof.
  intros Ha Hb. destruct (Z.eq_dec a 0) as [->|Ha0].
  { destruct (fdiv_unit 0 b ltac:(lia) Hb) as [_ H]. replace (fdiv (f32_of_Z 0) (f32_of_Z b)) with f0 by (symmetry; apply H; reflexivity). cbn. lia. }
  destruct (fdiv_faithful a b ltac:(lia) Hb) as (t & m2 & m & e & E & Ht & Em & Hm & Hb1 & Hb2). rewrite E, (units32_scaled _ _ t m2 Ht Em).
  change (2 ^ 149) with (2 ^ 23 * 2 ^ 126) in *. set (U := 2 ^ (t + 149)) in *. set (V := 2 ^ 126) in *. clearbody U V. nia.
Qed.

Lemma shares_error ks T : (forall k, In k ks -> 0 <= k <= T) -> 0 < T < 2 ^ 24 ->
  Z.abs (zsum (map (fun k => units32 (fdiv (f32_of_Z k) (f32_of_Z T))) ks) * T - zsum ks * 2 ^ 149) <= zsum ks * 2 ^ 126.
Proof.
  intros Hk HT. induction ks as [|k ks IH]; [cbn; lia|]. cbn [map]. rewrite !zsum_cons.
  specialize (IH ltac:(intros x Hx; apply Hk; right; exact Hx)). pose proof (fdiv_error k T (Hk k (or_introl eq_refl)) HT) as He.
  set (A := units32 (fdiv _ _)) in *. set (B := zsum (map _ ks)) in *. clearbody A B. change (2 ^ 149) with (2 ^ 23 * 2 ^ 126) in *. set (V := 2 ^ 126) in *. clearbody V. lia.
Qed.

Lemma cancel_near n N U b : 0 < U -> 0 < b -> - (U * b) < n * U * b - b * (N * U) -> n * U * b - b * (N * U) < U * b -> n = N.
Proof.
  intros HU Hb H1 H2. assert (Hp : 0 < U * b) by (apply Z.mul_pos_pos; assumption).
  replace (n * U * b - b * (N * U)) with ((n - N) * (U * b)) in * by ring.
  assert (n - N < 1) by (apply (Z.mul_lt_mono_pos_r (U * b)); lia). assert (-1 < n - N) by (apply (Z.mul_lt_mono_pos_r (U * b)); lia). lia.
Qed.
(** larger counters do not get smaller shares *)
Lemma fdiv_mono a1 a2 b : 0 <= a1 <= a2 -> a2 <= b -> 0 < b < 2 ^ 24 -> SFleb (fdiv (f32_of_Z a1) (f32_of_Z b)) (fdiv (f32_of_Z a2) (f32_of_Z b)) = true.
Proof.
  intros H1 H2 Hb. destruct (Z.eq_dec a1 0) as [->|Ha1].
  { destruct (fdiv_unit 0 b ltac:(lia) Hb) as [_ H]. replace (fdiv (f32_of_Z 0) (f32_of_Z b)) with f0 by (symmetry; apply H; reflexivity).
    destruct (fdiv_unit a2 b ltac:(lia) Hb) as [[->|(m & e & -> & _)] _]; reflexivity. }
  destruct (Z.eq_dec a1 a2) as [<-|Hne].
  { destruct (fdiv_unit a1 b ltac:(lia) Hb) as [[->|(m & e & -> & _)] _]; [reflexivity|]. apply leb_fin. right. lia. }
  destruct (fdiv_faithful a1 b ltac:(lia) Hb) as (t1 & n1 & m1 & e1 & E1 & Ht1 & Em1 & Hm1 & [A1 A2] & A3 & A4).
  destruct (fdiv_faithful a2 b ltac:(lia) Hb) as (t2 & n2 & m2 & e2 & E2 & Ht2 & Em2 & Hm2 & [B1 B2] & B3 & B4).
  assert (Hu : units32 (S754_finite false m1 e1) <= units32 (S754_finite false m2 e2)).
  { rewrite (units32_scaled _ _ t1 n1 Ht1 Em1), (units32_scaled _ _ t2 n2 Ht2 Em2).
    pose proof (pow2_pos (t1 + 149) ltac:(lia)) as Hp1. pose proof (pow2_pos (t2 + 149) ltac:(lia)) as Hp2.
    assert (Ht : t1 <= t2).
    { destruct (Z_le_gt_dec t1 t2) as [|Hg]; [assumption|]. exfalso. pose proof (Z.pow_le_mono_r 2 (t2 + 149 + 1) (t1 + 149) ltac:(lia) ltac:(lia)) as Hp.
      rewrite Z.pow_add_r in Hp by lia. change (2 ^ 1) with 2 in Hp. set (U1 := 2 ^ (t1 + 149)) in *. set (U2 := 2 ^ (t2 + 149)) in *. set (X := 2 ^ 149) in *.
      assert (a1 * X < a2 * X) by (apply Z.mul_lt_mono_pos_r; [unfold X; lia|lia]). clearbody U1 U2 X. nia. }
    assert (EU : 2 ^ (t2 + 149) = 2 ^ (t2 - t1) * 2 ^ (t1 + 149)) by (rewrite <- Z.pow_add_r by lia; f_equal; lia).
    set (U1 := 2 ^ (t1 + 149)) in *. set (U2 := 2 ^ (t2 + 149)) in *. set (R := 2 ^ (t2 - t1)) in *.
    (* at most one spacing apart: a2 - a1 >= 1 and the spacing times b is at most one, or a2 = b *)
    assert (Hge : a1 * 2 ^ 149 < n2 * U2 * b + (if a2 =? b then 1 else 0)).
    { destruct (Z.eqb_spec a2 b) as [Eb|Eb].
      - subst a2. assert (Hn : n2 * U2 = 2 ^ 149).
        { assert (Ht23 : t2 = -23).
          { assert (2 ^ 23 * U2 <= 2 ^ 149 < 2 ^ 24 * U2) by (split; [apply (Z.mul_le_mono_pos_r _ _ b); lia|apply (Z.mul_lt_mono_pos_r b); lia]).
            assert (t2 + 149 = 126); [|lia]. destruct (Z.lt_trichotomy (t2 + 149) 126) as [Hl|[He|Hl]]; [|exact He|].
            - pose proof (Z.pow_le_mono_r 2 (t2 + 149) 125 ltac:(lia) ltac:(lia)). change (2 ^ 149) with (2 ^ 24 * 2 ^ 125) in H. fold U2 in H0. lia.
            - pose proof (Z.pow_le_mono_r 2 127 (t2 + 149) ltac:(lia) ltac:(lia)). change (2 ^ 149) with (2 ^ 22 * 2 ^ 127) in H. fold U2 in H0. lia. }
          assert (EU2 : U2 = 2 ^ 126) by (unfold U2; rewrite Ht23; reflexivity). rewrite EU2 in *. change (2 ^ 149) with (2 ^ 23 * 2 ^ 126) in *. set (V := 2 ^ 126) in *.
          assert (HV : 0 < V) by lia. rewrite (cancel_near n2 (2 ^ 23) V b HV ltac:(lia) B3 B4). reflexivity. }
        rewrite Hn. assert (a1 * 2 ^ 149 < b * 2 ^ 149) by (apply Z.mul_lt_mono_pos_r; lia). lia.
      - assert (HU2 : U2 * b <= 2 ^ 149).
        { assert (2 ^ 23 * U2 * b < b * 2 ^ 149) by (assert (a2 * 2 ^ 149 < b * 2 ^ 149) by (apply Z.mul_lt_mono_pos_r; lia); lia).
          assert (2 ^ 23 * U2 < 2 ^ 149) by (apply (Z.mul_lt_mono_pos_r b); lia).
          assert (t2 + 149 <= 125).
          { destruct (Z_le_gt_dec (t2 + 149) 125) as [|Hg]; [assumption|]. pose proof (Z.pow_le_mono_r 2 126 (t2 + 149) ltac:(lia) ltac:(lia)). change (2 ^ 149) with (2 ^ 23 * 2 ^ 126) in H0. fold U2 in H3. lia. }
          pose proof (Z.pow_le_mono_r 2 (t2 + 149) 125 ltac:(lia) ltac:(lia)). fold U2 in H4. change (2 ^ 149) with (2 ^ 125 * 2 ^ 24). nia. }
        assert (a1 * 2 ^ 149 <= (a2 - 1) * 2 ^ 149) by (apply Z.mul_le_mono_nonneg_r; lia). rewrite Z.mul_sub_distr_r in H. lia. }
    assert (Hge' : a1 * 2 ^ 149 <= n2 * U2 * b) by (destruct (a2 =? b); lia). clear Hge.
    (* n1*U1 and n2*U2 are multiples of U1, and n1*U1*b < a1*2^149 + U1*b <= (n2*R + 1)*U1*b *)
    rewrite EU in *. assert (n1 * (U1 * b) < (n2 * R + 1) * (U1 * b)) by nia.
    assert (n1 < n2 * R + 1) by (apply (Z.mul_lt_mono_pos_r (U1 * b)); [nia|exact H]).
    replace (n2 * (R * U1)) with (n2 * R * U1) by ring. apply Z.mul_le_mono_nonneg_r; lia. }
  rewrite E1, E2. apply leb_fin. cbn [units32] in Hu.
  destruct (Z.lt_trichotomy e1 e2) as [Hl|[->|Hl]]; [left; exact Hl|right; split; [reflexivity|]|exfalso].
  - pose proof (pow2_pos (e2 + 149) ltac:(lia)). apply (Z.mul_le_mono_pos_r _ _ (2 ^ (e2 + 149))); assumption.
  - pose proof (Z.pow_le_mono_r 2 (e2 + 149 + 1) (e1 + 149) ltac:(lia) ltac:(lia)) as Hp. rewrite Z.pow_add_r in Hp by lia. change (2 ^ 1) with 2 in Hp.
    pose proof (pow2_pos (e2 + 149) ltac:(lia)) as Hq. clear - Hp Hq Hu Hm1 Hm2. set (U := 2 ^ (e2 + 149)) in *. set (V := 2 ^ (e1 + 149)) in *. clearbody U V.
    pose proof (Z.mul_le_mono_nonneg (2 ^ 23) (Z.pos m1) (U * 2) V ltac:(lia) ltac:(lia) ltac:(lia) Hp).
    pose proof (Z.mul_lt_mono_pos_r U (Z.pos m2) (2 ^ 24) Hq). lia.
Qed.
