(** * RoundFacts: what rounding does, quotients of visit counters in f32, sums in f64. *)
From Verif Require Import Base F32 F32Facts.
Require Import ZifyBool ZifyNat Lia.

Lemma pow2_pos k : 0 <= k -> 0 < 2 ^ k.
Proof. intros H. apply Z.pow_pos_nonneg; lia. Qed.

Lemma shr_1_spec m r s : 0 <= m -> shr_1 (Build_shr_record m r s) = Build_shr_record (m / 2) (negb (m mod 2 =? 0)) (r || s).
Proof.
  intros Hm. destruct m as [|p|p]; [reflexivity| |lia]. destruct p as [p|p|]; cbn [shr_1].
  - replace (Z.pos p~1 / 2) with (Z.pos p) by (change (Z.pos p~1) with (2 * Z.pos p + 1); apply Z.div_unique with 1; lia).
    replace (Z.pos p~1 mod 2) with 1 by (change (Z.pos p~1) with (2 * Z.pos p + 1); apply Z.mod_unique with (Z.pos p); lia). reflexivity.
  - replace (Z.pos p~0 / 2) with (Z.pos p) by (change (Z.pos p~0) with (2 * Z.pos p); apply Z.div_unique with 0; lia).
    replace (Z.pos p~0 mod 2) with 0 by (change (Z.pos p~0) with (2 * Z.pos p); apply Z.mod_unique with (Z.pos p); lia). reflexivity.
  - reflexivity.
Qed.
Lemma mod_split m k : 0 <= m -> 0 <= k -> (m / 2 ^ k) mod 2 = 0 /\ m mod 2 ^ k = 0 <-> m mod 2 ^ (k + 1) = 0.
Proof.
  intros Hm Hk. pose proof (pow2_pos k Hk) as Hp. rewrite Z.pow_add_r by lia. change (2 ^ 1) with 2.
  rewrite Z.rem_mul_r by lia. pose proof (Z.mod_pos_bound m (2 ^ k) Hp). pose proof (Z.mod_pos_bound (m / 2 ^ k) 2 ltac:(lia)). split; [intros [-> ->]; lia|].
  intros E. assert (2 ^ k * ((m / 2 ^ k) mod 2) = 0) by nia. split; nia.
Qed.
Lemma shr_iter k : forall m r s, 0 <= m ->
  exists r' s', Nat.iter k shr_1 (Build_shr_record m r s) = Build_shr_record (m / 2 ^ Z.of_nat k) r' s'
    /\ (r' || s' = false <-> r || s = false /\ m mod 2 ^ Z.of_nat k = 0).
Proof.
  induction k as [|k IH]; intros m r s Hm.
  - exists r, s. cbn [Nat.iter]. change (2 ^ Z.of_nat 0) with 1. rewrite Z.div_1_r, Z.mod_1_r. split; [reflexivity|tauto].
  - destruct (IH m r s Hm) as (r' & s' & E & Hrs).
    match goal with |- context [Nat.iter (S k) shr_1 ?y] => change (Nat.iter (S k) shr_1 y) with (shr_1 (Nat.iter k shr_1 y)) end.
    rewrite E, shr_1_spec by (apply Z.div_pos; [lia|apply pow2_pos; lia]).
    do 2 eexists. split; [rewrite Zdiv.Zdiv_Zdiv by (pose proof (pow2_pos (Z.of_nat k) ltac:(lia)); lia); replace (2 ^ Z.of_nat (S k)) with (2 ^ Z.of_nat k * 2)
      by (rewrite Nat2Z.inj_succ, Z.pow_succ_r by lia; lia); reflexivity|].
    replace (Z.of_nat (S k)) with (Z.of_nat k + 1) by lia. rewrite <- mod_split by lia.
    rewrite Bool.orb_false_iff, Bool.negb_false_iff, Z.eqb_eq. rewrite Hrs. tauto.
Qed.

Lemma digits2_bound m : 0 < m -> 2 ^ (Zdigits2 m - 1) <= m < 2 ^ Zdigits2 m /\ 0 < Zdigits2 m.
Proof. intros H. destruct m as [|p|p]; try lia. cbn [Zdigits2]. pose proof (digits_bound p). lia. Qed.
Lemma digits2_unique m d : 0 < d -> 2 ^ (d - 1) <= m < 2 ^ d -> Zdigits2 m = d.
Proof.
  intros Hd H. pose proof (pow2_pos (d - 1) ltac:(lia)). destruct m as [|p|p]; try lia. cbn [Zdigits2]. apply digits_unique; assumption.
Qed.

Section R.
  Variables (prec emax : Z).
  Hypothesis (Hprec : 1 < prec).

  Lemma round_aux_spec s m e l : 0 < m -> emin prec emax <= e ->
    let k := Z.max 0 (Zdigits2 m - prec) in
    exists m2 m3 e3, (m2 = m / 2 ^ k \/ (m2 = m / 2 ^ k + 1 /\ ~ (l = loc_Exact /\ m mod 2 ^ k = 0)))
      /\ Z.pos m3 * 2 ^ (e3 - (e + k)) = m2 /\ e + k <= e3 <= e + k + 1 /\ Z.pos m3 < 2 ^ prec
      /\ (prec <= Zdigits2 m -> 2 ^ (prec - 1) <= Z.pos m3)
      /\ binary_round_aux prec emax s m e l = if e3 <=? emax - prec then S754_finite s m3 e3 else S754_infinity s.
  Proof.
    intros Hm He k. pose proof (digits2_bound m Hm) as [Hd Hd0]. set (d := Zdigits2 m) in *.
    unfold binary_round_aux. unfold shr_fexp at 1. fold d.
    assert (Hk : 0 <= k) by (unfold k; lia). pose proof (pow2_pos k Hk) as Hpk.
    assert (Hrec : exists r' s', shr (shr_record_of_loc m l) e (fexp prec emax (d + e) - e) = (Build_shr_record (m / 2 ^ k) r' s', e + k)
              /\ (r' || s' = false <-> l = loc_Exact /\ m mod 2 ^ k = 0)).
    { assert (Hl : exists r s, shr_record_of_loc m l = Build_shr_record m r s /\ (r || s = false <-> l = loc_Exact)).
      { destruct l as [|[]]; cbn [shr_record_of_loc]; do 2 eexists; (split; [reflexivity|]); cbn; split; congruence. }
      destruct Hl as (r & s0 & El & Hrs). rewrite El.
      assert (fexp prec emax (d + e) - e = Z.max (d - prec) (emin prec emax - e)) as -> by (unfold fexp; lia).
      destruct (Z.max (d - prec) (emin prec emax - e)) as [|p|p] eqn:Ek.
      - assert (k = 0) as -> by (unfold k; lia). cbn [shr]. exists r, s0. change (2 ^ 0) with 1. rewrite Z.div_1_r, Z.mod_1_r, Z.add_0_r. split; [reflexivity|]. rewrite Hrs. tauto.
      - assert (k = Z.pos p) as Ep by (unfold k; lia). cbn [shr]. rewrite iter_pos_nat.
        destruct (shr_iter (Pos.to_nat p) m r s0 ltac:(lia)) as (r' & s' & E & H). rewrite E.
        replace (Z.of_nat (Pos.to_nat p)) with k in * by lia. exists r', s'. split; [f_equal; lia|]. rewrite H, Hrs. tauto.
      - assert (k = 0) as -> by (unfold k; lia). cbn [shr]. exists r, s0. change (2 ^ 0) with 1. rewrite Z.div_1_r, Z.mod_1_r, Z.add_0_r. split; [reflexivity|]. rewrite Hrs. tauto. }
    destruct Hrec as (r' & s' & -> & Hex). cbn [shr_m].
    set (m1 := m / 2 ^ k) in *.
    assert (Hm1 : 0 < m1 < 2 ^ prec /\ (prec <= d -> 2 ^ (prec - 1) <= m1)).
    { destruct (Z_le_gt_dec d prec) as [Hdp|Hdp].
      - assert (k = 0) as E0 by (unfold k; lia). unfold m1. rewrite E0. change (2 ^ 0) with 1. rewrite Z.div_1_r.
        pose proof (Z.pow_le_mono_r 2 d prec ltac:(lia) Hdp). split; [lia|]. intros. replace prec with d by lia. lia.
      - assert (k = d - prec) as Ek by (unfold k; lia).
        assert (E1 : 2 ^ (d - 1) = 2 ^ (prec - 1) * 2 ^ k) by (rewrite <- Z.pow_add_r by lia; f_equal; lia).
        assert (E2 : 2 ^ d = 2 ^ prec * 2 ^ k) by (rewrite <- Z.pow_add_r by lia; f_equal; lia).
        assert (H1 : 2 ^ (prec - 1) <= m1) by (unfold m1; apply Z.div_le_lower_bound; lia).
        assert (H2 : m1 < 2 ^ prec) by (unfold m1; apply Z.div_lt_upper_bound; lia).
        pose proof (pow2_pos (prec - 1) ltac:(lia)). split; [lia|auto]. }
    destruct Hm1 as [Hm1 Hm1p].
    set (m2 := round_nearest_even m1 (loc_of_shr_record (Build_shr_record m1 r' s'))).
    assert (Hm2 : m2 = m1 \/ (m2 = m1 + 1 /\ ~ (l = loc_Exact /\ m mod 2 ^ k = 0))).
    { rewrite <- Hex. unfold m2. destruct r', s'; cbn; try (right; split; [reflexivity|discriminate]); [|left; reflexivity|left; reflexivity].
      destruct (Z.even m1); [left; reflexivity|right; split; [reflexivity|discriminate]]. }
    assert (Hm2p : 0 < m2 <= 2 ^ prec) by lia.
    unfold shr_fexp. cbn [shr_record_of_loc].
    assert (Hek : emin prec emax <= e + k) by lia.
    destruct (Z.eq_dec m2 (2 ^ prec)) as [E2|E2].
    - assert (Hd2 : Zdigits2 m2 = prec + 1).
      { apply digits2_unique; [lia|]. rewrite E2. replace (prec + 1 - 1) with prec by lia. rewrite Z.pow_add_r by lia. change (2 ^ 1) with 2. lia. }
      rewrite Hd2. assert (fexp prec emax (prec + 1 + (e + k)) - (e + k) = 1) as -> by (unfold fexp; lia).
      cbn [shr iter_pos]. rewrite shr_1_spec by lia. cbn [shr_m].
      assert (E3 : m2 / 2 = 2 ^ (prec - 1)).
      { rewrite E2. replace prec with (prec - 1 + 1) at 1 by lia. rewrite Z.pow_add_r by lia. change (2 ^ 1) with 2. apply Z.div_mul. lia. }
      rewrite E3. pose proof (pow2_pos (prec - 1) ltac:(lia)). destruct (2 ^ (prec - 1)) as [|m3|m3] eqn:E4; try lia.
      exists m2, m3, (e + k + 1). split; [exact Hm2|]. rewrite E2.
      split; [replace (e + k + 1 - (e + k)) with 1 by lia; rewrite <- E4; rewrite <- Z.pow_add_r by lia; f_equal; lia|].
      split; [lia|]. split; [rewrite <- E4; apply Z.pow_lt_mono_r; lia|]. split; [intros _; lia|reflexivity].
    - assert (Hd2 : Zdigits2 m2 <= prec).
      { pose proof (digits2_bound m2 ltac:(lia)) as [Hb Hb0]. destruct (Z_le_gt_dec (Zdigits2 m2) prec) as [|Hg]; [assumption|].
        pose proof (Z.pow_le_mono_r 2 prec (Zdigits2 m2 - 1) ltac:(lia) ltac:(lia)). lia. }
      destruct m2 as [|m3|m3] eqn:E3; try lia. exists m2, m3, (e + k). rewrite E3. split; [exact Hm2|].
      split; [rewrite Z.sub_diag; change (2 ^ 0) with 1; lia|]. split; [lia|]. split; [lia|]. split; [intros Hp; specialize (Hm1p Hp); lia|].
      assert (Hz : fexp prec emax (Zdigits2 (Z.pos m3) + (e + k)) - (e + k) <= 0) by (unfold fexp; lia).
      destruct (fexp prec emax (Zdigits2 (Z.pos m3) + (e + k)) - (e + k)) as [|z|z]; try lia; reflexivity.
  Qed.
End R.

(** ** quotients of counters in f32: canonical numbers in [0, 1] *)
(** a non-negative f32 of at most one: positive zero, or a canonical positive number *)
Definition unit32 (x : f32) : Prop :=
  x = S754_zero false \/ exists m e, x = S754_finite false m e /\ valid_binary 24 128 x = true /\ SFleb x f1 = true.

(** comparison of positive numbers of the same form *)
Lemma leb_fin m e n f : SFleb (S754_finite false m e) (S754_finite false n f) = true <-> e < f \/ (e = f /\ Z.pos m <= Z.pos n).
Proof.
  unfold SFleb, SFcompare. destruct (Z.compare_spec e f) as [E|E|E].
  - change (Pos.compare_cont Eq m n) with (Pos.compare m n). destruct (Pos.compare_spec m n) as [E'|E'|E'].
    + subst. split; [intros _; right; lia|reflexivity].
    + split; [intros _; right; lia|reflexivity].
    + split; [intros H; discriminate H|lia].
  - split; [intros _; left; lia|reflexivity].
  - split; [intros H; discriminate H|lia].
Qed.
Lemma f1_eq : f1 = S754_finite false (Z.to_pos (2 ^ 23)) (-23).
Proof. vm_compute. reflexivity. Qed.
Lemma leb_one m e : SFleb (S754_finite false m e) f1 = true <-> e < -23 \/ (e = -23 /\ Z.pos m <= 2 ^ 23).
Proof. rewrite f1_eq, leb_fin, Z2Pos.id by lia. reflexivity. Qed.

Lemma unit32_zero : unit32 f0.
Proof. left. reflexivity. Qed.

Lemma fexp32_id m e : 2 ^ 23 <= Z.pos m < 2 ^ 24 -> -149 <= e -> fexp 24 128 (Z.pos (digits2_pos m) + e) = e.
Proof. intros H He. assert (Z.pos (digits2_pos m) = 24) as -> by (apply digits_unique; [lia|exact H]). unfold fexp, emin. lia. Qed.

(** the quotient before rounding: a/b = (P/D) * 2^e', and P/D has at least 24 digits *)
Lemma fdiv_raw a b : 0 < a <= b -> 0 < b < 2 ^ 24 ->
  exists P D e', 0 < P /\ 0 < D /\ -149 <= e' <= -24 /\ P * b = D * a * 2 ^ (- e') /\ 2 ^ 23 <= P / D
    /\ fdiv (f32_of_Z a) (f32_of_Z b) = binary_round_aux 24 128 false (P / D) e' (new_location D (P mod D)).
Proof.
  intros Ha Hb. destruct (f32_of_Z_form b ltac:(unfold small; lia) ltac:(lia)) as (mb & eb & Eb & Heb & Hmb).
  replace (b <? 0) with false in Eb by lia.
  destruct (f32_of_Z_form a ltac:(unfold small; lia) ltac:(lia)) as (ma & ea & Ea & Hea & Hma).
  replace (a <? 0) with false in Ea by lia. rewrite Ea, Eb. cbn [fdiv SFdiv xorb]. unfold fdiv, SFdiv, SFdiv_core_binary. cbn [xorb].
  rewrite Z.abs_eq in Hma, Hmb by lia.
  set (d1 := Zdigits2 (Z.pos ma)). set (d2 := Zdigits2 (Z.pos mb)).
  pose proof (digits2_bound (Z.pos ma) ltac:(lia)) as [Hd1 Hd1p]. pose proof (digits2_bound (Z.pos mb) ltac:(lia)) as [Hd2 Hd2p].
  fold d1 in Hd1, Hd1p. fold d2 in Hd2, Hd2p.
  assert (H1le : d1 <= 48).
  { destruct (Z_le_gt_dec d1 48) as [|Hg]; [assumption|]. pose proof (Z.pow_le_mono_r 2 48 (d1 - 1) ltac:(lia) ltac:(lia)).
    pose proof (Z.pow_le_mono_r 2 (- ea) 23 ltac:(lia) ltac:(lia)). change (2 ^ 48) with (2 ^ 24 * 2 ^ 24) in *. change (2 ^ 24) with (2 * 2 ^ 23) in *. nia. }
  assert (H2le : d2 <= 48).
  { destruct (Z_le_gt_dec d2 48) as [|Hg]; [assumption|]. pose proof (Z.pow_le_mono_r 2 48 (d2 - 1) ltac:(lia) ltac:(lia)).
    pose proof (Z.pow_le_mono_r 2 (- eb) 23 ltac:(lia) ltac:(lia)). change (2 ^ 48) with (2 ^ 24 * 2 ^ 24) in *. change (2 ^ 24) with (2 * 2 ^ 23) in *. nia. }
  assert (Hdd : d1 + ea <= d2 + eb).
  { destruct (Z_le_gt_dec (d1 + ea) (d2 + eb)) as [|Hg]; [assumption|]. exfalso.
    pose proof (pow2_pos (- ea) ltac:(lia)). pose proof (pow2_pos (- eb) ltac:(lia)).
    assert (H5 : 2 ^ (d1 - 1) * 2 ^ (- eb) < 2 ^ d2 * 2 ^ (- ea)) by nia.
    rewrite <- !Z.pow_add_r in H5 by lia. pose proof (Z.pow_le_mono_r 2 (d2 + - ea) (d1 - 1 + - eb) ltac:(lia) ltac:(lia)). lia. }
  set (e' := Z.min (fexp 24 128 (d1 + ea - (d2 + eb))) (ea - eb)).
  assert (He' : -149 <= e' <= -24 /\ e' <= d1 + ea - (d2 + eb) - 24 /\ e' <= ea - eb) by (unfold e', fexp, emin; lia).
  set (sh := ea - eb - e'). assert (Hsh : 0 <= sh) by (unfold sh; lia).
  assert (Em' : (match sh with Z0 => Z.pos ma | Zpos _ => Z.shiftl (Z.pos ma) sh | Zneg _ => 0 end) = Z.pos ma * 2 ^ sh).
  { destruct sh as [|p|p] eqn:E; try lia. rewrite Z.shiftl_mul_pow2 by lia. reflexivity. }
  cbv zeta. fold d1 d2. fold e'. fold sh. rewrite Em'. rewrite (surjective_pairing (Z.div_eucl _ _)).
  replace (fst (Z.div_eucl (Z.pos ma * 2 ^ sh) (Z.pos mb))) with (Z.pos ma * 2 ^ sh / Z.pos mb) by (unfold Z.div; destruct (Z.div_eucl _ _); reflexivity).
  replace (snd (Z.div_eucl (Z.pos ma * 2 ^ sh) (Z.pos mb))) with ((Z.pos ma * 2 ^ sh) mod Z.pos mb) by (unfold Z.modulo; destruct (Z.div_eucl _ _); reflexivity).
  set (q := Z.pos ma * 2 ^ sh / Z.pos mb).
  set (loc := new_location (Z.pos mb) ((Z.pos ma * 2 ^ sh) mod Z.pos mb)).
  pose proof (pow2_pos sh Hsh) as Hpsh.
  (* lower bound: q has at least 24 digits *)
  assert (Hq24 : 2 ^ 23 <= q).
  { unfold q. apply Z.div_le_lower_bound; [lia|].
    assert (2 ^ d2 * 2 ^ 23 <= 2 ^ (d1 - 1) * 2 ^ sh) by (rewrite <- !Z.pow_add_r by lia; apply Z.pow_le_mono_r; unfold sh; lia). nia. }
  exists (Z.pos ma * 2 ^ sh), (Z.pos mb), e'. split; [nia|]. split; [lia|]. split; [lia|]. split; [|split; [exact Hq24|reflexivity]].
  rewrite Hma, Hmb. replace (a * 2 ^ (- ea) * 2 ^ sh * b) with (a * b * (2 ^ (- ea) * 2 ^ sh)) by ring.
  replace (b * 2 ^ (- eb) * a * 2 ^ (- e')) with (a * b * (2 ^ (- eb) * 2 ^ (- e'))) by ring. rewrite <- !Z.pow_add_r by lia. do 2 f_equal. unfold sh. lia.
Qed.

Lemma fdiv_unit a b : 0 <= a <= b -> 0 < b < 2 ^ 24 ->
  unit32 (fdiv (f32_of_Z a) (f32_of_Z b)) /\ (fdiv (f32_of_Z a) (f32_of_Z b) = S754_zero false <-> a = 0).
Proof.
  intros Ha Hb. destruct (Z.eq_dec a 0) as [->|Ha0].
  { destruct (f32_of_Z_form b ltac:(unfold small; lia) ltac:(lia)) as (mb & eb & Eb & _).
    replace (b <? 0) with false in Eb by lia. rewrite Eb. cbn. split; [left; reflexivity|tauto]. }
  destruct (fdiv_raw a b ltac:(lia) Hb) as (P & D & e' & HP & HD & He' & HPD & Hq24 & ->).
  set (q := P / D) in *. set (loc := new_location D (P mod D)).
  assert (Hab : P <= D * 2 ^ (- e')) by (pose proof (pow2_pos (- e') ltac:(lia)); nia).
  assert (Hqe : q < 2 ^ (- e') \/ (q = 2 ^ (- e') /\ loc = loc_Exact)).
  { assert (q <= 2 ^ (- e')) by (unfold q; apply Z.div_le_upper_bound; lia).
    destruct (Z.eq_dec q (2 ^ (- e'))) as [E|E]; [right|left; lia]. split; [exact E|].
    assert (Hr : P mod D = 0).
    { pose proof (Z.div_mod P D ltac:(lia)) as Hdm. fold q in Hdm. rewrite E in Hdm.
      pose proof (Z.mod_pos_bound P D ltac:(lia)). lia. }
    unfold loc. rewrite Hr. unfold new_location, new_location_even, new_location_odd. destruct (Z.even _); reflexivity. }
  assert (Hq0 : 0 < q) by lia.
  destruct (round_aux_spec 24 128 ltac:(lia) false q e' loc Hq0 ltac:(unfold emin; lia)) as (m2 & m3 & e3 & Hm2 & Em3 & He3 & Hm3 & Hm3' & ->).
  pose proof (digits2_bound q Hq0) as [Hdq Hdqp]. set (dq := Zdigits2 q) in *.
  assert (Hdq24 : 24 <= dq).
  { destruct (Z_le_gt_dec 24 dq) as [|Hg]; [assumption|]. pose proof (Z.pow_le_mono_r 2 dq 23 ltac:(lia) ltac:(lia)). lia. }
  replace (Z.max 0 (dq - 24)) with (dq - 24) in * by lia. set (k := dq - 24) in *. specialize (Hm3' Hdq24). change (24 - 1) with 23 in Hm3'.
  pose proof (pow2_pos k ltac:(lia)) as Hpk.
  (* the rounded value is at most one *)
  assert (Hval : m2 * 2 ^ k <= 2 ^ (- e') /\ (0 <= - e')).
  { split.
    - destruct Hqe as [Hlt|[E El]].
      + assert (Hdle : dq <= - e').
        { destruct (Z_le_gt_dec dq (- e')) as [|Hg]; [assumption|]. pose proof (Z.pow_le_mono_r 2 (- e') (dq - 1) ltac:(lia) ltac:(lia)). lia. }
        assert (q / 2 ^ k < 2 ^ 24). { apply Z.div_lt_upper_bound; [lia|]. rewrite <- Z.pow_add_r by lia. replace (k + 24) with dq by (unfold k; lia). lia. }
        assert (m2 <= 2 ^ 24) by lia. pose proof (Z.pow_le_mono_r 2 (24 + k) (- e') ltac:(lia) ltac:(unfold k; lia)). rewrite Z.pow_add_r in * by lia.
        pose proof (Z.mul_le_mono_nonneg_r m2 (2 ^ 24) (2 ^ k) ltac:(lia) ltac:(lia)). lia.
      + assert (Hdv : q = (q / 2 ^ k) * 2 ^ k /\ q mod 2 ^ k = 0).
        { assert (q mod 2 ^ k = 0).
          { rewrite E. assert (0 <= - e' - k). { assert (dq = - e' + 1) by (unfold dq; apply digits2_unique; [lia|]; rewrite E; replace (- e' + 1 - 1) with (- e') by lia; rewrite Z.pow_add_r by lia; change (2 ^ 1) with 2; pose proof (pow2_pos (- e') ltac:(lia)); lia). lia. }
            replace (- e') with ((- e' - k) + k) by lia. rewrite Z.pow_add_r by lia. apply Z.mod_mul. lia. }
          split; [|assumption]. pose proof (Z.div_mod q (2 ^ k) ltac:(lia)). lia. }
        destruct Hdv as [Hdv Hmod]. destruct Hm2 as [->|[_ Hn]]; [lia|]. exfalso. apply Hn. split; [exact El|exact Hmod].
    - destruct (Z_le_gt_dec 0 (- e')) as [|Hg]; [assumption|]. rewrite (Z.pow_neg_r 2 (- e')) in Hqe by lia. lia. }
  destruct Hval as [Hval Hne].
  assert (He3u : e3 <= -23).
  { destruct (Z_le_gt_dec e3 (-23)) as [|Hg]; [assumption|]. exfalso.
    assert (Z.pos m3 * 2 ^ (e3 - e') <= 2 ^ (- e')).
    { replace (2 ^ (e3 - e')) with (2 ^ (e3 - (e' + k)) * 2 ^ k) by (rewrite <- Z.pow_add_r by lia; f_equal; lia). rewrite Z.mul_assoc, Em3. exact Hval. }
    assert (2 ^ 23 * 2 ^ (e3 - e') <= 2 ^ (- e')) by (pose proof (pow2_pos (e3 - e') ltac:(lia)); pose proof (Z.mul_le_mono_nonneg_r (2 ^ 23) (Z.pos m3) (2 ^ (e3 - e')) ltac:(lia) ltac:(lia)); lia).
    rewrite <- Z.pow_add_r in H0 by lia. pose proof (Z.pow_lt_mono_r 2 (- e') (23 + (e3 - e')) ltac:(lia) ltac:(lia) ltac:(lia)). lia. }
  replace (e3 <=? 128 - 24) with true by lia. split; [|split; [discriminate|intros; lia]].
  right. exists m3, e3. split; [reflexivity|]. split.
  - cbn [valid_binary]. unfold bounded, canonical_mantissa. rewrite fexp32_id by lia.
    apply Bool.andb_true_iff. split; [apply Zeq_is_eq_bool; reflexivity|]. apply Z.leb_le. lia.
  - apply leb_one. destruct (Z.eq_dec e3 (-23)) as [E|E]; [right; split; [exact E|]|left; lia].
    assert (H : Z.pos m3 * 2 ^ (e3 - e') <= 2 ^ (- e')).
    { replace (2 ^ (e3 - e')) with (2 ^ (e3 - (e' + k)) * 2 ^ k) by (rewrite <- Z.pow_add_r by lia; f_equal; lia). rewrite Z.mul_assoc, Em3. exact Hval. }
    replace (- e') with (23 + (e3 - e')) in H by lia. rewrite Z.pow_add_r in H by lia. pose proof (pow2_pos (e3 - e') ltac:(lia)) as Hp. exact (proj2 (Z.mul_le_mono_pos_r _ _ _ Hp) H).
Qed.

(** ** sums of non-negative numbers in f64 *)
(** positive zero or a positive number; [dval] is its value in units of 2^-1074 *)
Definition dnn (x : f64) : Prop := x = S754_zero false \/ exists m e, x = S754_finite false m e /\ -1074 <= e.
Definition dval (x : f64) : Z := match x with S754_finite false m e => Z.pos m * 2 ^ (e + 1074) | _ => 0 end.
Lemma dval_nonneg x : dnn x -> 0 <= dval x.
Proof. intros [->|(m & e & -> & He)]; cbn [dval]; [lia|]. pose proof (pow2_pos (e + 1074) ltac:(lia)). nia. Qed.
Lemma dval_zero x : dnn x -> (dval x = 0 <-> x = S754_zero false).
Proof.
  intros [->|(m & e & -> & He)]; cbn [dval]; [tauto|]. pose proof (pow2_pos (e + 1074) ltac:(lia)). split; [nia|discriminate].
Qed.

Lemma widen_unit x : unit32 x -> dnn (f64_of_f32 x) /\ dval (f64_of_f32 x) <= 2 ^ 1074
  /\ (f64_of_f32 x = S754_zero false <-> x = S754_zero false).
Proof.
  intros [->|(m & e & -> & Hv & Hle)]; [split; [left; reflexivity|]; split; [cbn [f64_of_f32 dval]; apply Z.lt_le_incl, pow2_pos; lia|tauto]|].
  cbn [valid_binary] in Hv. unfold bounded, canonical_mantissa in Hv. apply Bool.andb_true_iff in Hv. destruct Hv as [Hc He].
  apply Zeq_is_eq_bool in Hc. apply Z.leb_le in He. unfold fexp, emin in Hc.
  pose proof (digits_bound m) as Hd. set (d := Z.pos (digits2_pos m)) in *. assert (Hd0 : 0 < d) by (unfold d; lia).
  assert (He' : e < -23 \/ (e = -23 /\ Z.pos m <= 2 ^ 23)).
  { apply leb_one. exact Hle. }
  cbn [f64_of_f32].
  assert (Hq : Z.pos (Z.to_pos (Z.pos m * 2 ^ (53 - d))) = Z.pos m * 2 ^ (53 - d)).
  { apply Z2Pos.id. pose proof (pow2_pos (53 - d) ltac:(lia)). nia. }
  rewrite (round_exact 53 1024 false m e (Z.to_pos (Z.pos m * 2 ^ (53 - d))) (d + e - 53)).
  - split; [right; do 2 eexists; split; [reflexivity|lia]|]. split; [|split; discriminate].
    cbn [dval]. rewrite Hq, <- Z.mul_assoc, <- Z.pow_add_r by lia. replace (53 - d + (d + e - 53 + 1074)) with (e + 1074) by lia.
    assert (Hm24 : Z.pos m < 2 ^ 24) by (pose proof (Z.pow_le_mono_r 2 d 24 ltac:(lia) ltac:(lia)); lia).
    destruct He' as [He'|[-> Hm]].
    + replace 1074 with (24 + 1050) at 2 by lia. rewrite (Z.pow_add_r 2 24 1050) by lia.
      pose proof (Z.pow_le_mono_r 2 (e + 1074) 1050 ltac:(lia) ltac:(lia)). pose proof (pow2_pos (e + 1074) ltac:(lia)). nia.
    + replace 1074 with (23 + 1051) at 2 by lia. rewrite (Z.pow_add_r 2 23 1051) by lia. replace (-23 + 1074) with 1051 by lia.
      pose proof (pow2_pos 1051 ltac:(lia)). nia.
  - fold d. unfold fexp, emin. lia.
  - lia.
  - intros _. rewrite Hq. f_equal. f_equal. lia.
  - lia.
Qed.

Lemma dadd_finite mx ex my ey : -1074 <= ex -> -1074 <= ey ->
  let v := dval (S754_finite false mx ex) + dval (S754_finite false my ey) in
  v <= 2 ^ 50 * 2 ^ 1074 ->
  exists m e, dadd (S754_finite false mx ex) (S754_finite false my ey) = S754_finite false m e /\ -1074 <= e
    /\ 2 ^ 52 * (Z.pos m * 2 ^ (e + 1074) - v) <= v.
Proof.
  intros Hex Hey v Hv. unfold dadd, SFadd. set (ez := Z.min ex ey). cbn [cond_Zopp].
  rewrite !shl_align_min by (unfold ez; lia).
  pose proof (pow2_pos (ex - ez) ltac:(unfold ez; lia)) as Hp1. pose proof (pow2_pos (ey - ez) ltac:(unfold ez; lia)) as Hp2.
  destruct (Z.pos mx * 2 ^ (ex - ez) + Z.pos my * 2 ^ (ey - ez)) as [|M|M] eqn:EM; try nia.
  cbn [binary_normalize]. unfold binary_round.
  assert (Hvv : v = Z.pos M * 2 ^ (ez + 1074)).
  { unfold v. cbn [dval]. rewrite <- EM, Z.mul_add_distr_r, <- !Z.mul_assoc, <- !Z.pow_add_r by (unfold ez; lia). f_equal; f_equal; f_equal; lia. }
  assert (Hez : -1074 <= ez) by (unfold ez; lia).
  set (t := fexp 53 1024 (Z.pos (digits2_pos M) + ez)).
  assert (Ht : -1074 <= t) by (unfold t, fexp, emin; lia).
  assert (HA : exists m0 e0, shl_align M ez t = (m0, e0) /\ -1074 <= e0 /\ v = Z.pos m0 * 2 ^ (e0 + 1074)).
  { unfold shl_align. destruct (t - ez) as [|z|z] eqn:E; [exists M, ez; auto|exists M, ez; auto|].
    exists (shift_pos z M), t. split; [reflexivity|]. split; [exact Ht|]. rewrite shift_pos_eq, <- Z.mul_assoc, <- Z.pow_add_r by lia.
    rewrite Hvv. f_equal. f_equal. lia. }
  destruct HA as (m0 & e0 & -> & He0 & Hv0).
  destruct (round_aux_spec 53 1024 ltac:(lia) false (Z.pos m0) e0 loc_Exact ltac:(lia) ltac:(unfold emin; lia)) as (m2 & m3 & e3 & Hm2 & Em3 & He3 & Hm3 & _ & ->).
  pose proof (digits2_bound (Z.pos m0) ltac:(lia)) as [Hd Hd0]. set (d := Zdigits2 (Z.pos m0)) in *. set (k := Z.max 0 (d - 53)) in *.
  pose proof (pow2_pos k ltac:(unfold k; lia)) as Hpk. pose proof (pow2_pos (e0 + 1074) ltac:(lia)) as Hpe.
  assert (Hval : Z.pos m3 * 2 ^ (e3 + 1074) = m2 * 2 ^ k * 2 ^ (e0 + 1074)).
  { rewrite <- Em3. rewrite <- !Z.mul_assoc, <- !Z.pow_add_r by (unfold k in *; lia). f_equal. f_equal. lia. }
  assert (Hbound : 2 ^ 52 * (m2 * 2 ^ k - Z.pos m0) <= Z.pos m0).
  { pose proof (Z.mod_pos_bound (Z.pos m0) (2 ^ k) Hpk) as Hmod. pose proof (Z.div_mod (Z.pos m0) (2 ^ k) ltac:(lia)) as Hdm.
    destruct Hm2 as [->|[-> Hn]].
    - replace (Z.pos m0 / 2 ^ k * 2 ^ k - Z.pos m0) with (- (Z.pos m0 mod 2 ^ k)) by lia. lia.
    - assert (Hk1 : 0 < k).
      { destruct (Z.eq_dec k 0) as [E0|]; [|unfold k in *; lia]. exfalso. apply Hn. split; [reflexivity|]. rewrite E0. apply Z.mod_1_r. }
      assert (Ekd : d - 1 = 52 + k) by (unfold k in *; lia). rewrite Ekd, Z.pow_add_r in Hd by lia.
      replace ((Z.pos m0 / 2 ^ k + 1) * 2 ^ k - Z.pos m0) with (2 ^ k - Z.pos m0 mod 2 ^ k) by lia. lia. }
  assert (H52 : 2 ^ 52 * (Z.pos m3 * 2 ^ (e3 + 1074) - v) <= v).
  { rewrite Hval, Hv0. replace (2 ^ 52 * (m2 * 2 ^ k * 2 ^ (e0 + 1074) - Z.pos m0 * 2 ^ (e0 + 1074)))
      with ((2 ^ 52 * (m2 * 2 ^ k - Z.pos m0)) * 2 ^ (e0 + 1074)) by ring. apply Z.mul_le_mono_nonneg_r; [lia|exact Hbound]. }
  assert (He3u : e3 <= 51).
  { destruct (Z_le_gt_dec e3 51) as [|Hg]; [assumption|]. exfalso.
    pose proof (Z.pow_le_mono_r 2 (52 + 1074) (e3 + 1074) ltac:(lia) ltac:(lia)) as H5. rewrite Z.pow_add_r in H5 by lia.
    change (2 ^ 52) with (4 * 2 ^ 50) in *. assert (v < 2 * 2 ^ 50 * 2 ^ 1074) by (pose proof (pow2_pos 1074 ltac:(lia)); lia). clear - H5 H52 H Hv. nia. }
  replace (e3 <=? 1024 - 53) with true by lia. exists m3, e3. split; [reflexivity|]. split; [unfold k in *; lia|exact H52].
Qed.

Lemma dadd_spec x y : dnn x -> dnn y -> dval x + dval y <= 2 ^ 50 * 2 ^ 1074 ->
  dnn (dadd x y) /\ 2 ^ 52 * (dval (dadd x y) - (dval x + dval y)) <= dval x + dval y
  /\ (dadd x y = S754_zero false <-> x = S754_zero false /\ y = S754_zero false)
  /\ (y = S754_zero false -> dadd x y = x).
Proof.
  intros [->|(mx & ex & -> & Hex)] [->|(my & ey & -> & Hey)] Hv.
  - cbn. split; [left; reflexivity|]. split; [lia|]. tauto.
  - change (dadd (S754_zero false) (S754_finite false my ey)) with (S754_finite false my ey).
    split; [right; eauto|]. split; [pose proof (dval_nonneg (S754_finite false my ey) ltac:(right; eauto)); change (dval (S754_zero false)) with 0; lia|].
    split; [split; [discriminate|intros [_ H]; exact H]|discriminate].
  - change (dadd (S754_finite false mx ex) (S754_zero false)) with (S754_finite false mx ex).
    split; [right; eauto|]. split; [pose proof (dval_nonneg (S754_finite false mx ex) ltac:(right; eauto)); change (dval (S754_zero false)) with 0; lia|].
    split; [split; [discriminate|intros [H _]; exact H]|reflexivity].
  - destruct (dadd_finite mx ex my ey Hex Hey Hv) as (m & e & E & He & Hb). rewrite E.
    split; [right; eauto|]. split; [exact Hb|]. split; [split; [discriminate|intros [H _]; discriminate]|discriminate].
Qed.
