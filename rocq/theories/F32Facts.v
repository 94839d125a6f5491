(** * F32Facts: exactness of small integers in f32, the order of floats, [max_by]. *)
From Verif Require Import Base F32.
Require Import ZifyBool ZifyNat Lia.

Lemma iter_pos_nat (A : Type) (f : A -> A) n : forall x, SpecFloat.iter_pos f n x = Nat.iter (Pos.to_nat n) f x.
Proof.
  assert (Hc : forall k (y : A), Nat.iter k f (f y) = f (Nat.iter k f y))
    by (induction k as [|k IH]; intros y; cbn; [reflexivity|f_equal; apply IH]).
  assert (Ha : forall a b (y : A), Nat.iter (a + b) f y = Nat.iter a f (Nat.iter b f y))
    by (induction a as [|a IH]; intros b y; cbn; [reflexivity|f_equal; apply IH]).
  induction n as [p IH|p IH|]; intros x; cbn [SpecFloat.iter_pos].
  - rewrite !IH. rewrite Pos2Nat.inj_xI, <- Ha, Hc. replace (2 * Pos.to_nat p)%nat with (Pos.to_nat p + Pos.to_nat p)%nat by lia. reflexivity.
  - rewrite !IH. rewrite Pos2Nat.inj_xO. rewrite <- Ha. f_equal. lia.
  - reflexivity.
Qed.

Lemma shr_exact k : forall q, 0 < q ->
  Nat.iter k shr_1 (Build_shr_record (q * 2 ^ Z.of_nat k) false false) = Build_shr_record q false false.
Proof.
  induction k as [|k IH]; intros q Hq.
  - cbn [Nat.iter]. rewrite Z.mul_1_r. reflexivity.
  - assert (Hc : forall j (y : shr_record), Nat.iter j shr_1 (shr_1 y) = shr_1 (Nat.iter j shr_1 y))
      by (induction j as [|j IHj]; intros y; cbn; [reflexivity|f_equal; apply IHj]).
    match goal with |- Nat.iter (S k) shr_1 ?y = _ => change (Nat.iter (S k) shr_1 y) with (shr_1 (Nat.iter k shr_1 y)) end. rewrite <- Hc. replace (q * 2 ^ Z.of_nat (S k)) with (2 * (q * 2 ^ Z.of_nat k))
      by (rewrite Nat2Z.inj_succ, Z.pow_succ_r by lia; lia).
    assert (Hp : 0 < q * 2 ^ Z.of_nat k) by (apply Z.mul_pos_pos; [assumption|apply Z.pow_pos_nonneg; lia]).
    destruct (q * 2 ^ Z.of_nat k) as [|p|p] eqn:E; try lia. cbn [Z.mul Pos.mul shr_1 orb].
    rewrite <- E. apply IH; assumption.
Qed.

Lemma digits_bound p : 2 ^ (Z.pos (digits2_pos p) - 1) <= Z.pos p < 2 ^ Z.pos (digits2_pos p).
Proof.
  induction p as [p IH|p IH|]; cbn [digits2_pos]; [| |lia];
    rewrite Pos2Z.inj_succ;
    replace (Z.succ (Z.pos (digits2_pos p)) - 1) with (Z.succ (Z.pos (digits2_pos p) - 1)) by lia;
    rewrite !Z.pow_succ_r by lia; lia.
Qed.
Lemma digits_unique p d : 0 < d -> 2 ^ (d - 1) <= Z.pos p < 2 ^ d -> Z.pos (digits2_pos p) = d.
Proof.
  intros Hd H. pose proof (digits_bound p) as Hb.
  destruct (Z.lt_trichotomy (Z.pos (digits2_pos p)) d) as [Hl|[He|Hg]]; [|assumption|].
  - pose proof (Z.pow_le_mono_r 2 (Z.pos (digits2_pos p)) (d - 1)). lia.
  - pose proof (Z.pow_le_mono_r 2 d (Z.pos (digits2_pos p) - 1)). lia.
Qed.
Lemma digits_scale p q k : 0 <= k -> Z.pos q = Z.pos p * 2 ^ k -> Z.pos (digits2_pos q) = Z.pos (digits2_pos p) + k.
Proof.
  intros Hk E. apply digits_unique; [lia|]. pose proof (digits_bound p) as Hb. rewrite E.
  replace (Z.pos (digits2_pos p) + k - 1) with (Z.pos (digits2_pos p) - 1 + k) by lia.
  rewrite !Z.pow_add_r by lia. pose proof (Z.pow_pos_nonneg 2 k). nia.
Qed.
Lemma shift_pos_eq d p : Z.pos (shift_pos d p) = Z.pos p * 2 ^ Z.pos d.
Proof. rewrite shift_pos_correct. rewrite Z.mul_comm. reflexivity. Qed.

Section Round.
  Variables (prec emax : Z).
  Hypothesis (Hprec : 0 < prec).
  Local Notation fe := (SpecFloat.fexp prec emax).

  (** a mantissa already at its canonical exponent is not changed *)
  Lemma round_aux_canon s m t : fe (Z.pos (digits2_pos m) + t) = t -> t <= emax - prec ->
    binary_round_aux prec emax s (Z.pos m) t loc_Exact = S754_finite s m t.
  Proof.
    intros E Ht. unfold binary_round_aux, shr_fexp. cbn [Zdigits2]. rewrite E, Z.sub_diag. cbn [shr shr_record_of_loc].
    cbn [shr_m loc_of_shr_record round_nearest_even Zdigits2]. rewrite E, Z.sub_diag. cbn [shr shr_m].
    replace (t <=? emax - prec) with true by lia. reflexivity.
  Qed.

  Lemma round_exact s p e q t :
    t = fe (Z.pos (digits2_pos p) + e) -> t <= emax - prec ->
    (t <= e -> Z.pos q = Z.pos p * 2 ^ (e - t)) -> (e < t -> Z.pos p = Z.pos q * 2 ^ (t - e)) ->
    binary_round prec emax s p e = S754_finite s q t.
  Proof.
    intros Et Ht H1 H2. unfold binary_round. rewrite <- Et. unfold shl_align.
    destruct (Z_le_gt_dec t e) as [Hle|Hgt].
    - specialize (H1 Hle). pose proof (digits_scale p q (e - t) ltac:(lia) H1) as Hd.
      assert (Hc : fe (Z.pos (digits2_pos q) + t) = t) by (rewrite Hd; rewrite Et at 3; f_equal; lia).
      destruct (t - e) as [|d|d] eqn:Ed; [| lia |].
      + replace e with t by lia. replace p with q by (replace (e - t) with 0 in H1 by lia; lia).
        apply round_aux_canon; assumption.
      + replace (shift_pos d p) with q by (pose proof (shift_pos_eq d p); replace (e - t) with (Z.pos d) in H1 by lia; lia).
        apply round_aux_canon; assumption.
    - specialize (H2 ltac:(lia)). pose proof (digits_scale q p (t - e) ltac:(lia) H2) as Hd.
      assert (Hc : fe (Z.pos (digits2_pos q) + t) = t) by (rewrite Et at 2; rewrite Hd; f_equal; lia).
      destruct (t - e) as [|d|d] eqn:Ed; [lia| |lia].
      unfold binary_round_aux at 1. unfold shr_fexp at 1. cbn [Zdigits2]. rewrite <- Et, Ed. cbn [shr shr_record_of_loc].
      rewrite iter_pos_nat, H2. replace (Z.pos d) with (Z.of_nat (Pos.to_nat d)) by lia.
      rewrite shr_exact by lia. cbn [shr_m loc_of_shr_record round_nearest_even].
      replace (e + Z.of_nat (Pos.to_nat d)) with t by lia.
      unfold shr_fexp. cbn [Zdigits2 shr_record_of_loc]. rewrite Hc, Z.sub_diag. cbn [shr shr_m].
      replace (t <=? emax - prec) with true by lia. reflexivity.
  Qed.
End Round.

Lemma fexp32 e : -125 <= e -> SpecFloat.fexp 24 128 e = e - 24.
Proof. unfold SpecFloat.fexp, emin. lia. Qed.

(** the canonical mantissa of a positive integer up to 2^24 *)
Definition cmant (n : positive) : positive :=
  let d := Z.pos (digits2_pos n) in
  if d <=? 24 then Z.to_pos (Z.pos n * 2 ^ (24 - d)) else Z.to_pos (2 ^ 23).
Lemma pow24_digits n : Z.pos n <= 2 ^ 24 -> Z.pos (digits2_pos n) <= 24 \/ (Z.pos n = 2 ^ 24 /\ Z.pos (digits2_pos n) = 25).
Proof.
  intros H. pose proof (digits_bound n) as Hb.
  destruct (Z_le_gt_dec (Z.pos (digits2_pos n)) 24) as [|Hg]; [left; assumption|right].
  destruct (Z_le_gt_dec (Z.pos (digits2_pos n)) 25) as [|Hg'].
  - assert (Hd : Z.pos (digits2_pos n) = 25) by lia. rewrite Hd in Hb. change (25 - 1) with 24 in Hb. lia.
  - pose proof (Z.pow_le_mono_r 2 25 (Z.pos (digits2_pos n) - 1)). change (2 ^ 25) with (2 * 2 ^ 24) in *. lia.
Qed.

Lemma round_scaled s n k : Z.pos n <= 2 ^ 24 -> 0 <= k <= 23 ->
  binary_round 24 128 s (Z.to_pos (Z.pos n * 2 ^ k)) (- k) = S754_finite s (cmant n) (Z.pos (digits2_pos n) - 24).
Proof.
  intros Hn Hk.
  assert (Hk2 : 0 < 2 ^ k) by (apply Z.pow_pos_nonneg; lia).
  assert (Hp : Z.pos (Z.to_pos (Z.pos n * 2 ^ k)) = Z.pos n * 2 ^ k) by (apply Z2Pos.id; nia).
  pose proof (digits_scale n _ k ltac:(lia) Hp) as Hd.
  assert (HD : 0 < Z.pos (digits2_pos n)) by lia.
  destruct (pow24_digits n Hn) as [H24|[HN H25]].
  - assert (Hq : Z.pos (cmant n) = Z.pos n * 2 ^ (24 - Z.pos (digits2_pos n))).
    { unfold cmant. replace (Z.pos (digits2_pos n) <=? 24) with true by lia. apply Z2Pos.id.
      pose proof (Z.pow_pos_nonneg 2 (24 - Z.pos (digits2_pos n))). nia. }
    apply round_exact; try lia.
    + rewrite Hd, fexp32 by lia. lia.
    + intros Hle. rewrite Hp, Hq, <- Z.mul_assoc, <- Z.pow_add_r by lia. f_equal. f_equal. lia.
    + intros Hlt. rewrite Hp, Hq, <- Z.mul_assoc, <- Z.pow_add_r by lia. f_equal. f_equal. lia.
  - assert (Hq : Z.pos (cmant n) = 2 ^ 23).
    { unfold cmant. rewrite H25. change (25 <=? 24) with false. reflexivity. }
    apply round_exact; try lia.
    + rewrite Hd, fexp32 by lia. lia.
    + intros Hlt. rewrite Hp, Hq, HN, H25, <- !Z.pow_add_r by lia. f_equal. lia.
Qed.
Lemma round_int s n : Z.pos n <= 2 ^ 24 ->
  binary_round 24 128 s n 0 = S754_finite s (cmant n) (Z.pos (digits2_pos n) - 24).
Proof. intros H. rewrite <- (round_scaled s n 0 H) by lia. rewrite Z.mul_1_r. reflexivity. Qed.

Definition small (z : Z) : Prop := - 2 ^ 24 < z < 2 ^ 24.

Lemma normalize_scaled z k : - 2 ^ 24 <= z <= 2 ^ 24 -> 0 <= k <= 23 ->
  binary_normalize 24 128 (z * 2 ^ k) (- k) false = f32_of_Z z.
Proof.
  intros Hz Hk. assert (Hk2 : 0 < 2 ^ k) by (apply Z.pow_pos_nonneg; lia).
  unfold f32_of_Z. destruct z as [|n|n]; [reflexivity| |].
  - replace (Z.pos n * 2 ^ k) with (Z.pos (Z.to_pos (Z.pos n * 2 ^ k))) by (apply Z2Pos.id; nia).
    cbn [binary_normalize]. rewrite round_scaled, round_int by lia. reflexivity.
  - replace (Z.neg n * 2 ^ k) with (Z.neg (Z.to_pos (Z.pos n * 2 ^ k)))
      by (rewrite <- Pos2Z.opp_pos, Z2Pos.id by nia; nia).
    cbn [binary_normalize]. rewrite round_scaled, round_int by lia. reflexivity.
Qed.

(** mantissa and exponent of a non-zero small integer *)
Lemma f32_of_Z_form z : small z -> z <> 0 ->
  exists m e, f32_of_Z z = S754_finite (z <? 0) m e /\ -23 <= e <= 0 /\ Z.pos m = Z.abs z * 2 ^ (- e).
Proof.
  intros Hz Hz0. unfold small in Hz.
  assert (HP : forall n, Z.pos n < 2 ^ 24 -> exists m e, binary_round 24 128 (z <? 0) n 0 = S754_finite (z <? 0) m e
     /\ -23 <= e <= 0 /\ Z.pos m = Z.pos n * 2 ^ (- e)).
  { intros n Hn. destruct (pow24_digits n ltac:(lia)) as [Hd|[Hd _]]; [|lia].
    exists (cmant n), (Z.pos (digits2_pos n) - 24). split; [apply round_int; lia|]. split; [lia|].
    unfold cmant. replace (Z.pos (digits2_pos n) <=? 24) with true by lia.
    rewrite Z2Pos.id.
    - f_equal. f_equal. lia.
    - pose proof (Z.pow_pos_nonneg 2 (24 - Z.pos (digits2_pos n))). nia. }
  unfold f32_of_Z. destruct z as [|n|n]; [lia| |]; cbn [binary_normalize Z.abs]; apply HP; lia.
Qed.

(** ** Integers below 2^24 add exactly *)
Lemma shl_align_min m e ez : ez <= e -> Z.pos (fst (shl_align m e ez)) = Z.pos m * 2 ^ (e - ez).
Proof.
  intros H. unfold shl_align. destruct (ez - e) as [|d|d] eqn:E; cbn [fst].
  - replace (e - ez) with 0 by lia. lia.
  - lia.
  - rewrite shift_pos_eq. f_equal. f_equal. lia.
Qed.
Lemma fadd_int a b : small a -> small b -> - 2 ^ 24 <= a + b <= 2 ^ 24 ->
  fadd (f32_of_Z a) (f32_of_Z b) = f32_of_Z (a + b).
Proof.
  intros Ha Hb Hab. unfold fadd.
  destruct (Z.eq_dec a 0) as [->|Ha0].
  { destruct (Z.eq_dec b 0) as [->|Hb0]; [reflexivity|].
    destruct (f32_of_Z_form b Hb Hb0) as (m & e & E & _). rewrite Z.add_0_l, E. reflexivity. }
  destruct (f32_of_Z_form a Ha Ha0) as (m & e & E & He & Hm).
  destruct (Z.eq_dec b 0) as [->|Hb0].
  { rewrite Z.add_0_r, E. reflexivity. }
  destruct (f32_of_Z_form b Hb Hb0) as (m' & e' & E' & He' & Hm').
  rewrite E, E'. cbn [SFadd].
  assert (HA : forall s (M : positive) ee zz, -23 <= ee <= 0 -> s = (zz <? 0) -> Z.pos M = Z.abs zz * 2 ^ (- ee) -> forall ez, -23 <= ez <= ee ->
     cond_Zopp s (Z.pos (fst (shl_align M ee ez))) = zz * 2 ^ (- ez)).
  { intros s M ee zz Hee -> HM ez Hez. rewrite shl_align_min, HM by lia.
    rewrite <- Z.mul_assoc, <- Z.pow_add_r by lia. replace (- ee + (ee - ez)) with (- ez) by lia.
    unfold cond_Zopp. destruct (Z.ltb_spec zz 0); nia. }
  rewrite (HA _ m e a), (HA _ m' e' b) by (auto; lia).
  rewrite <- Z.mul_add_distr_r. rewrite <- (normalize_scaled (a + b) (- Z.min e e')) by lia.
  f_equal. lia.
Qed.

Lemma counter_step n : 0 <= n < 2 ^ 24 -> fadd (f32_of_Z n) f1 = f32_of_Z (n + 1).
Proof. intros H. apply fadd_int; unfold small; lia. Qed.
Lemma counter_stuck : fadd (f32_of_Z (2 ^ 24)) f1 = f32_of_Z (2 ^ 24).
Proof. vm_compute. reflexivity. Qed.

(** ** The order of floats: a total preorder away from NaN *)
Definition key (x : spec_float) : Z * Z * Z :=
  match x with
  | S754_zero _ => (0, 0, 0)
  | S754_infinity s => (if s then -2 else 2, 0, 0)
  | S754_nan => (0, 0, 0)
  | S754_finite s m e => if s then (-1, - e, - Z.pos m) else (1, e, Z.pos m)
  end.
Definition lex3 (a b : Z * Z * Z) : comparison :=
  let '(a1, a2, a3) := a in let '(b1, b2, b3) := b in
  match a1 ?= b1 with Eq => (match a2 ?= b2 with Eq => a3 ?= b3 | c => c end) | c => c end.
Lemma compare_key a b : a <> S754_nan -> b <> S754_nan -> SFcompare a b = Some (lex3 (key a) (key b)).
Proof.
  destruct a as [s|s| |s m e], b as [s'|s'| |s' m' e']; intros Ha Hb; try congruence;
    try (destruct s; reflexivity); try (destruct s'; reflexivity); try (destruct s, s'; reflexivity).
  - cbn [SFcompare key]. f_equal. destruct s, s'; cbn [lex3 Z.compare Pos.compare Pos.compare_cont].
    + rewrite Z.compare_opp. rewrite (Z.compare_antisym e e').
      destruct (e ?= e') eqn:E; cbn [CompOpp]; auto.
    + reflexivity.
    + reflexivity.
    + destruct (e ?= e'); reflexivity.
Qed.
Lemma lex3_antisym a b : lex3 b a = CompOpp (lex3 a b).
Proof.
  destruct a as [[a1 a2] a3], b as [[b1 b2] b3]. cbn.
  rewrite (Z.compare_antisym a1 b1). destruct (a1 ?= b1); cbn; auto.
  rewrite (Z.compare_antisym a2 b2). destruct (a2 ?= b2); cbn; auto. apply Z.compare_antisym.
Qed.
Definition lex_le (a b : Z * Z * Z) : Prop := lex3 a b <> Gt.
Lemma lex_le_trans a b c : lex_le a b -> lex_le b c -> lex_le a c.
Proof.
  unfold lex_le. destruct a as [[a1 a2] a3], b as [[b1 b2] b3], c as [[c1 c2] c3]. cbn.
  destruct (Z.compare_spec a1 b1), (Z.compare_spec b1 c1), (Z.compare_spec a1 c1); try lia; try congruence;
  destruct (Z.compare_spec a2 b2), (Z.compare_spec b2 c2), (Z.compare_spec a2 c2); try lia; try congruence;
  destruct (Z.compare_spec a3 b3), (Z.compare_spec b3 c3), (Z.compare_spec a3 c3); try lia; try congruence.
Qed.

(** ** [max_by] on comparable scores *)
Section MaxBy.
  Context {A : Type}.
  Variable score : A -> spec_float.
  Let cmp (a b : A) := fcmp (score a) (score b).
  Definition fle (a b : spec_float) : Prop := fcmp a b <> Gt.

  Lemma fcmp_key a b : a <> S754_nan -> b <> S754_nan -> fcmp a b = lex3 (key a) (key b).
  Proof. intros Ha Hb. unfold fcmp. rewrite compare_key by assumption. reflexivity. Qed.

  Lemma max_by_from_spec l : forall best,
    (forall x, In x (best :: l) -> score x <> S754_nan) ->
    exists l1 l2, best :: l = l1 ++ max_by_from cmp best l :: l2
      /\ (forall x, In x l1 -> fle (score x) (score (max_by_from cmp best l)))
      /\ (forall x, In x l2 -> fcmp (score (max_by_from cmp best l)) (score x) = Gt).
  Proof.
    induction l as [|x l IH]; intros best HN; cbn [max_by_from].
    - exists [], []. cbn. repeat split; intros ? [].
    - assert (Hb : score best <> S754_nan) by (apply HN; left; reflexivity).
      assert (Hx : score x <> S754_nan) by (apply HN; right; left; reflexivity).
      destruct (IH (match cmp best x with Gt => best | _ => x end)) as (l1 & l2 & E & H1 & H2).
      { intros y [Hy|Hy]; [|apply HN; right; right; exact Hy]. subst y. destruct (cmp best x); assumption. }
      set (m := max_by_from cmp (match cmp best x with Gt => best | _ => x end) l) in *.
      destruct (cmp best x) eqn:C; unfold cmp in C.
      1,2: exists (best :: l1), l2; split; [cbn; f_equal; exact E|]; split; [|exact H2];
        intros y [<-|Hy]; [|apply H1; exact Hy];
        (assert (Hxm : fle (score x) (score m));
          [destruct l1 as [|z l1]; cbn in E; injection E as E1 E2;
           [rewrite <- E1; unfold fle; rewrite fcmp_key by assumption; destruct (key (score x)) as [[? ?] ?]; cbn; rewrite !Z.compare_refl; discriminate
           |subst z; apply H1; left; reflexivity]|]);
        (assert (Hm : score m <> S754_nan) by
          (apply HN; right; rewrite E; apply in_or_app; right; left; reflexivity));
        unfold fle in *; rewrite fcmp_key in * by assumption;
        apply (lex_le_trans _ (key (score x))); unfold lex_le; congruence.
      destruct l1 as [|z l1]; cbn in E; injection E as E1 E2.
      + (* best stays the maximum *)
        exists [], (x :: l). rewrite <- E1. split; [reflexivity|]. split; [intros ? []|].
        intros y [<-|Hy]; [exact C|]. rewrite E1. apply H2. rewrite <- E2. exact Hy.
      + exists (best :: x :: l1), l2. split; [cbn; do 2 f_equal; exact E2|]. split; [|exact H2].
        assert (Hbm : fle (score best) (score m)) by (subst z; apply H1; left; reflexivity).
        assert (Hm : score m <> S754_nan)
          by (apply HN; right; right; rewrite E2; apply in_or_app; right; left; reflexivity).
        intros y [<-|[<-|Hy]]; [exact Hbm| |apply H1; right; exact Hy].
        unfold fle in *. rewrite fcmp_key in * by assumption.
        apply (lex_le_trans _ (key (score best))); unfold lex_le; [|exact Hbm].
        rewrite lex3_antisym, C. discriminate.
  Qed.

  Lemma max_by_from_in l : forall best, In (max_by_from cmp best l) (best :: l).
  Proof.
    induction l as [|x l IH]; intros best; cbn [max_by_from]; [left; reflexivity|].
    destruct (IH (match cmp best x with Gt => best | _ => x end)) as [H|H]; [|right; right; exact H].
    rewrite <- H. destruct (cmp best x); cbn; auto.
  Qed.
End MaxBy.

Lemma max_by_in (A : Type) (cmp : A -> A -> comparison) l x : max_by cmp l = Some x -> In x l.
Proof.
  destruct l as [|y l]; [discriminate|]. cbn [max_by]. intros [= <-].
  revert y. induction l as [|z l IH]; intros y; cbn [max_by_from]; [left; reflexivity|].
  destruct (IH (match cmp y z with Gt => y | _ => z end)) as [H|H]; [|right; right; exact H].
  rewrite <- H. destruct (cmp y z); cbn; auto.
Qed.

(** ** Comparison of small integers *)
Lemma fcmp_int a b : 0 <= a < 2 ^ 24 -> 0 <= b < 2 ^ 24 -> fcmp (f32_of_Z a) (f32_of_Z b) = (a ?= b).
Proof.
  intros Ha Hb.
  destruct a as [|n|n]; [| |lia].
  - destruct b as [|m|m]; [reflexivity| |lia]. unfold f32_of_Z. cbn [binary_normalize]. rewrite round_int by lia. reflexivity.
  - destruct b as [|m|m]; [unfold f32_of_Z; cbn [binary_normalize]; rewrite round_int by lia; reflexivity| |lia].
    unfold f32_of_Z. cbn [binary_normalize]. rewrite !round_int by lia. unfold fcmp. cbn [SFcompare].
    destruct (pow24_digits n ltac:(lia)) as [Hn|[Hn _]]; [|lia].
    destruct (pow24_digits m ltac:(lia)) as [Hm|[Hm _]]; [|lia].
    pose proof (digits_bound n) as Bn. pose proof (digits_bound m) as Bm.
    destruct (Z.compare_spec (Z.pos (digits2_pos n) - 24) (Z.pos (digits2_pos m) - 24)) as [E|L|G].
    + change (Pos.compare_cont Eq (cmant n) (cmant m)) with (Z.pos (cmant n) ?= Z.pos (cmant m)).
      unfold cmant. replace (Z.pos (digits2_pos n) <=? 24) with true by lia.
      replace (Z.pos (digits2_pos m) <=? 24) with true by lia.
      replace (Z.pos (digits2_pos m)) with (Z.pos (digits2_pos n)) by lia.
      set (q := 2 ^ (24 - Z.pos (digits2_pos n))). assert (0 < q) by (apply Z.pow_pos_nonneg; lia).
      rewrite !Z2Pos.id by nia. destruct (Z.compare_spec (Z.pos n) (Z.pos m)) as [En|Ln|Gn].
      * rewrite En. apply Z.compare_refl.
      * apply Z.compare_lt_iff. nia.
      * apply Z.compare_gt_iff. nia.
    + pose proof (Z.pow_le_mono_r 2 (Z.pos (digits2_pos n)) (Z.pos (digits2_pos m) - 1)).
      symmetry. apply Z.compare_lt_iff. lia.
    + pose proof (Z.pow_le_mono_r 2 (Z.pos (digits2_pos m)) (Z.pos (digits2_pos n) - 1)).
      symmetry. apply Z.compare_gt_iff. lia.
Qed.
Lemma f32_of_Z_inj a b : 0 <= a < 2 ^ 24 -> 0 <= b < 2 ^ 24 -> f32_of_Z a = f32_of_Z b -> a = b.
Proof.
  intros Ha Hb E. apply Z.compare_eq. rewrite <- fcmp_int by assumption. rewrite E.
  rewrite fcmp_int by assumption. apply Z.compare_refl.
Qed.
Lemma f32_of_Z_not_nan a : small a -> f32_of_Z a <> S754_nan.
Proof.
  intros Ha. destruct (Z.eq_dec a 0) as [->|Hn]; [discriminate|].
  destruct (f32_of_Z_form a Ha Hn) as (m & e & E & _). rewrite E. discriminate.
Qed.
