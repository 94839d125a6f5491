(** * SampleFacts: a drawn index has non-zero weight; f32 sums of small integers are exact. *)
From Verif Require Import Base BaseFacts F32 F32Facts RoundFacts SampleModel McSpec AlphaCount.
From Coq Require Import Permutation.
Require Import ZifyBool ZifyNat.

Lemma dnn_ge0 x : dnn x -> SFleb d0 x = true.
Proof. intros [->|(m & e & -> & _)]; reflexivity. Qed.
Lemma dnn_eq0 x : dnn x -> SFeqb x d0 = true -> x = S754_zero false.
Proof. intros [->|(m & e & -> & _)] H; [reflexivity|discriminate H]. Qed.
Lemma dnn_finite x : dnn x -> is_finite x = true.
Proof. intros [->|(m & e & -> & _)]; reflexivity. Qed.
Lemma dnn_pos x : dnn x -> x <> S754_zero false -> SFltb d0 x = true.
Proof. intros [->|(m & e & -> & _)] H; [congruence|reflexivity]. Qed.
Lemma lt_not_ge a b : SFltb a b = true -> SFleb b a = false.
Proof.
  intros H. assert (Ha : a <> S754_nan) by (intros ->; discriminate H).
  assert (Hb : b <> S754_nan) by (intros ->; destruct a as [[]|[]| |[] m e]; discriminate H).
  unfold SFltb, SFleb in *. rewrite compare_key in * by assumption. rewrite lex3_antisym. destruct (lex3 (key a) (key b)); cbn; congruence.
Qed.

Definition U : Z := 2 ^ 1074.
Definition wok (w : f64) : Prop := dnn w /\ dval w <= U.

(** [bnd k t]: [t] is a rounded sum of [k] weights *)
Definition bnd (k : Z) (t : f64) : Prop := dnn t /\ 2 ^ 51 * dval t <= k * (2 ^ 51 + k) * U.
Lemma bnd_step k t w : 0 <= k < 2 ^ 40 -> bnd k t -> wok w -> bnd (k + 1) (dadd t w)
  /\ (dadd t w = S754_zero false <-> t = S754_zero false /\ w = S754_zero false)
  /\ (w = S754_zero false -> dadd t w = t).
Proof.
  intros Hk [Ht Hb] [Hw Hu]. pose proof (dval_nonneg t Ht). pose proof (dval_nonneg w Hw).
  assert (HU : 0 < U) by (unfold U; apply pow2_pos; lia).
  assert (Hle : dval t + dval w <= 2 ^ 50 * 2 ^ 1074).
  { fold U. assert (2 ^ 51 * dval t <= 2 ^ 51 * (2 * k * U)) by nia. nia. }
  destruct (dadd_spec t w Ht Hw Hle) as (D1 & D2 & D3 & D4). split; [|split; assumption]. split; [exact D1|].
  set (A := dval (dadd t w)) in *. set (v := dval t + dval w) in *.
  assert (H1 : 2 ^ 51 * v <= (k + 1) * (2 ^ 51 + k) * U) by (unfold v; nia).
  assert (H2 : 2 ^ 52 * A <= v * (2 ^ 52 + 1)) by lia.
  assert (H3 : 2 ^ 52 * (2 ^ 51 * A) <= (k + 1) * (2 ^ 51 + k) * U * (2 ^ 52 + 1)) by nia.
  assert (H4 : (2 ^ 51 + k) * (2 ^ 52 + 1) <= 2 ^ 52 * (2 ^ 51 + (k + 1))) by nia.
  assert (H5 : (k + 1) * U * ((2 ^ 51 + k) * (2 ^ 52 + 1)) <= (k + 1) * U * (2 ^ 52 * (2 ^ 51 + (k + 1)))) by (apply Z.mul_le_mono_nonneg_l; nia).
  assert (H6 : 2 ^ 52 * (2 ^ 51 * A) <= 2 ^ 52 * ((k + 1) * (2 ^ 51 + (k + 1)) * U)) by (clear H H0 Hb Hu Hle H1 H2 H4; nia).
  apply Z.mul_le_mono_pos_l in H6; [exact H6|reflexivity].
Qed.

Lemma cumulate_ok ws : forall k t, 0 <= k -> k + Z.of_nat (length ws) <= 2 ^ 40 -> bnd k t -> Forall wok ws ->
  exists cs t', cumulate t ws = Some (cs, t') /\ dnn t' /\ (t' = S754_zero false <-> t = S754_zero false /\ Forall (fun w => w = S754_zero false) ws)
    /\ forall x, SFleb t' x = false ->
         (weighted_search cs x < S (length ws))%nat
         /\ (forall j, weighted_search cs x = S j -> nth j ws d0 <> S754_zero false)
         /\ (weighted_search cs x = 0%nat -> SFleb t x = false).
Proof.
  induction ws as [|w ws IH]; intros k t Hk HL Hb HF.
  - exists [], t. cbn. split; [reflexivity|]. split; [apply Hb|]. split; [split; [intros ->; auto|tauto]|].
    intros x Hx. split; [lia|]. split; [discriminate|auto].
  - inversion HF as [|? ? Hw HF']; subst. cbn [length] in HL.
    destruct (bnd_step k t w ltac:(lia) Hb Hw) as (Hb' & Hz & Hs).
    destruct (IH (k + 1) (dadd t w) ltac:(lia) ltac:(lia) Hb' HF') as (cs & t' & E & Hd & Ht' & Hsel).
    exists (t :: cs), t'. cbn [cumulate]. rewrite (dnn_ge0 w (proj1 Hw)), E. split; [reflexivity|]. split; [exact Hd|]. split.
    + rewrite Ht', Hz. split; [intros [[-> ->] H]; split; [reflexivity|]; constructor; auto|].
      intros [-> H]. inversion H; subst. auto.
    + intros x Hx. destruct (Hsel x Hx) as (S1 & S2 & S3). cbn [weighted_search length].
      destruct (SFleb t x) eqn:Etx.
      * split; [lia|]. split; [|discriminate]. intros j [= <-]. destruct (weighted_search cs x) as [|i] eqn:Ei.
        -- cbn [nth]. intros Hw0. rewrite (Hs Hw0) in S3. rewrite (S3 eq_refl) in Etx. discriminate.
        -- cbn [nth]. apply S2. reflexivity.
      * split; [lia|]. split; [discriminate|]. intros _. reflexivity.
Qed.

(** sampling from unit-interval weights of which one is not zero *)
Lemma select_ok unif pi r : unif_ok unif -> Z.of_nat (length pi) <= 2 ^ 40 -> Forall unit32 pi -> Exists (fun x => x <> f0) pi ->
  exists k r', weighted_select_tensor_idx unif pi r = Ok (k, r') /\ (k < length pi)%nat /\ nth k pi f0 <> f0.
Proof.
  intros HU HL HF HE. unfold weighted_select_tensor_idx. destruct pi as [|p pi]; [inversion HE|]. cbn [map length] in *.
  assert (HW : Forall wok (map f64_of_f32 (p :: pi))).
  { apply Forall_map. eapply Forall_impl; [|exact HF]. intros x Hx. destruct (widen_unit x Hx) as (D1 & D2 & _). split; assumption. }
  cbn [map] in HW. inversion HW as [|? ? Hp HW']; subst. inversion HF as [|? ? Hpu HFu]; subst. cbn [weighted_new]. rewrite (dnn_ge0 _ (proj1 Hp)).
  assert (Hb : bnd 1 (f64_of_f32 p)).
  { split; [apply Hp|]. destruct Hp as [_ Hp]. assert (0 < U) by (unfold U; apply pow2_pos; lia). nia. }
  destruct (cumulate_ok (map f64_of_f32 pi) 1 (f64_of_f32 p) ltac:(lia) ltac:(rewrite map_length; lia) Hb HW') as (cs & t & E & Hd & Hz & Hsel).
  rewrite E.
  assert (Hzf : forall x, unit32 x -> f64_of_f32 x = S754_zero false -> x = f0).
  { intros x Hx H. apply (widen_unit x Hx) in H. exact H. }
  assert (Hne : t <> S754_zero false).
  { intros Ht. apply Hz in Ht. destruct Ht as [Hp0 Hrest]. apply Exists_exists in HE. destruct HE as (x & [<-|Hin] & Hx0); apply Hx0.
    - apply Hzf; assumption.
    - rewrite Forall_forall in Hrest, HFu. apply Hzf; [apply HFu, Hin|]. apply Hrest, in_map, Hin. }
  destruct (SFeqb t d0) eqn:Et; [exfalso; apply Hne, dnn_eq0; assumption|]. rewrite (dnn_finite t Hd). cbn [bind].
  destruct (HU t r (dnn_pos t Hd Hne) (dnn_finite t Hd)) as [U1 U2]. destruct (unif t r) as [x r'] eqn:Eu. cbn [fst] in *.
  apply lt_not_ge in U2. destruct (Hsel x U2) as (S1 & S2 & S3). rewrite map_length in S1.
  exists (weighted_search cs x), r'. split; [reflexivity|]. split; [exact S1|].
  destruct (weighted_search cs x) as [|j]; cbn [nth].
  - intros ->. specialize (S3 eq_refl). change (f64_of_f32 f0) with d0 in S3. congruence.
  - intros Hj. apply (S2 j eq_refl). change d0 with (f64_of_f32 f0). rewrite map_nth, Hj. reflexivity.
Qed.

(** a weight vector without a valid weight is refused *)
Lemma select_nan unif pi r : Exists (fun x => x = S754_nan) pi -> weighted_select_tensor_idx unif pi r = Panic PUnwrap.
Proof.
  intros HE. unfold weighted_select_tensor_idx. destruct pi as [|p pi]; [inversion HE|]. cbn [map weighted_new].
  destruct (SFleb d0 (f64_of_f32 p)) eqn:E0; [|reflexivity].
  assert (HE' : Exists (fun x => x = S754_nan) pi) by (inversion HE as [? ? H|]; subst; [discriminate E0|assumption]).
  assert (Hc : forall l t, Exists (fun x => x = S754_nan) l -> cumulate t (map f64_of_f32 l) = None).
  { induction l as [|y l IH]; intros t H; [inversion H|]. cbn [map cumulate]. destruct (SFleb d0 (f64_of_f32 y)) eqn:Ey; [|reflexivity].
    inversion H as [? ? Hy|]; subst; [discriminate Ey|]. rewrite IH by assumption. reflexivity. }
  rewrite (Hc pi _ HE'). reflexivity.
Qed.

(** ** f32 sums of counters *)
Lemma zsum_perm l l' : Permutation l l' -> zsum l = zsum l'.
Proof. induction 1; rewrite ?zsum_cons in *; lia. Qed.
Lemma zsum_app a b : zsum (a ++ b) = zsum a + zsum b.
Proof. induction a as [|x a IH]; cbn [app]; rewrite ?zsum_cons; [reflexivity|lia]. Qed.
Lemma sums_int l x : sums l x -> forall zs, l = map f32_of_Z zs -> (forall z, In z zs -> 0 <= z) -> zsum zs < 2 ^ 24 -> x = f32_of_Z (zsum zs).
Proof.
  induction 1 as [|x|a b l x y HP Ha IHa Hb IHb]; intros zs E Hpos HS.
  - destruct zs; [reflexivity|discriminate].
  - destruct zs as [|z [|z' zs]]; try discriminate. injection E as ->. cbn. f_equal. lia.
  - subst l. apply Permutation_map_inv in HP. destruct HP as (zs' & E & HP).
    symmetry in E. apply map_eq_app in E. destruct E as (za & zb & -> & <- & <-).
    pose proof (zsum_perm _ _ HP) as Hz. rewrite zsum_app in Hz.
    assert (Hp : forall z, In z (za ++ zb) -> 0 <= z) by (intros z Hz'; apply Hpos; apply Permutation_sym in HP; eapply Permutation_in; eassumption).
    assert (Hna : 0 <= zsum za) by (apply zsum_nonneg; intros z Hi; apply Hp, in_or_app; auto).
    assert (Hnb : 0 <= zsum zb) by (apply zsum_nonneg; intros z Hi; apply Hp, in_or_app; auto).
    rewrite (IHa za eq_refl), (IHb zb eq_refl); try lia; try (intros z Hi; apply Hp, in_or_app; auto).
    rewrite fadd_int by (unfold small; lia). f_equal. lia.
Qed.
