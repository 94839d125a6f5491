(** * SelectNum: with bounded values and proper priors every score of the batched search is a number. *)
From Verif Require Import Base BaseFacts F32 F32Facts GameModel McModel McSpec AlphaModel AlphaSpec SelectSpec LogSpec AlphaLogSpec
  McProof McApi AlphaProof AlphaCount AlphaApi2 LogProof NanFacts NumFacts LogApi Tensor.
From Coq Require Import Arith Permutation.
Require Import ZifyBool ZifyNat.

Lemma top_new v : 0 <= v < 2 ^ 24 -> f32_of_Z v <> f32_of_Z (2 ^ 24).
Proof.
  intros Hv. change (f32_of_Z (2 ^ 24)) with (S754_finite false 8388608 1). destruct v as [|p|p]; [discriminate| |lia].
  unfold f32_of_Z. cbn [binary_normalize]. rewrite round_int by lia. destruct (pow24_digits p ltac:(lia)) as [Hd|[Hp _]]; [|lia]. intros E. injection E as _ E. lia.
Qed.
Lemma total_snoc1 b (vs : list f32) v : total b (map (fun _ => f1) (vs ++ [v])) = fadd (total b (map (fun _ => f1) vs)) f1.
Proof. rewrite map_app. unfold total. rewrite fold_left_app. reflexivity. Qed.
Lemma total_ones1 (vs : list f32) : total f1 (map (fun _ => f1) vs) = f32_of_Z (Z.min (1 + Z.of_nat (length vs)) (2 ^ 24)).
Proof.
  induction vs as [|v vs IH] using rev_ind; [reflexivity|]. rewrite total_snoc1, IH, app_length. cbn [length].
  destruct (Z_lt_le_dec (1 + Z.of_nat (length vs)) (2 ^ 24)) as [Hl|Hl].
  - rewrite Z.min_l by lia. rewrite counter_step by lia. f_equal. lia.
  - rewrite !Z.min_r by lia. reflexivity.
Qed.
Lemma reported_le G (st : store G) g j log vs vs' : (forall i, on_path st i j -> on_path st i g) -> reported st g log vs -> reported st j log vs' -> (length vs' <= length vs)%nat.
Proof.
  intros HP H. revert vs'. induction H as [|i v log vs Hi H IH|i v log vs Hi H IH]; intros vs' H'; inversion H'; subst; cbn [length].
  - lia.
  - match goal with X : reported _ _ _ _ |- _ => specialize (IH _ X) end. lia.
  - match goal with X : reported _ _ _ _ |- _ => specialize (IH _ X) end. lia.
  - exfalso. auto.
  - auto.
Qed.
Lemma reported_in G (st : store G) j log vs v : reported st j log vs -> In v vs -> exists i, In (i, v) log.
Proof. induction 1 as [|i w log vs Hi H IH|i w log vs Hi H IH]; intros Hin; [destruct Hin| |]; [destruct Hin as [->|Hin]|]; [exists i; left; reflexivity| |]; destruct (IH Hin) as [k Hk]; exists k; right; exact Hk. Qed.
Lemma at_most_score G pl (s : St G) : at_most 1 (f32_of_Z (score pl s)).
Proof.
  unfold score. destruct (g_winner G s) as [w|]; [|exact Logic.I]. destruct (w =? pl); [|destruct (w =? - pl)]; vm_compute; repeat split; congruence.
Qed.

Section S.
  Variable G : Game.
  Variable I : St G -> Prop.
  Hypothesis HA : alpha_game G I.

  Lemma reports_bound tsum dirichlet nt cfg order ss r st r' : net_ok G nt -> (forall k a rr, length (fst (dirichlet k a rr)) = k) ->
    (forall s, In s ss -> I s) -> Permutation order (seq 0 (length ss)) -> 1 + Z.of_nat (iterations cfg) * Z.of_nat (S (length ss)) < 2 ^ 24 ->
    (forall x v, In v (data (net_value nt x)) -> at_most 1 v) ->
    alpha_mcts_parallel tsum dirichlet nt cfg order [] ss r = Ok (st, r') -> forest ss st ->
    forall j n, nth_error st j = Some n -> exists N v, 0 <= N <= v /\ v < 2 ^ 24 /\ at_most N (n_value n) /\ n_visits n = f32_of_Z v.
  Proof.
    intros HNet Hdir HI HP HB HV H HF j n En.
    destruct (C61_values_lemma G I HA tsum dirichlet nt cfg order ss r st r' HNet Hdir HI HP H) as (log & HO & Hacc).
    destruct (owner_ex G ss st HF j (nth_error_lt _ _ _ _ En)) as (g & Hg & Hpath).
    destruct (forest_root_lt G ss st g HF Hg) as (gn & s & Egn & _).
    destruct (Hacc g gn Egn) as (vg & Hrg & Hvg & _). replace (g <? length ss)%nat with true in Hvg by lia.
    destruct (C38_bounds_lemma G I HA tsum dirichlet nt cfg ss order r st r' HI HP ltac:(lia) H g gn Hg Egn) as (v & Hv & Hvb & _).
    rewrite Hvg, total_ones1 in Hv.
    assert (HLg : 1 + Z.of_nat (length vg) < 2 ^ 24).
    { destruct (Z_lt_le_dec (1 + Z.of_nat (length vg)) (2 ^ 24)) as [|Hge]; [assumption|]. exfalso. rewrite Z.min_r in Hv by exact Hge.
      apply (top_new v); [lia|symmetry; exact Hv]. }
    destruct (Hacc j n En) as (vj & Hrj & Hvj & Hwj).
    pose proof (reported_le G st g j log vg vj ltac:(intros i Hi; eapply on_path_trans; eassumption) Hrg Hrj) as HL.
    exists (Z.of_nat (length vj)). exists ((if (j <? length ss)%nat then 1 else 0) + Z.of_nat (length vj)).
    assert (HM : at_most (Z.of_nat (length vj)) (total f0 vj)).
    { apply at_most_total; [|lia]. apply Forall_forall. intros y Hy. destruct (reported_in G st j log vj y Hrj Hy) as [i Hi].
      destruct (HO i y Hi) as (m & _ & [(g' & s' & w & _ & _ & _ & ->)|(ss' & k & row & x & _ & _ & _ & Hd)]); [apply at_most_score|].
      apply (HV x). eapply nth_error_In. exact Hd. }
    rewrite Hwj, Hvj. destruct (j <? length ss)%nat.
    - rewrite total_ones1, Z.min_l by lia. repeat split; try lia; assumption.
    - rewrite (total_ones (length vj) ltac:(lia) vj eq_refl). repeat split; try lia; assumption.
  Qed.
End S.

Theorem C59_network_numbers_lemma : forall G I, alpha_game G I -> forall tsum dirichlet nt cfg order ss r st r', net_ok G nt ->
  (forall k a rr, length (fst (dirichlet k a rr)) = k) -> (forall s, In s ss -> I s) -> Permutation order (seq 0 (length ss)) ->
  1 + Z.of_nat (iterations cfg) * Z.of_nat (S (length ss)) < 2 ^ 24 ->
  (forall x v, In v (data (net_value nt x)) -> at_most 1 v) -> sized 50 (cfg_c cfg) -> nonneg (cfg_c cfg) ->
  alpha_mcts_parallel tsum dirichlet nt cfg order [] ss r = Ok (st, r') ->
  forall i n c m, nth_error st i = Some n -> In c (n_children n) -> nth_error st c = Some m ->
  finite (n_policy m) -> nonneg (n_policy m) -> puct (cfg_c cfg) n m <> S754_nan.
Proof.
  intros G I HA tsum dirichlet nt cfg order ss r st r' HNet Hdir HI HP HB HV Hc Hcn H i n c m En Hin Em Hp Hpn.
  assert (HF : forest ss st) by (destruct (parallel_counted G I HA tsum dirichlet nt cfg ss order r st r' HI HP ltac:(lia) H) as [HV' _]; exact (proj1 HV')).
  destruct (reports_bound G I HA tsum dirichlet nt cfg order ss r st r' HNet Hdir HI HP HB HV H HF i n En) as (N0 & w & HN0 & Hw & _ & Ew).
  destruct (reports_bound G I HA tsum dirichlet nt cfg order ss r st r' HNet Hdir HI HP HB HV H HF c m Em) as (N & v & HN & Hv & HM & Ev).
  unfold puct. rewrite Ew, Ev. apply (puct_number (cfg_c cfg) (n_value m) N); try assumption; lia.
Qed.
