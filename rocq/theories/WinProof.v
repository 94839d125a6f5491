(** * WinProof: the plain search and moves that win at once. *)
From Verif Require Import Base BaseFacts F32 F32Facts NanFacts NumFacts GapFacts GameModel McModel McSpec LogSpec SelectSpec
  McProof McProof2 McApi LogProof SelectProof.
From Coq Require Import Arith.
Require Import ZifyBool ZifyNat.

Lemma all_one (f : nat -> Z) l : (forall c, In c l -> 1 <= f c) -> zsum (map f l) = Z.of_nat (length l) -> forall c, In c l -> f c = 1.
  Proof.
    induction l as [|x l IH]; intros H1 Hs c Hc; [destruct Hc|]. cbn [map zsum fold_right length] in Hs. fold (zsum (map f l)) in Hs.
    assert (Hge : Z.of_nat (length l) <= zsum (map f l)).
    { clear -H1. assert (H : forall c, In c l -> 1 <= f c) by (intros; apply H1; right; assumption). clear H1. induction l as [|y l IH]; [cbn; lia|]. cbn [map zsum fold_right length]. fold (zsum (map f l)).
      pose proof (H y (or_introl eq_refl)). specialize (IH (fun c Hc => H c (or_intror Hc))). lia. }
    pose proof (H1 x (or_introl eq_refl)). destruct Hc as [->|Hc]; [lia|]. apply IH; [intros d Hd; apply H1; right; exact Hd|lia|exact Hc].
  Qed.

Section W.
  Variable G : Game.
  Variable ln : f32 -> f32.
  Variables (pl : Z) (cfg : mcfg) (s0 : St G).
  Hypothesis Hpl : pl = -1 \/ pl = 1.
  Hypothesis Hlim : (0 < sim_limit cfg)%nat.
  Hypothesis Hw0 : g_winner G s0 = None.
  Implicit Types (st : store G) (n : node G).

  (** what one iteration does to the old nodes, the leaf being [j] *)
  Lemma iter_effect st r st' r' j n : tree s0 st -> select_leaf_node ln 0 st (cfg_c cfg) = Ok j -> nth_error st j = Some n ->
    mcts_iter ln pl cfg (st, r) = Ok (st', r') ->
    forall c m, nth_error st c = Some m -> exists m', nth_error st' c = Some m' /\ n_state m' = n_state m
      /\ (on_path st j c -> n_visits m' = fadd (n_visits m) f1) /\ (~ on_path st j c -> n_visits m' = n_visits m)
      /\ (c <> j -> n_children m' = n_children m /\ n_exp m' = n_exp m)
      /\ (c = j -> g_winner G (n_state n) = None -> n_children m' = n_children m ++ [length st]).
  Proof.
    intros HT Es E H. pose proof (tree_parents_down _ _ _ HT) as HP. unfold mcts_iter in H. rewrite Es in H. cbn [bind] in H.
    unfold get_node at 1 in H. rewrite E in H. cbn [bind] in H. pose proof (nth_error_lt _ _ _ _ E) as Hi.
    destruct (g_winner G (n_state n)) as [w|] eqn:Ew.
    - rewrite (outcome_score G pl Hpl) in H. cbn [bind] in H. set (v := f32_of_Z _) in H.
      destruct (backpropagate j v st) as [st1|] eqn:Eb; cbn [bind] in H; [|discriminate]. injection H as <- <-.
      destruct (backprop_spec G j v st Hi HP) as (st2 & Eb2 & HS & HN). rewrite Eb in Eb2. injection Eb2 as <-.
      intros c m Em. destruct (HN c m Em) as [H1 H2]. destruct (on_path_dec G st j c HP Hi) as [Hp|Hp].
      + exists (bump m v). split; [apply H1; exact Hp|]. cbn. split; [reflexivity|]. split; [reflexivity|]. split; [contradiction|]. split; [auto|discriminate].
      + exists m. split; [apply H2; exact Hp|]. split; [reflexivity|]. split; [contradiction|]. split; [reflexivity|]. split; [auto|discriminate].
    - destruct (expand n st r) as [[[ci st1] r1]|] eqn:Ex; cbn [bind] in H; [|discriminate].
      pose proof (tree_idx _ _ _ HT _ _ E) as Hidx.
      destruct (expand_inv _ _ _ _ _ _ _ Ex) as (ex & a & s' & vm' & Ee & Ea & Ev & -> & Est1); [rewrite Hidx; exact Hi|].
      rewrite Hidx in Est1 at 1.
      pose proof (ex_tree G s0 st j n ex a s' vm' r r1 HT E Ew Ee Ea Ev) as HT1.
      pose proof (fun i => ex_nth G st j n ex a s' vm' E i) as Hnth. rewrite <- Est1 in HT1, Hnth.
      assert (HL1 : length st1 = S (length st)) by (rewrite Est1, app_length, length_set_nth; cbn; lia).
      destruct (get_node st1 (length st)) as [cn|] eqn:Ecn; cbn [bind] in H; [|discriminate].
      destruct (simulate cn pl (sim_limit cfg) r1) as [[v r2]|] eqn:Esim; cbn [bind] in H; [|discriminate].
      destruct (backpropagate (length st) v st1) as [st2|] eqn:Eb; cbn [bind] in H; [|discriminate]. injection H as <- <-.
      pose proof (tree_parents_down _ _ _ HT1) as HP1.
      destruct (backprop_spec G (length st) v st1 ltac:(lia) HP1) as (st3 & Eb3 & HS & HN). rewrite Eb in Eb3. injection Eb3 as <-.
      assert (Hold : forall i m, nth_error st i = Some m -> exists m', nth_error st1 i = Some m' /\ n_parent m' = n_parent m
          /\ n_state m' = n_state m /\ n_visits m' = n_visits m
          /\ (i <> j -> n_children m' = n_children m /\ n_exp m' = n_exp m) /\ (i = j -> n_children m' = n_children m ++ [length st])).
      { intros i m Em. pose proof (nth_error_lt _ _ _ _ Em). rewrite Hnth. destruct (Nat.eqb_spec i (length st)); [lia|].
        destruct (Nat.eqb_spec i j) as [->|Hij].
        - rewrite E in Em. injection Em as <-. eexists. split; [reflexivity|]. cbn. repeat split; try reflexivity; contradiction.
        - exists m. repeat split; auto; contradiction. }
      assert (Hpath : forall i k, (i < length st)%nat -> (on_path st1 i k <-> on_path st i k)).
      { apply path_ext; [exact HP|]. intros i m Em. destruct (Hold i m Em) as (m' & Em' & Hp & _). eauto. }
      unfold get_node in Ecn. destruct (nth_error st1 (length st)) as [cn'|] eqn:Ecn'; [|discriminate]. injection Ecn as ->.
      assert (Hpar : n_parent cn = Some j).
      { pose proof Ecn' as Ecn2. rewrite Hnth, Nat.eqb_refl in Ecn2. injection Ecn2 as <-. cbn. rewrite Hidx. reflexivity. }
      intros c m Em. pose proof (nth_error_lt _ _ _ _ Em) as Hc. destruct (Hold c m Em) as (m1 & Em1 & Hp1 & Hs1 & Hv1 & Ho1 & Hj1).
      assert (Hiff : on_path st1 (length st) c <-> on_path st j c).
      { rewrite <- (Hpath j c Hi). split; intros Hp.
        - inversion Hp as [|? ? p ? E1 Ep1 Hp']; subst; [lia|]. rewrite Ecn' in E1. injection E1 as <-. rewrite Hpar in Ep1. injection Ep1 as <-. exact Hp'.
        - eapply path_up; [exact Ecn'|exact Hpar|exact Hp]. }
      destruct (HN c m1 Em1) as [H1 H2]. destruct (on_path_dec G st j c HP Hi) as [Hp|Hp].
      + exists (bump m1 v). split; [apply H1, Hiff; exact Hp|]. cbn. split; [exact Hs1|]. split; [rewrite Hv1; reflexivity|]. split; [contradiction|]. split; [exact Ho1|intros Hj _; exact (Hj1 Hj)].
      + exists m1. split; [apply H2; intros Hq; apply Hp, Hiff; exact Hq|]. split; [exact Hs1|]. split; [contradiction|]. split; [intros _; exact Hv1|]. split; [exact Ho1|intros Hj _; exact (Hj1 Hj)].
  Qed.

  (** a descent ends at or below the node where it begins *)
  Lemma descent_path st sc i j : tree s0 st -> descent sc open st i j -> on_path st j i.
  Proof.
    intros HT. induction 1 as [i n E Hs|i n c j E Hs Hb Hd IH]; [eapply path_here; exact E|].
    destruct Hb as (l1 & l2 & m & Ec & Em & _). assert (Hin : In c (n_children n)) by (rewrite Ec; apply in_or_app; right; left; reflexivity).
    destruct (tree_child_gt _ _ _ _ _ _ HT E Hin) as (_ & cn & Ecn & Hp & _). eapply on_path_parent; [exact IH|exact Ecn|exact Hp|eauto].
  Qed.

  (** the numbers of the moves of the root: [f] visits, [g] sums of results *)
  Definition won n : Prop := score pl (n_state n) = 1.
  Definition tally st (k : Z) (f g : nat -> Z) : Prop := visits_ok st f k /\
    forall n0 c m, nth_error st 0 = Some n0 -> In c (n_children n0) -> nth_error st c = Some m ->
      1 <= f c <= k /\ n_visits m = f32_of_Z (f c) /\ n_value m = f32_of_Z (g c) /\ - f c <= g c <= f c /\ (won m -> g c = f c) /\ (~ won m -> g c < f c).

  Lemma beneath_at st j log sub n : nth_error st j = Some n -> In j log -> beneath st j log sub -> In j sub.
  Proof.
    intros E Hin Hb. induction Hb as [|i log sub Hp Hb IH|i log sub Hp Hb IH]; [destruct Hin| |].
    - destruct Hin as [->|Hin]; [left; reflexivity|right; apply IH; exact Hin].
    - destruct Hin as [->|Hin]; [destruct Hp; eapply path_here; exact E|apply IH; exact Hin].
  Qed.
  Lemma beneath_on st j log sub i : beneath st j log sub -> In i sub -> on_path st i j.
  Proof. induction 1; cbn; [tauto| |auto]. intros [<-|Hi]; auto. Qed.
  Lemma zsum_all (h : nat -> Z) l : (forall i, In i l -> h i = 1) -> zsum (map h l) = Z.of_nat (length l).
  Proof. induction l as [|x l IH]; intros H; [reflexivity|]. cbn [map zsum fold_right length]. fold (zsum (map h l)). rewrite IH by (intros i Hi; apply H; right; exact Hi). rewrite (H x) by (left; reflexivity). lia. Qed.
  Lemma zsum_range (h : nat -> Z) l : (forall i, -1 <= h i <= 1) -> - Z.of_nat (length l) <= zsum (map h l) <= Z.of_nat (length l).
  Proof. intros H. induction l as [|x l IH]; [cbn; lia|]. cbn [map zsum fold_right length]. fold (zsum (map h l)). pose proof (H x). lia. Qed.
  Lemma zsum_less (h : nat -> Z) l x : (forall i, -1 <= h i <= 1) -> In x l -> h x <= 0 -> zsum (map h l) < Z.of_nat (length l).
  Proof.
    intros H Hin Hx. apply in_split in Hin. destruct Hin as (l1 & l2 & ->). rewrite map_app. assert (Ha : forall a b, zsum (a ++ b) = zsum a + zsum b).
    { unfold zsum. induction a as [|y a IH]; intros b; cbn; [reflexivity|]. rewrite IH. lia. }
    rewrite Ha. cbn [map zsum fold_right]. fold (zsum (map h l2)). rewrite app_length. cbn [length]. pose proof (zsum_range h l1 H). pose proof (zsum_range h l2 H). lia.
  Qed.

  Lemma run_tally r k st0 st r' : mcts_init (G := G) s0 = Ok st0 -> mcts_loop ln k pl cfg (st0, r) = Ok (st, r') -> Z.of_nat k < 2 ^ 24 ->
    tree s0 st /\ exists f g, tally st (Z.of_nat k) f g.
  Proof.
    intros Hi H Hk. pose proof (C26_tree_lemma G ln s0 pl cfg r k st0 st r' Hi H) as HT. split; [exact HT|].
    destruct (C29_visits_lemma G ln s0 pl cfg r k st0 st r' Hw0 Hi H ltac:(lia)) as (f & HV).
    destruct (C62_values_lemma G ln s0 pl cfg r k st0 st r' Hpl Hlim Hi H ltac:(lia)) as (log & HL & _ & Hin & _ & Hval).
    assert (Hfun : forall (P : nat -> Z -> Prop), (forall c, (c < length st)%nat -> exists z, P c z) -> exists g, forall c, (c < length st)%nat -> P c (g c)).
    { intros P. generalize (length st). induction n as [|n IH]; intros HP; [exists (fun _ => 0); intros; lia|].
      destruct IH as (g & Hg); [intros c Hc; apply HP; lia|]. destruct (HP n ltac:(lia)) as (z & Hz).
      exists (fun c => if (c =? n)%nat then z else g c). intros c Hc. destruct (Nat.eqb_spec c n) as [->|Hne]; [exact Hz|apply Hg; lia]. }
    destruct (Hfun (fun c z => exists sub, beneath st c log sub /\ z = zsum (map (score_at pl st) sub)
       /\ forall m, nth_error st c = Some m -> n_visits m = f32_of_Z (Z.of_nat (length sub)) /\ n_value m = f32_of_Z z)) as (g & Hg).
    { intros c Hc. destruct (nth_error_ex _ st c Hc) as [m Em]. destruct (Hval c m Em) as (sub & Hb & Hv & Hw). eexists. exists sub. split; [exact Hb|]. split; [reflexivity|].
      intros m' Em'. rewrite Em in Em'. injection Em' as <-. auto. }
    exists f, g. split; [exact HV|]. intros n0 c m E0 Hc Em. destruct (tree_child_gt _ _ _ _ _ _ HT E0 Hc) as [Hlt _].
    destruct (Hg c ltac:(lia)) as (sub & Hb & Eg & Hm). destruct (Hm m Em) as [Hv Hw]. destruct (vo_counts _ _ _ _ HV c m Em) as [Hf Hfr]. pose proof (vo_pos _ _ _ _ HV c ltac:(lia)) as Hf1.
    unfold has_visits in Hf. pose proof (beneath_length G st c _ _ Hb) as Hlen.
    assert (Ef : f c = Z.of_nat (length sub)) by (apply f32_of_Z_inj; [lia|lia|congruence]).
    assert (Hsc : forall i, -1 <= score_at pl st i <= 1) by (intros i; unfold score_at; destruct (nth_error st i); [apply score_range|lia]).
    pose proof (zsum_range (score_at pl st) sub Hsc) as Hr. rewrite <- Eg in Hr.
    assert (Hat : score_at pl st c = score pl (n_state m)) by (unfold score_at; rewrite Em; reflexivity).
    split; [lia|]. split; [congruence|]. split; [exact Hw|]. split; [lia|]. split.
    - intros Hwon. rewrite Eg, Ef. apply zsum_all. intros i Hi2. pose proof (beneath_on _ _ _ _ _ Hb Hi2) as Hp.
      assert (i = c); [|subst; congruence].
      destruct (Nat.eq_dec i c) as [|Hne]; [assumption|exfalso].
      destruct (on_path_child _ _ _ _ Hp Hne) as (d & dn & Hd & Ed & Hdp).
      pose proof (tree_parents_down _ _ _ HT _ _ _ Ed Hdp).
      destruct (tree_parent _ _ _ HT _ _ Ed ltac:(lia)) as (p & pn & a & vm & q & q' & Hp' & _ & Epn & Hcnt & _).
      rewrite Hdp in Hp'. injection Hp' as <-. rewrite Em in Epn. injection Epn as <-.
      assert (Hch : n_children m = []).
      { eapply tree_leaf; [exact HT|exact Em|]. unfold won, score in Hwon. destruct (g_winner G (n_state m)); [discriminate|lia]. }
      rewrite Hch in Hcnt. discriminate.
    - intros Hnw. rewrite Eg, Ef. apply (zsum_less _ _ c); [exact Hsc| |].
      + eapply beneath_at; [exact Em|apply Hin; lia|exact Hb].
      + specialize (Hsc c). unfold won in Hnw. lia.
  Qed.

  Variables (N : Z) (K : nat) (vm : list (Mv G)) (a : Mv G).
  Hypothesis HN : 2 <= N <= 16.
  Hypothesis HK : Z.of_nat K <= 2 ^ 14.
  Hypothesis Hln : forall v, 1 <= v <= Z.of_nat K -> SFleb f0 (fmul (cfg_c cfg) (ln (f32_of_Z v))) = true /\ SFleb (fmul (cfg_c cfg) (ln (f32_of_Z v))) (f32_of_Z (3 * N)) = true.
  Hypothesis Hvm : g_valid G s0 = Ok vm.
  Hypothesis Ha : In a vm.

  (** winning moves are never behind, and ahead from [N] visits on *)
  Definition ahead st (f : nat -> Z) : Prop := forall n0 w x mw mx, nth_error st 0 = Some n0 -> In w (n_children n0) -> In x (n_children n0) ->
    nth_error st w = Some mw -> nth_error st x = Some mx -> won mw -> ~ won mx -> f x <= f w /\ (N <= f w -> f x < f w).
  Definition stage st (k : nat) (f : nat -> Z) : Prop := exists n0, nth_error st 0 = Some n0 /\ (length (n_children n0) = k \/ (n_exp n0 = [] /\ ahead st f)).

  Lemma ltb_leb x y : SFltb x y = true -> SFleb y x = true -> False.
  Proof.
    intros H1 H2. assert (Hx : x <> S754_nan) by (intros ->; discriminate). assert (Hy : y <> S754_nan) by (intros ->; destruct x as [[]|[]| |[]]; discriminate).
    unfold SFltb, SFleb in *. rewrite compare_key in H1, H2 by assumption. rewrite (lex3_antisym (key x) (key y)) in H2. destruct (lex3 (key x) (key y)); discriminate.
  Qed.
  Lemma ltb_leb_weak x y : SFltb x y = true -> SFleb x y = true.
  Proof. unfold SFltb, SFleb. destruct (SFcompare x y) as [[]|]; congruence. Qed.

  Lemma descent_inv st sc i j n : nth_error st i = Some n -> descent (G := G) sc open st i j ->
    (open n /\ j = i) \/ (~ open n /\ exists x, last_best sc st n (n_children n) x /\ descent sc open st x j).
  Proof.
    intros E Hd. destruct Hd as [i n' E' Hs|i n' x j E' Hs Hb Hdx]; rewrite E in E'; injection E' as <-; [left; auto|right; eauto].
  Qed.

  Lemma step_stage r k st0 st r1 st' r2 f g f' g' : mcts_init (G := G) s0 = Ok st0 -> mcts_loop ln k pl cfg (st0, r) = Ok (st, r1) -> (k < K)%nat ->
    tree s0 st -> tally st (Z.of_nat k) f g -> stage st k f -> mcts_iter ln pl cfg (st, r1) = Ok (st', r2) -> tally st' (Z.of_nat (S k)) f' g' -> stage st' (S k) f'.
  Proof.
    intros Hi Hrun Hk HT [HV Ht] (n0 & E0 & HS) Hit [HV' Ht'].
    pose proof (C59_numbers_lemma G ln s0 pl cfg r k st0 st r1 Hpl Hlim Hi Hrun ltac:(lia) (fun v Hv => proj1 (Hln v ltac:(lia)))) as HNum.
    destruct (C59_plain_lemma G ln s0 st (cfg_c cfg) HT HNum) as (j & Ej & Hd).
    destruct (tree_root _ _ _ HT) as (n00 & E00 & _ & _ & Hs0). rewrite E0 in E00. injection E00 as <-.
    destruct (tree_moves _ _ _ HT _ _ E0) as (vm0 & acts & Evm0 & Hvm0 & HF). rewrite Hs0, Hvm in Evm0. injection Evm0 as <-.
    assert (Hopen : open n0 \/ ~ open n0).
    { unfold open. destruct (n_children n0); [left; left; reflexivity|]. destruct (n_exp n0); [right; intros [|H]; congruence|left; right; congruence]. }
    destruct Hopen as [Ho|Ho].
    - (* the root is expanded *)
      assert (Hj0 : j = 0%nat) by (destruct (descent_inv _ _ _ _ _ E0 Hd) as [[_ H]|[H _]]; [exact H|contradiction]). subst j.
      destruct (iter_effect st r1 st' r2 0 n0 HT Ej E0 Hit 0 n0 E0) as (n0' & E0' & _ & _ & _ & _ & Hc). specialize (Hc eq_refl ltac:(congruence)).
      exists n0'. split; [exact E0'|]. left. rewrite Hc, app_length. cbn [length]. destruct HS as [HS|[He _]]; [lia|].
      exfalso. destruct Ho as [Ho|Ho]; [|contradiction]. rewrite Ho in HF. inversion HF; subst. rewrite He in Ha. destruct Ha.
    - (* a child of the root is visited *)
      assert (He : n_exp n0 = []) by (unfold open in Ho; destruct (n_exp n0); [reflexivity|]; destruct Ho; right; congruence).
      assert (HA : ahead st f).
      { destruct HS as [HS|[_ HA]]; [|exact HA]. intros n w x mw mx En Hw Hx Ew Ex _ _. rewrite E0 in En. injection En as <-.
        assert (H1 : forall c, In c (n_children n0) -> f c = 1).
        { apply all_one; [|rewrite HS; symmetry; apply (vo_root_sum _ _ _ _ HV); exact E0]. intros c Hc.
          destruct (tree_child_gt _ _ _ _ _ _ HT E0 Hc) as [Hlt _]. apply (vo_pos _ _ _ _ HV). lia. }
        rewrite (H1 w Hw), (H1 x Hx). lia. }
      destruct (descent_inv _ _ _ _ _ E0 Hd) as [[H _]|(_ & x & Hb & Hdx)]; [contradiction|].
      pose proof Hb as Hb0. destruct Hb0 as (l1 & l2 & mx & Ecs & Emx & Hl1 & Hl2).
      assert (Hxin : In x (n_children n0)) by (rewrite Ecs; apply in_or_app; right; left; reflexivity).
      pose proof (descent_path st _ x j HT Hdx) as Hjx. pose proof (tree_parents_down _ _ _ HT) as HP.
      destruct (tree_child_gt _ _ _ _ _ _ HT E0 Hxin) as (Hx0 & cx & Ecx & Hpx & _). rewrite Emx in Ecx. injection Ecx as <-.
      assert (Hj : exists nj, nth_error st j = Some nj) by (inversion Hjx; eauto). destruct Hj as (nj & Enj).
      pose proof (iter_effect st r1 st' r2 j nj HT Ej Enj Hit) as Heff. pose proof (on_path_le _ _ _ _ HP Hjx) as Hle.
      destruct (Heff 0%nat n0 E0) as (n0' & E0' & _ & _ & _ & Hkeep & _). destruct (Hkeep ltac:(lia)) as [Hch Hex].
      exists n0'. split; [exact E0'|]. right. split; [congruence|].
      (* the counts of the children *)
      assert (Hcnt : forall c m m', In c (n_children n0) -> nth_error st c = Some m -> nth_error st' c = Some m' -> (won m' <-> won m) /\ f' c = f c + (if (c =? x)%nat then 1 else 0)).
      { intros c m m' Hc Em Em'. destruct (Heff c m Em) as (m2 & Em2 & Hs2 & Hy & Hn & _). rewrite Em' in Em2. injection Em2 as <-.
        split; [unfold won; rewrite Hs2; tauto|]. destruct (Ht n0 c m E0 Hc Em) as (Hf & Hv & _). destruct (Ht' n0' c m' E0' ltac:(congruence) Em') as (Hf' & Hv' & _).
        apply f32_of_Z_inj; [lia|destruct (c =? x)%nat; lia|]. rewrite <- Hv'. destruct (Nat.eqb_spec c x) as [->|Hne].
        - rewrite (Hy Hjx), Hv. apply counter_step. lia.
        - rewrite Z.add_0_r, <- Hv. apply Hn. intros Hp. destruct (tree_child_gt _ _ _ _ _ _ HT E0 Hc) as (_ & cn & Ecn & Hpc & _).
          apply Hne. eapply on_path_child_unique; [exact HP|exact Hp|exact Hjx|exact Ecn|exact Emx|exact Hpc|exact Hpx]. }
      intros n w y mw' my' En Hw Hy Ew' Ey' Hww Hwy. rewrite E0' in En. injection En as <-. rewrite Hch in Hw, Hy.
      destruct (tree_child_gt _ _ _ _ _ _ HT E0 Hw) as (_ & mw & Ew & _). destruct (tree_child_gt _ _ _ _ _ _ HT E0 Hy) as (_ & my & Ey & _).
      destruct (Hcnt w mw mw' Hw Ew Ew') as [Hw1 Hw2]. destruct (Hcnt y my my' Hy Ey Ey') as [Hy1 Hy2]. apply Hw1 in Hww. rewrite Hy1 in Hwy.
      destruct (HA n0 w y mw my E0 Hw Hy Ew Ey Hww Hwy) as [A1 A2].
      destruct (Nat.eqb_spec y x) as [->|Hyx].
      + (* the loser is visited *)
        rewrite Emx in Ey. injection Ey as <-.
        assert (Hwx : w <> x) by (intros ->; rewrite Emx in Ew; injection Ew as <-; contradiction).
        destruct (Nat.eqb_spec w x); [contradiction|].
        destruct (Ht n0 w mw E0 Hw Ew) as (Fw & Vw & Gw & _ & Tw & _). destruct (Ht n0 x mx E0 Hxin Emx) as (Fx & Vx & Gx & Rx & _ & Tx). specialize (Tw Hww). specialize (Tx Hwy).
        assert (Hbest : SFleb (uct ln (cfg_c cfg) n0 mw) (uct ln (cfg_c cfg) n0 mx) = true).
        { rewrite Ecs in Hw. apply in_app_or in Hw. destruct Hw as [Hw|[->|Hw]]; [|contradiction|].
          - destruct (Hl1 w Hw) as (m & Em & Hle2). rewrite Ew in Em. injection Em as <-. exact Hle2.
          - destruct (Hl2 w Hw) as (m & Em & Hle2). rewrite Ew in Em. injection Em as <-. apply ltb_leb_weak. exact Hle2. }
        destruct (vo_counts _ _ _ _ HV 0%nat n0 E0) as [V0 _]. unfold has_visits in V0. rewrite (vo_root _ _ _ _ HV) in V0.
        assert (Hgap : ~ (f x = f w \/ (f w = f x + 1 /\ 3 * N <= 3 * f w))).
        { intros Hc. refine (ltb_leb _ _ _ Hbest). unfold uct. rewrite Vw, Vx, Gw, Gx, Tw, V0.
          destruct (Hln (Z.of_nat k) ltac:(lia)) as [Hl Hu]. destruct (mul_bounded _ _ (3 * N) ltac:(lia) Hl Hu) as [Hnn Hat].
          apply (score_gap _ (3 * N)); [exact Hnn|exact Hat|lia|lia|lia|lia|exact Hc]. }
        rewrite Hw2, Hy2. split; [lia|]. intros HNw. rewrite Z.add_0_r in *. specialize (A2 HNw). lia.
      + rewrite Hw2, Hy2. destruct (w =? x)%nat; lia.
  Qed.

  Lemma loop_stage r st0 : mcts_init (G := G) s0 = Ok st0 -> forall k st r', (k <= K)%nat -> mcts_loop ln k pl cfg (st0, r) = Ok (st, r') ->
    forall f g, tally st (Z.of_nat k) f g -> stage st k f.
  Proof.
    intros Hi. induction k as [|k IH]; intros st r' Hk H f g Hta.
    - cbn [mcts_loop] in H. injection H as <- <-. destruct (init_inv _ _ _ Hi) as (vm0 & _ & ->). eexists. split; [reflexivity|]. left. reflexivity.
    - replace (S k) with (k + 1)%nat in H by lia. rewrite loop_add in H. destruct (mcts_loop ln k pl cfg (st0, r)) as [[st1 r1]|] eqn:E; cbn [bind] in H; [|discriminate].
      cbn [mcts_loop] in H. destruct (mcts_iter ln pl cfg (st1, r1)) as [[st2 r2]|] eqn:E2; cbn [bind] in H; [|discriminate]. injection H as <- <-.
      destruct (run_tally r k st0 st1 r1 Hi E ltac:(lia)) as (HT & f1' & g1 & Hta1).
      eapply (step_stage r k st0 st1 r1 st2 r2 f1' g1); eauto. eapply IH; eauto. lia.
  Qed.

  Lemma win_search r m r' : iterations cfg = K -> Z.of_nat (length vm) * (N - 1) < Z.of_nat K ->
    (forall q s' q', g_apply G s0 a q = Ok (s', q') -> g_winner G s' = Some pl) ->
    mct_search ln s0 pl cfg r = Ok (m, r') -> In m vm /\ exists q s' q', g_apply G s0 m q = Ok (s', q') /\ g_winner G s' = Some pl.
  Proof.
    intros HI HM Hwin H. unfold mct_search in H. rewrite Hw0 in H. destruct (mcts_init s0) as [st0|] eqn:Ei; cbn [bind] in H; [|discriminate]. rewrite HI in H.
    destruct (mcts_loop ln K pl cfg (st0, r)) as [[st r1]|] eqn:El; cbn [bind] in H; [|discriminate].
    destruct (select_most_visits 0 st) as [m'|] eqn:Es; cbn [bind] in H; [|discriminate]. injection H as <- <-.
    destruct (run_tally r K st0 st r1 Ei El ltac:(lia)) as (HT & f & g & Hta). pose proof (loop_stage r st0 Ei K st r1 ltac:(lia) El f g Hta) as (n0 & E0 & HS).
    destruct Hta as [HV Ht].
    destruct (tree_root _ _ _ HT) as (n00 & E00 & _ & _ & Hs0). rewrite E0 in E00. injection E00 as <-.
    destruct (tree_moves _ _ _ HT _ _ E0) as (vm0 & acts & Evm0 & Hvm0 & HF). rewrite Hs0, Hvm in Evm0. injection Evm0 as <-.
    assert (Hlen : (length (n_children n0) <= length vm)%nat) by (assert (El2 : length (n_children n0) = length acts) by (clear -HF; induction HF; cbn; congruence); rewrite El2, Hvm0, app_length, rev_length; lia).
    assert (HvmN : Z.of_nat (length vm) <= Z.of_nat (length vm) * (N - 1)) by nia.
    destruct HS as [HS|[He HA]]; [exfalso; lia|].
    (* a winning child *)
    assert (Hw : exists w mw, In w (n_children n0) /\ nth_error st w = Some mw /\ won mw).
    { assert (Hin : In a acts) by (rewrite Hvm0, He in Ha; cbn in Ha; apply in_rev in Ha; exact Ha).
      destruct (forall2_in_r _ _ _ _ _ _ HF Hin) as (w & Hw & mw & Emw & Hact). exists w, mw. split; [exact Hw|]. split; [exact Emw|].
      destruct (tree_child_gt _ _ _ _ _ _ HT E0 Hw) as (Hlt & cn & Ecn & Hp & _). rewrite Emw in Ecn. injection Ecn as <-.
      destruct (tree_parent _ _ _ HT _ _ Emw ltac:(lia)) as (p & pn & a' & vm' & q & q' & Hp' & _ & Epn & _ & Ha' & _ & _ & Hap).
      rewrite Hp in Hp'. injection Hp' as <-. rewrite E0 in Epn. injection Epn as <-. rewrite Hact in Ha'. injection Ha' as <-. rewrite Hs0 in Hap.
      unfold won, score. rewrite (Hwin _ _ _ Hap), Z.eqb_refl. reflexivity. }
    destruct Hw as (w & mw & Hwin' & Emw & Hww).
    destruct (children_of_spec _ _ _ _ _ HT E0) as (ch & Ech & HFc & Hch).
    destruct (C32_most_visits_lemma G st 0 ch) as [_ H32]; [exists n0; auto|].
    assert (Hcv : forall x, In x ch -> exists c, In c (n_children n0) /\ nth_error st c = Some x /\ n_visits x = f32_of_Z (f c) /\ 1 <= f c <= Z.of_nat K).
    { intros x Hx. destruct (forall2_in_r _ _ _ _ _ _ HFc Hx) as (c & Hc & Ec). exists c. split; [exact Hc|]. split; [exact Ec|]. destruct (Ht n0 c x E0 Hc Ec) as (Hf & Hv & _). auto. }
    destruct (forall2_in_l _ _ _ _ _ _ HFc Hwin') as (mw2 & Hmw & Emw2). rewrite Emw in Emw2. injection Emw2 as <-.
    destruct H32 as (l1 & mx & l2 & Ech2 & Esel & Hl1 & Hl2).
    { intros ->. destruct Hmw. }
    { intros x Hx. destruct (Hcv x Hx) as (c & _ & _ & -> & Hf). apply f32_of_Z_not_nan. unfold small. lia. }
    rewrite Es in Esel. injection Esel as ->.
    assert (Hmx : In mx ch) by (rewrite Ech2; apply in_or_app; right; left; reflexivity). destruct (Hcv mx Hmx) as (x & Hx & Emx & Vx & Fx).
    (* the chosen child has the most visits *)
    assert (Hmax : forall c y, In c (n_children n0) -> nth_error st c = Some y -> f c <= f x).
    { intros c y Hc Ey. destruct (forall2_in_l _ _ _ _ _ _ HFc Hc) as (y2 & Hy2 & Ey2). rewrite Ey in Ey2. injection Ey2 as <-.
      destruct (Ht n0 c y E0 Hc Ey) as (Hf & Hv & _).
      assert (Hle : SFleb (n_visits y) (n_visits mx) = true).
      { rewrite Ech2 in Hy2. apply in_app_or in Hy2. destruct Hy2 as [Hy2|[<-|Hy2]]; [apply Hl1; exact Hy2| |apply ltb_leb_weak, Hl2; exact Hy2].
        assert (c = x) by (rewrite <- (tree_idx _ _ _ HT _ _ Ey), <- (tree_idx _ _ _ HT _ _ Emx); reflexivity). subst c.
        rewrite Vx. apply fle_le; [apply f32_of_Z_not_nan; unfold small; lia|apply f32_of_Z_not_nan; unfold small; lia|]. unfold fle. rewrite fcmp_int by lia. rewrite Z.compare_refl. discriminate. }
      rewrite Hv, Vx in Hle. destruct (Z_le_gt_dec (f c) (f x)) as [|Hgt]; [assumption|exfalso].
      refine (ltb_leb (f32_of_Z (f x)) (f32_of_Z (f c)) _ Hle). apply gt_lt; [apply f32_of_Z_not_nan; unfold small; lia|apply f32_of_Z_not_nan; unfold small; lia|]. rewrite fcmp_int by lia. apply Z.compare_gt_iff. lia. }
    assert (HxN : N <= f x).
    { destruct (Z_le_gt_dec N (f x)) as [|Hlt]; [assumption|exfalso]. pose proof (vo_root_sum _ _ _ _ HV n0 E0) as Hsum.
      assert (Hub : forall l, (forall c, In c l -> f c <= N - 1) -> zsum (map f l) <= Z.of_nat (length l) * (N - 1)).
      { clear. induction l as [|y l IH]; intros H; [cbn; lia|]. cbn [map zsum fold_right length]. fold (zsum (map f l)). pose proof (H y (or_introl eq_refl)). specialize (IH (fun c Hc => H c (or_intror Hc))). lia. }
      specialize (Hub (n_children n0)). assert (Hub2 : zsum (map f (n_children n0)) <= Z.of_nat (length (n_children n0)) * (N - 1)).
      { apply Hub. intros c Hc. destruct (tree_child_gt _ _ _ _ _ _ HT E0 Hc) as (_ & cn & Ecn & _). pose proof (Hmax c cn Hc Ecn). lia. }
      assert (Z.of_nat (length (n_children n0)) * (N - 1) <= Z.of_nat (length vm) * (N - 1)) by (apply Z.mul_le_mono_nonneg_r; lia). lia. }
    assert (Hwx : won mx).
    { assert (Hdec : won mx \/ ~ won mx) by (unfold won; lia). destruct Hdec as [|Hnw]; [assumption|exfalso].
      destruct (HA n0 w x mw mx E0 Hwin' Hx Emw Emx Hww Hnw) as [A1 A2]. pose proof (Hmax w mw Hwin' Emw). lia. }
    destruct (tree_child_gt _ _ _ _ _ _ HT E0 Hx) as (Hlt & cn & Ecn & Hp & _). rewrite Emx in Ecn. injection Ecn as <-.
    destruct (tree_parent _ _ _ HT _ _ Emx ltac:(lia)) as (p & pn & a' & vm' & q & q' & Hp' & _ & Epn & _ & Ha' & Hv' & Hin' & Hap).
    rewrite Hp in Hp'. injection Hp' as <-. rewrite E0 in Epn. injection Epn as <-. rewrite Hs0 in Hap, Hv'. rewrite Hvm in Hv'. injection Hv' as <-.
    unfold move_of. rewrite Ha'. split; [exact Hin'|]. exists q, (n_state mx), q'. split; [exact Hap|].
    unfold won, score in Hwx. destruct (g_winner G (n_state mx)) as [z|]; [|lia]. destruct (Z.eqb_spec z pl) as [Hz|Hz]; [rewrite Hz; reflexivity|]. destruct (z =? - pl); lia.
  Qed.
End W.
