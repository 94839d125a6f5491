(** * LogProof: the reports of the plain search. *)
From Verif Require Import Base BaseFacts F32 F32Facts GameModel McModel McSpec LogSpec McProof McProof2 McApi.
From Coq Require Import Arith.
Require Import ZifyBool ZifyNat.

Section L.
  Variable G : Game.
  Implicit Types (st : store G) (n : node G).

  Lemma reported_snoc_yes st j i v log vs : on_path st i j -> reported st j log vs -> reported st j (log ++ [(i, v)]) (vs ++ [v]).
  Proof. intros Hp. induction 1; cbn; [apply rep_yes; [exact Hp|constructor]|apply rep_yes; assumption|apply rep_no; assumption]. Qed.
  Lemma reported_snoc_no st j i v log vs : ~ on_path st i j -> reported st j log vs -> reported st j (log ++ [(i, v)]) vs.
  Proof. intros Hp. induction 1; cbn; [apply rep_no; [exact Hp|constructor]|apply rep_yes; assumption|apply rep_no; assumption]. Qed.
  Lemma reported_iff st st' j log vs : (forall e, In e log -> (on_path st' (fst e) j <-> on_path st (fst e) j)) ->
    reported st j log vs -> reported st' j log vs.
  Proof.
    intros H. induction 1 as [|i v log vs Hp Hr IH|i v log vs Hp Hr IH]; [constructor| |].
    - apply rep_yes; [apply (H (i, v)); [left; reflexivity|exact Hp]|apply IH; intros e He; apply H; right; exact He].
    - apply rep_no; [intros Hc; apply Hp; apply (H (i, v)); [left; reflexivity|exact Hc]|apply IH; intros e He; apply H; right; exact He].
  Qed.
  Lemma reported_none st j log : (forall e, In e log -> ~ on_path st (fst e) j) -> reported st j log [].
  Proof.
    induction log as [|[i v] log IH]; intros H; [constructor|]. apply rep_no; [apply (H (i, v)); left; reflexivity|].
    apply IH. intros e He. apply H. right. exact He.
  Qed.
  Lemma total_snoc b vs v : total b (vs ++ [v]) = fadd (total b vs) v.
  Proof. unfold total. rewrite fold_left_app. reflexivity. Qed.
  Definition within st (log : list (nat * f32)) : Prop := forall e, In e log -> (fst e < length st)%nat.

  Lemma accounted_backprop base st log i v st' : parents_down st -> (i < length st)%nat -> within st log ->
    accounted base st log -> backpropagate i v st = Ok st' ->
    accounted base st' (log ++ [(i, v)]) /\ shape_eq G st st' /\ within st' (log ++ [(i, v)]).
  Proof.
    intros HP Hi HW HA E. destruct (backprop_spec G i v st Hi HP) as (st2 & E2 & HS & HN). rewrite E in E2. injection E2 as <-.
    pose proof (shape_eq_length _ _ _ HS) as HL.
    split; [|split; [exact HS|]].
    2:{ intros e He. rewrite <- HL. apply in_app_or in He. destruct He as [He|[<-|[]]]; [apply HW; exact He|exact Hi]. }
    intros j n' En'. assert (Hj : (j < length st)%nat) by (rewrite HL; eapply nth_error_lt; exact En').
    destruct (nth_error_ex _ st j Hj) as [n En]. destruct (HA j n En) as (vs & Hr & Hv & Hw). destruct (HN j n En) as [H1 H2].
    assert (Hiff : forall x, on_path st' x j <-> on_path st x j) by (intros x; split; apply on_path_shape; [apply shape_eq_sym|]; exact HS).
    assert (Hr' : reported st' j log vs) by (eapply reported_iff; [|exact Hr]; intros e _; apply Hiff).
    destruct (on_path_dec G st i j HP Hi) as [Hp|Hp].
    - rewrite (H1 Hp) in En'. injection En' as <-. exists (vs ++ [v]). split; [apply reported_snoc_yes; [apply Hiff; exact Hp|exact Hr']|].
      rewrite map_app. cbn [map]. rewrite !total_snoc. cbn [bump n_visits n_value]. rewrite Hv, Hw. auto.
    - rewrite (H2 Hp) in En'. injection En' as <-. exists vs. split; [apply reported_snoc_no; [intros Hc; apply Hp, Hiff; exact Hc|exact Hr']|auto].
  Qed.

  Lemma accounted_ext base st st' log : within st log -> accounted base st log ->
    (forall j n', nth_error st' j = Some n' -> (j < length st)%nat -> exists n, nth_error st j = Some n /\ n_visits n' = n_visits n /\ n_value n' = n_value n) ->
    (forall j n', nth_error st' j = Some n' -> (length st <= j)%nat -> n_visits n' = base j /\ n_value n' = f0) ->
    (forall i j, (i < length st)%nat -> (on_path st' i j <-> on_path st i j)) -> parents_down st ->
    accounted base st' log.
  Proof.
    intros HW HA Hold Hnew Hpath HP j n' En'. destruct (Nat.lt_ge_cases j (length st)) as [Hj|Hj].
    - destruct (Hold j n' En' Hj) as (n & En & Hv & Hw). destruct (HA j n En) as (vs & Hr & Hv' & Hw').
      exists vs. split; [|split; congruence]. eapply reported_iff; [|exact Hr]. intros e He. apply Hpath. apply HW. exact He.
    - destruct (Hnew j n' En' Hj) as [Hv Hw]. exists []. split; [|split; assumption].
      apply reported_none. intros e He Hp. apply Hpath in Hp; [|apply HW; exact He]. apply (on_path_le _ _ _ _ HP) in Hp.
      specialize (HW e He). lia.
  Qed.
  (** paths of the old nodes do not change when nodes are added that keep the old parents *)
  Lemma path_ext st st' : parents_down st ->
    (forall j n, nth_error st j = Some n -> exists n', nth_error st' j = Some n' /\ n_parent n' = n_parent n) ->
    forall i j, (i < length st)%nat -> (on_path st' i j <-> on_path st i j).
  Proof.
    intros HP H i j Hi. split.
    - intros Hp. induction Hp as [i n' E|i n' p j E Ep Hp IH]; destruct (nth_error_ex _ st i Hi) as [n En]; destruct (H i n En) as (n2 & E2 & Hpp); rewrite E in E2; injection E2 as <-.
      + eapply path_here. exact En.
      + rewrite Hpp in Ep. pose proof (HP _ _ _ En Ep). eapply path_up; [exact En|exact Ep|apply IH; lia].
    - clear Hi. induction 1 as [i n En|i n p j En Ep Hp IH]; destruct (H i n En) as (n2 & E2 & Hpp).
      + eapply path_here. exact E2.
      + eapply path_up; [exact E2|rewrite Hpp; exact Ep|exact IH].
  Qed.
End L.
Arguments within {G}.

(** sums of scores are exact *)
Lemma total_ones m : Z.of_nat m <= 2 ^ 24 -> forall (vs : list f32), length vs = m -> total f0 (map (fun _ => f1) vs) = f32_of_Z (Z.of_nat m).
Proof.
  intros Hm vs. revert m Hm. induction vs as [|v vs IH] using rev_ind; intros m Hm HL; [cbn in HL; subst; reflexivity|].
  rewrite app_length in HL. cbn in HL. rewrite map_app. cbn [map]. rewrite total_snoc, (IH (length vs)) by lia.
  rewrite counter_step by lia. f_equal. lia.
Qed.
Lemma total_scores (zs : list Z) : (forall z, In z zs -> -1 <= z <= 1) -> Z.of_nat (length zs) <= 2 ^ 24 ->
  total f0 (map f32_of_Z zs) = f32_of_Z (zsum zs) /\ Z.abs (zsum zs) <= Z.of_nat (length zs).
Proof.
  induction zs as [|z zs IH] using rev_ind; intros Hz HL; [split; [reflexivity|cbn; lia]|].
  rewrite app_length in HL. cbn [length] in HL. destruct IH as [IH1 IH2]; [intros y Hy; apply Hz; apply in_or_app; auto|lia|].
  assert (Hzz : -1 <= z <= 1) by (apply Hz; apply in_or_app; right; left; reflexivity).
  assert (Hs : zsum (zs ++ [z]) = zsum zs + z).
  { clear. induction zs as [|y zs IH]; cbn in *; [lia|]. unfold zsum in *. cbn. rewrite IH. lia. }
  rewrite map_app. cbn [map]. rewrite total_snoc, IH1, Hs, app_length. cbn [length]. split; [|lia].
  apply fadd_int; unfold small; lia.
Qed.

(** ** the plain search *)
Section P.
  Variable G : Game.
  Variable ln : f32 -> f32.
  Variables (pl : Z) (cfg : mcfg).
  Hypothesis Hpl : pl = -1 \/ pl = 1.
  Implicit Types (st : store G) (n : node G).

  Lemma outcome_score w : outcome G pl w = Ok (f32_of_Z (if w =? pl then 1 else if w =? - pl then -1 else 0)).
  Proof.
    unfold outcome. destruct (w =? pl); [reflexivity|]. rewrite i8_ok by lia. cbn [bind]. destruct (w =? - pl); reflexivity.
  Qed.
  Hypothesis Hlim : (0 < sim_limit cfg)%nat.
  Lemma simulate_score n r v r' : simulate n pl (sim_limit cfg) r = Ok (v, r') -> v = f32_of_Z (score pl (n_state n)).
  Proof.
    intros H. unfold score. destruct (g_winner G (n_state n)) as [w|] eqn:Ew.
    - unfold simulate in H. destruct (sim_limit cfg) as [|l]; [lia|]. cbn [simulate_loop] in H. rewrite Ew, outcome_score in H. cbn [bind] in H. congruence.
    - unfold simulate in H. eapply simulate_zero in H; [exact H|exact Ew].
  Qed.

  (** the reports after some iterations *)
  Record done (s0 : St G) st (log : list (nat * f32)) : Prop := {
    dn_tree : tree s0 st;
    dn_within : within st log;
    dn_acc : accounted (fun _ => f0) st log;
    dn_score : forall i v, In (i, v) log -> v = f32_of_Z (score_at pl st i);
    dn_once : forall i n, nth_error st i = Some n -> g_winner G (n_state n) = None ->
      count_occ Nat.eq_dec (map fst log) i = (if (i =? 0)%nat then 0 else 1)%nat;
    dn_some : forall i n, nth_error st i = Some n -> (0 < i)%nat -> (1 <= count_occ Nat.eq_dec (map fst log) i)%nat
  }.

  Lemma score_shape st st' i : shape_eq G st st' -> score_at pl st' i = score_at pl st i.
  Proof.
    intros HS. unfold score_at. destruct (nth_error st' i) as [n'|] eqn:E'.
    - destruct (shape_eq_nth _ _ _ _ _ (shape_eq_sym _ _ _ HS) E') as (n & E & Hs). rewrite E. destruct Hs as (-> & _). reflexivity.
    - assert (H : nth_error st i = None) by (apply nth_error_None; rewrite (shape_eq_length _ _ _ HS); apply nth_error_None; exact E'). rewrite H. reflexivity.
  Qed.
  Lemma count_snoc l (x i : nat) : count_occ Nat.eq_dec (l ++ [x]) i = (count_occ Nat.eq_dec l i + if (x =? i)%nat then 1 else 0)%nat.
  Proof. rewrite count_occ_app. cbn. destruct (Nat.eq_dec x i), (Nat.eqb_spec x i); congruence. Qed.
  Lemma count_within st log i : within st log -> (length st <= i)%nat -> count_occ Nat.eq_dec (map fst log) i = 0%nat.
  Proof.
    intros HW Hi. apply count_occ_not_In. rewrite in_map_iff. intros (e & <- & He). specialize (HW e He). lia.
  Qed.

  Lemma iter_done s0 st r st' r' log : done s0 st log -> mcts_iter ln pl cfg (st, r) = Ok (st', r') ->
    exists e, done s0 st' (log ++ [e]).
  Proof.
    intros [HT HW HA HSc HO HSm] H. pose proof (tree_parents_down _ _ _ HT) as HP. unfold mcts_iter in H.
    destruct (select_leaf_spec G ln s0 st (cfg_c cfg) HT) as (i & n & Es & E & Hl). rewrite Es in H. cbn [bind] in H.
    unfold get_node at 1 in H. rewrite E in H. cbn [bind] in H. pose proof (nth_error_lt _ _ _ _ E) as Hi.
    destruct (g_winner G (n_state n)) as [w|] eqn:Ew.
    - rewrite outcome_score in H. cbn [bind] in H. set (v := f32_of_Z _) in H.
      destruct (backpropagate i v st) as [st1|] eqn:Eb; cbn [bind] in H; [|discriminate]. injection H as <- <-.
      destruct (accounted_backprop G _ st log i v st1 HP Hi HW HA Eb) as (HA' & HS & HW').
      exists (i, v). constructor; [eapply tree_shape; eassumption|exact HW'|exact HA'| | |].
      + intros k u Hin. rewrite (score_shape _ _ _ HS). apply in_app_or in Hin. destruct Hin as [Hin|[[= <- <-]|[]]]; [apply HSc; exact Hin|].
        unfold v, score_at, score. rewrite E, Ew. reflexivity.
      + intros k m Em Hwm. destruct (shape_eq_nth _ _ _ _ _ (shape_eq_sym _ _ _ HS) Em) as (m0 & Em0 & Hs & _).
        rewrite map_app. cbn [map fst]. rewrite count_snoc. rewrite (HO k m0 Em0) by congruence.
        destruct (Nat.eqb_spec i k) as [->|Hne]; [|lia]. rewrite E in Em0. injection Em0 as <-. congruence.
      + intros k m Em Hk. destruct (shape_eq_nth _ _ _ _ _ (shape_eq_sym _ _ _ HS) Em) as (m0 & Em0 & Hs & _).
        rewrite map_app. cbn [map fst]. rewrite count_snoc. specialize (HSm k m0 Em0 Hk). lia.
    - destruct (expand n st r) as [[[ci st1] r1]|] eqn:Ex; cbn [bind] in H; [|discriminate].
      pose proof (tree_idx _ _ _ HT _ _ E) as Hidx.
      destruct (expand_inv _ _ _ _ _ _ _ Ex) as (ex & a & s' & vm' & Ee & Ea & Ev & -> & Est1); [rewrite Hidx; exact Hi|].
      rewrite Hidx in Est1 at 1.
      pose proof (ex_tree G s0 st i n ex a s' vm' r r1 HT E Ew Ee Ea Ev) as HT1.
      pose proof (fun j => ex_nth G st i n ex a s' vm' E j) as Hnth. rewrite <- Est1 in HT1, Hnth.
      assert (HL1 : length st1 = S (length st)) by (rewrite Est1, app_length, length_set_nth; cbn; lia).
      destruct (get_node st1 (length st)) as [cn|] eqn:Ecn; cbn [bind] in H; [|discriminate].
      destruct (simulate cn pl (sim_limit cfg) r1) as [[v r2]|] eqn:Esim; cbn [bind] in H; [|discriminate].
      destruct (backpropagate (length st) v st1) as [st2|] eqn:Eb; cbn [bind] in H; [|discriminate]. injection H as <- <-.
      apply simulate_score in Esim. unfold get_node in Ecn. destruct (nth_error st1 (length st)) as [cn'|] eqn:Ecn'; [|discriminate]. injection Ecn as ->.
      assert (Hold : forall j m, nth_error st j = Some m -> exists m', nth_error st1 j = Some m' /\ n_parent m' = n_parent m
          /\ n_state m' = n_state m /\ n_visits m' = n_visits m /\ n_value m' = n_value m).
      { intros j m Em. pose proof (nth_error_lt _ _ _ _ Em). rewrite Hnth. destruct (Nat.eqb_spec j (length st)); [lia|].
        destruct (Nat.eqb_spec j i) as [->|]; [|exists m; auto]. rewrite E in Em. injection Em as <-. eexists. split; [reflexivity|]. auto. }
      assert (HW1 : within st1 log) by (intros e He; specialize (HW e He); lia).
      assert (HA1 : accounted (fun _ => f0) st1 log).
      { apply (accounted_ext G _ st); try assumption.
        - intros j m' Em' Hj. destruct (nth_error_ex _ st j Hj) as [m Em]. destruct (Hold j m Em) as (m2 & E2 & _ & _ & H1 & H2).
          exists m. rewrite Em' in E2. injection E2 as <-. auto.
        - intros j m' Em' Hj. rewrite Hnth in Em'. pose proof Em' as Em2. destruct (Nat.eqb_spec j (length st)) as [->|Hne]; [injection Em' as <-; auto|].
          destruct (Nat.eqb_spec j i); [lia|]. apply nth_error_lt in Em'. lia.
        - apply path_ext; [exact HP|]. intros j m Em. destruct (Hold j m Em) as (m' & Em' & Hp & _). eauto. }
      destruct (accounted_backprop G _ st1 log (length st) v st2 (tree_parents_down _ _ _ HT1) ltac:(lia) HW1 HA1 Eb) as (HA' & HS & HW').
      exists (length st, v). constructor; [eapply tree_shape; eassumption|exact HW'|exact HA'| | |].
      + intros k u Hin. rewrite (score_shape _ _ _ HS). apply in_app_or in Hin. destruct Hin as [Hin|[[= <- <-]|[]]].
        * rewrite (HSc k u Hin). f_equal. specialize (HW (k, u) Hin). cbn [fst] in HW. destruct (nth_error_ex _ st k HW) as [m Em].
          destruct (Hold k m Em) as (m' & Em' & _ & Hs & _). unfold score_at. rewrite Em, Em', Hs. reflexivity.
        * rewrite Esim. unfold score_at. rewrite Ecn'. reflexivity.
      + intros k m Em Hwm. destruct (shape_eq_nth _ _ _ _ _ (shape_eq_sym _ _ _ HS) Em) as (m0 & Em0 & Hs & _).
        rewrite map_app. cbn [map fst]. rewrite count_snoc. pose proof (nth_error_lt _ _ _ _ Em0).
        destruct (Nat.eqb_spec (length st) k) as [<-|Hne].
        * rewrite (count_within st log _ HW) by lia. destruct (Nat.eqb_spec (length st) 0); lia.
        * destruct (nth_error_ex _ st k ltac:(lia)) as [m1 Em1]. destruct (Hold k m1 Em1) as (m2 & Em2 & _ & Hst & _).
          rewrite Em0 in Em2. injection Em2 as <-. rewrite (HO k m1 Em1) by congruence. lia.
      + intros k m Em Hk. destruct (shape_eq_nth _ _ _ _ _ (shape_eq_sym _ _ _ HS) Em) as (m0 & Em0 & Hs & _).
        rewrite map_app. cbn [map fst]. rewrite count_snoc. pose proof (nth_error_lt _ _ _ _ Em0).
        destruct (Nat.eqb_spec (length st) k) as [<-|Hne]; [lia|].
        destruct (nth_error_ex _ st k ltac:(lia)) as [m1 Em1]. specialize (HSm k m1 Em1 Hk). lia.
  Qed.
  Lemma loop_done s0 : forall k st r st' r' log, done s0 st log -> mcts_loop ln k pl cfg (st, r) = Ok (st', r') ->
    exists log', length log' = k /\ done s0 st' (log ++ log').
  Proof.
    induction k as [|k IH]; intros st r st' r' log HD H; cbn [mcts_loop] in H.
    - injection H as <- <-. exists []. rewrite app_nil_r. auto.
    - destruct (mcts_iter ln pl cfg (st, r)) as [[st1 r1]|] eqn:E; cbn [bind] in H; [|discriminate].
      destruct (iter_done _ _ _ _ _ _ HD E) as (e & HD1). destruct (IH _ _ _ _ _ HD1 H) as (log' & HL & HD').
      exists (e :: log'). rewrite <- app_assoc in HD'. cbn [length]. split; [lia|exact HD'].
  Qed.
End P.

Section Q.
  Variable G : Game.
  Variable pl : Z.
  Implicit Types (st : store G) (n : node G).
  Lemma init_done s st : mcts_init (G := G) s = Ok st -> done G pl s st [].
  Proof.
    intros H. pose proof (init_tree _ _ _ H) as HT. destruct (init_inv _ _ _ H) as (vm & Ev & ->).
    assert (H1 : forall i n, nth_error [mkNode (G := G) s 0 None [] f0 f0 f0 None vm] i = Some n -> i = 0%nat /\ n = mkNode s 0 None [] f0 f0 f0 None vm).
    { intros [|[|i]] n E; cbn in E; try discriminate. injection E as <-. auto. }
    constructor; [exact HT|intros e []| |intros i v []| |].
    - intros j n E. destruct (H1 j n E) as [-> ->]. exists []. split; [constructor|auto].
    - intros i n E _. destruct (H1 i n E) as [-> ->]. reflexivity.
    - intros i n E Hi. destruct (H1 i n E) as [-> ->]. lia.
  Qed.

  Lemma reported_beneath st j log vs : (forall i v, In (i, v) log -> v = f32_of_Z (score_at pl st i)) -> reported st j log vs ->
    exists sub, beneath st j (map fst log) sub /\ vs = map f32_of_Z (map (score_at pl st) sub).
  Proof.
    intros HS. induction 1 as [|i v log vs Hp Hr IH|i v log vs Hp Hr IH]; [exists []; split; [constructor|reflexivity]| |].
    - destruct IH as (sub & Hb & ->); [intros k u Hk; apply HS; right; exact Hk|]. exists (i :: sub). cbn [map fst]. split; [apply ben_yes; assumption|].
      rewrite (HS i v (or_introl eq_refl)). reflexivity.
    - destruct IH as (sub & Hb & ->); [intros k u Hk; apply HS; right; exact Hk|]. exists sub. split; [apply ben_no; assumption|reflexivity].
  Qed.
  Lemma beneath_length st j log sub : beneath st j log sub -> (length sub <= length log)%nat.
  Proof. induction 1; cbn; lia. Qed.
  Lemma score_range (s : St G) : -1 <= score pl s <= 1.
  Proof. unfold score. destruct (g_winner G s) as [w|]; [|lia]. destruct (w =? pl), (w =? - pl); lia. Qed.
End Q.

Theorem C62_values_lemma : forall (G : Game) ln s pl cfg r k st0 st r', (pl = -1 \/ pl = 1) -> (0 < sim_limit cfg)%nat ->
  mcts_init (G := G) s = Ok st0 -> mcts_loop ln k pl cfg (st0, r) = Ok (st, r') -> Z.of_nat k <= 2 ^ 24 ->
  exists log : list nat, length log = k
    /\ (forall i n, nth_error st i = Some n -> g_winner G (n_state n) = None -> count_occ Nat.eq_dec log i = (if (i =? 0)%nat then 0 else 1)%nat)
    /\ (forall i, (0 < i < length st)%nat -> In i log)
    /\ (forall i, In i log -> (i < length st)%nat)
    /\ forall j n, nth_error st j = Some n -> exists sub, beneath st j log sub
         /\ n_visits n = f32_of_Z (Z.of_nat (length sub)) /\ n_value n = f32_of_Z (zsum (map (score_at pl st) sub)).
Proof.
  intros G ln s pl cfg r k st0 st r' Hpl Hlim Hi H Hk.
  destruct (loop_done G ln pl cfg Hpl Hlim s k st0 r st r' [] (init_done G pl s st0 Hi) H) as (log & HL & [HT HW HA HSc HO HSm]).
  cbn [app] in *. exists (map fst log). split; [rewrite map_length; exact HL|]. split; [exact HO|]. split; [|split].
  - intros i Hii. destruct (nth_error_ex _ st i ltac:(lia)) as [n E]. specialize (HSm i n E ltac:(lia)). apply (count_occ_In Nat.eq_dec). lia.
  - intros i Hin. apply in_map_iff in Hin. destruct Hin as (e & <- & He). apply HW. exact He.
  - intros j n E. destruct (HA j n E) as (vs & Hr & Hv & Hw). destruct (reported_beneath G pl st j log vs HSc Hr) as (sub & Hb & ->).
    exists sub. split; [exact Hb|]. pose proof (beneath_length G st j _ _ Hb) as Hle. rewrite map_length in Hle. split.
    + rewrite Hv. rewrite <- (map_length (score_at pl st) sub), <- (map_length f32_of_Z (map (score_at pl st) sub)). apply total_ones; [|reflexivity].
      rewrite !map_length. lia.
    + rewrite Hw. refine (proj1 (total_scores (map (score_at pl st) sub) _ _)); [|rewrite map_length; lia]. intros z Hz. apply in_map_iff in Hz. destruct Hz as (i & <- & _).
      unfold score_at. destruct (nth_error st i); [apply score_range|lia].
Qed.
