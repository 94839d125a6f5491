(** * AlphaApi: proofs of the network-guided search properties, re-exported by Prop_Alpha.v. *)
From Verif Require Import Base BaseFacts F32 F32Facts Tensor TensorFacts GameModel McModel McSpec McProof
  BgModel BgSpec BgReach TttModel TttSpec TttApi GameFacts
  AlphaModel AlphaSpec AlphaProof AlphaPar AlphaPar2 AlphaPar3 AlphaCount AlphaInst.
From Coq Require Import Permutation.
Require Import ZifyBool ZifyNat.

(** ** the sequential search *)
Section Seq.
  Variable G : Game.
  Variable I : St G -> Prop.
  Hypothesis HA : alpha_game G I.
  Variable tsum : list f32 -> f32.
  Variable dirichlet : nat -> f32 -> rng -> list f32 * rng.
  Variable nt : net.
  Hypothesis HN : net_ok G nt.
  Variable cfg : mcfg.

  Lemma encode_all_ok s vm : I s -> g_valid G s = Ok vm -> forall ms, (forall m, In m ms -> In m vm) ->
    exists cs, encode_all s ms = Ok cs /\ length cs = length ms.
  Proof.
    intros Hs Hv. induction ms as [|m ms IH]; intros H; [exists []; split; reflexivity|].
    destruct (ag_codec G I HA s vm m Hs Hv (H m (or_introl eq_refl))) as (c & Ec & _).
    destruct IH as (cs & Ecs & L); [intros x Hx; apply H; right; exact Hx|].
    exists (c :: cs). split; [|cbn; lia]. unfold encode_all in *. cbn [mmap]. rewrite Ec. cbn [bind]. rewrite Ecs. reflexivity.
  Qed.

  Lemma vec_panics (s : St G) x n vm m rest : I s -> g_tensor G s = Ok x -> n_state n = s -> g_valid G s = Ok vm ->
    n_exp n = m :: rest -> (forall a, In a (n_exp n) -> In a vm) ->
    exists p, turn_policy_to_probs tsum (net_policy nt x) n = Panic p /\ p <> PFuel.
  Proof.
    intros Hs Hx Hn Hv He Hin. destruct (ag_tensor G I HA) as (sh & Ht). destruct (Ht s Hs) as (x' & Ex & Sx).
    assert (x' = x) by congruence. subst x'. destruct (HN x 1%nat sh Sx) as (S1 & L1 & _). rewrite Nat.mul_1_l in L1.
    destruct (encode_all_ok s vm Hs Hv (n_exp n) Hin) as (cs & Ecs & L).
    unfold turn_policy_to_probs. rewrite Hn, Ecs. cbn [bind]. destruct cs as [|c cs]; [rewrite He in L; discriminate|].
    destruct (double_value_2 f32 (net_policy nt x) (asize G) (Z.to_nat c) S1 L1 (ag_actions G I HA)) as (p & Ep & Hp).
    exists p. split; [|exact Hp]. unfold probs_vec. cbn [mfold]. cbn [V num32]. rewrite Ep. reflexivity.
  Qed.

  Lemma alpha_mcts_panics s vm r : I s -> g_winner G s = None -> g_valid G s = Ok vm -> vm <> [] ->
    exists p, alpha_mcts tsum dirichlet nt cfg s r = Panic p /\ p <> PFuel.
  Proof.
    intros Hs Hw Hv Hne. destruct (ag_tensor G I HA) as (sh & Ht). destruct (Ht s Hs) as (x & Ex & Sx).
    unfold alpha_mcts. rewrite Hw. unfold mcts_init, add_node, node_new. rewrite Hv. cbn [bind length app].
    unfold apply_dirichlet_to_root. cbn [get_node nth_error bind]. rewrite Ex. cbn [bind].
    destruct vm as [|m vm]; [congruence|].
    destruct (vec_panics s x (mkNode s 0 None [] f0 f0 f0 None (m :: vm)) (m :: vm) m vm Hs Ex eq_refl Hv eq_refl ltac:(auto)) as (p & Ep & Hp).
    rewrite Ep. exists p. split; [reflexivity|exact Hp].
  Qed.

  Definition lone (s : St G) (st : store G) : Prop :=
    exists v q, st = [mkNode s 0 None [] v q f0 None []].
  Lemma lone_iter s st r : I s -> g_winner G s = None -> g_valid G s = Ok [] -> lone s st ->
    exists st', alpha_iter tsum nt cfg s (st, r) = Ok (st', r) /\ lone s st'.
  Proof.
    intros Hs Hw Hv (v & q & ->). destruct (ag_tensor G I HA) as (sh & Ht). destruct (Ht s Hs) as (x & Ex & Sx).
    destruct (HN x 1%nat sh Sx) as (_ & _ & S2 & L2).
    unfold alpha_iter. cbn [alpha_select_leaf_node length alpha_select_fuel get_node nth_error bind n_children n_idx].
    unfold is_terminal. cbn [n_state]. rewrite Hw, Ex. cbn [bind].
    unfold turn_policy_to_probs, probs_vec. cbn [n_exp n_state encode_all mmap mfold bind].
    unfold alpha_expand, alpha_expand_with. cbn [n_exp alpha_expand_loop bind n_state n_idx n_parent n_children n_visits n_value n_policy n_action].
    unfold set_node. cbn [n_idx length Nat.ltb Nat.leb bind set_nth].
    assert (exists e, double_value (net_value nt x) [0%nat] = Ok e) as [e Ee].
    { cbn [double_value]. unfold select0. rewrite S2. cbn [Nat.ltb Nat.leb bind numel fold_right Nat.mul skipn].
      destruct (data (net_value nt x)) as [|e [|e' l]]; cbn in L2; try lia. exists e. reflexivity. }
    rewrite Ee. cbn [bind]. unfold backpropagate. cbn [length backprop_fuel nth_error n_parent set_nth bind]. eexists. split; [reflexivity|].
    unfold lone, bump. cbn. eauto.
  Qed.
  Lemma lone_loop s : I s -> g_winner G s = None -> g_valid G s = Ok [] -> forall k st r, lone s st ->
    exists st', alpha_loop tsum nt cfg k s (st, r) = Ok (st', r) /\ lone s st'.
  Proof.
    intros Hs Hw Hv. induction k as [|k IH]; intros st r HL; [exists st; split; [reflexivity|exact HL]|].
    destruct (lone_iter s st r Hs Hw Hv HL) as (st1 & E & HL1). cbn [alpha_loop]. rewrite E. cbn [bind]. apply IH. exact HL1.
  Qed.
  Lemma alpha_mcts_none s r : I s -> (g_winner G s <> None \/ g_valid G s = Ok []) ->
    alpha_mcts tsum dirichlet nt cfg s r = Ok (None, r).
  Proof.
    intros Hs H. unfold alpha_mcts. destruct (g_winner G s) eqn:Hw; [reflexivity|]. destruct H as [H|Hv]; [congruence|].
    destruct (ag_tensor G I HA) as (sh & Ht). destruct (Ht s Hs) as (x & Ex & Sx).
    unfold mcts_init, add_node, node_new. rewrite Hv. cbn [bind length app].
    unfold apply_dirichlet_to_root. cbn [get_node nth_error bind]. rewrite Ex. cbn [bind].
    unfold turn_policy_to_probs, probs_vec. cbn [n_exp n_state encode_all mmap mfold bind].
    unfold alpha_expand, alpha_expand_with. cbn [n_exp alpha_expand_loop bind n_state n_idx n_parent n_children n_visits n_value n_policy n_action].
    unfold set_node. cbn [n_idx length Nat.ltb Nat.leb bind set_nth n_children].
    destruct (lone_loop s Hs Hw Hv (iterations cfg) [mkNode s 0 None [] f0 f0 f0 None []] r ltac:(unfold lone; eauto)) as (st' & E & v & q & ->).
    rewrite E. reflexivity.
  Qed.
End Seq.

Theorem C34_sequential_search_lemma : forall G I, alpha_game G I -> forall tsum dirichlet nt cfg, net_ok G nt ->
  forall s vm r, I s -> g_valid G s = Ok vm ->
  (g_winner G s = None -> vm <> [] -> exists p, alpha_mcts tsum dirichlet nt cfg s r = Panic p /\ p <> PFuel)
  /\ (g_winner G s <> None \/ vm = [] -> alpha_mcts tsum dirichlet nt cfg s r = Ok (None, r)).
Proof.
  intros G I HA tsum dir nt cfg HN s vm r Hs Hv. split.
  - intros Hw Hne. apply (alpha_mcts_panics G I HA tsum dir nt HN cfg s vm r Hs Hw Hv Hne).
  - intros H. apply (alpha_mcts_none G I HA tsum dir nt HN cfg s r Hs). destruct H as [H| ->]; [left; exact H|right; exact Hv].
Qed.
Theorem C34_finished_leaf_lemma : forall G tsum nt cfg (s : St G) st r i n,
  g_winner G s = None -> alpha_select_leaf_node 0 st (cfg_c cfg) = Ok i -> nth_error st i = Some n -> g_winner G (n_state n) <> None ->
  alpha_iter tsum nt cfg s (st, r) = Panic PUnwrap.
Proof.
  intros G tsum nt cfg s st r i n Hw Es En Ht. unfold alpha_iter. rewrite Es. cbn [bind]. unfold get_node. rewrite En. cbn [bind].
  unfold is_terminal. destruct (g_winner G (n_state n)); [|congruence]. rewrite Hw. reflexivity.
Qed.
