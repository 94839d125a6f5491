(** * WinApi: the plain search and moves that win at once, re-exported by Prop_Seek.v. *)
From Verif Require Import Base BaseFacts F32 F32Facts BgModel BgSpec BgReach TttModel TttSpec TttApi GameModel GameFacts McModel McSpec McProof McProof2 McApi WinProof SeekSpec SeekApi Witness.
From Coq Require Import Arith.
Require Import ZifyBool ZifyNat.

Theorem C75_immediate_win_lemma : forall (G : Game) ln s pl cfg r m r' n vm m0, (pl = -1 \/ pl = 1) -> (0 < sim_limit cfg)%nat -> g_winner G s = None ->
  g_valid G s = Ok vm -> In m0 vm -> wins G pl s m0 ->
  2 <= n <= 16 -> bonus_within ln (cfg_c cfg) (Z.of_nat (iterations cfg)) (3 * n) ->
  Z.of_nat (length vm) * (n - 1) < Z.of_nat (iterations cfg) <= 2 ^ 14 ->
  mct_search ln s pl cfg r = Ok (m, r') -> In m vm /\ exists q s' q', g_apply G s m q = Ok (s', q') /\ g_winner G s' = Some pl.
Proof.
  intros G ln s pl cfg r m r' n vm m0 Hpl Hlim Hw Hvm Hm0 Hwin Hn Hln Hk H.
  exact (win_search G ln pl cfg s Hpl Hlim Hw n (iterations cfg) vm m0 Hn ltac:(lia) Hln Hvm Hm0 r m r' eq_refl ltac:(lia) Hwin H).
Qed.

Lemma valid_count (s : ttt) : length (tboard s) = 9%nat -> (length (ttt_valid_moves s) <= 9)%nat.
Proof.
  intros HL. unfold ttt_valid_moves. rewrite map_length.
  assert (Hf : forall (P : Z * Z -> bool) l, (length (filter P l) <= length l)%nat) by (intros P l; induction l as [|x l IH]; cbn; [lia|]; destruct (P x); cbn; lia).
  eapply Nat.le_trans; [apply Hf|]. rewrite combine_length. lia.
Qed.
Theorem C75_tictactoe_lemma : forall pr ln s pl cfg r n m0 s0, length (tboard s) = 9%nat -> (tplayer s = -1 \/ tplayer s = 1) -> (pl = -1 \/ pl = 1) -> (0 < sim_limit cfg)%nat ->
  ttt_check_winner s = None -> In m0 (ttt_valid_moves s) -> ttt_apply_move pr s m0 = Ok s0 -> ttt_check_winner s0 = Some pl ->
  2 <= n <= 16 -> bonus_within ln (cfg_c cfg) (Z.of_nat (iterations cfg)) (3 * n) -> 9 * (n - 1) < Z.of_nat (iterations cfg) <= 2 ^ 14 ->
  exists m r' s', mct_search (G := ttt_game pr) ln s pl cfg r = Ok (m, r') /\ In m (ttt_valid_moves s) /\ ttt_apply_move pr s m = Ok s' /\ ttt_check_winner s' = Some pl.
Proof.
  intros pr ln s pl cfg r n m0 s0 HL HP Hpl Hlim Hw Hm0 Ea0 Hw0 Hn Hln Hk.
  destruct (C27_tictactoe_lemma pr ln s pl cfg r HL HP Hpl) as (m & r' & E & _). pose proof (valid_count s HL) as Hc.
  destruct (C75_immediate_win_lemma (ttt_game pr) ln s pl cfg r m r' n (ttt_valid_moves s) m0 Hpl Hlim Hw eq_refl Hm0) as (Hin & q & s' & q' & Eap & Hw'); try assumption.
  - intros q s' q' Eap. cbn in Eap. rewrite Ea0 in Eap. cbn in Eap. injection Eap as <- _. exact Hw0.
  - split; [|lia]. apply Z.le_lt_trans with (9 * (n - 1)); [|lia]. apply Z.mul_le_mono_nonneg_r; [lia|]. change (Z.of_nat (length (ttt_valid_moves s)) <= 9). lia.
  - cbn in Eap. destruct (ttt_apply_move pr s m) as [s2|] eqn:Ea; cbn in Eap; [|discriminate]. injection Eap as <- _. exists m, r', s2. auto.
Qed.

Lemma bg_winner_board s s' : bgboard s = bgboard s' -> bg_check_winner s = bg_check_winner s'.
Proof. unfold bg_check_winner. intros ->. reflexivity. Qed.
Lemma bg_apply_winner pr s m q s' q' q2 s2 q2' : bg_apply_move pr s m q = Ok (s', q') -> bg_apply_move pr s m q2 = Ok (s2, q2') -> bg_check_winner s2 = bg_check_winner s'.
Proof.
  unfold bg_apply_move. destruct (get_next_state pr (bgboard s) m (player s)) as [b|]; cbn [bind]; [|discriminate].
  destruct (_ && _).
  - intros [= <- _] [= <- _]. reflexivity.
  - destruct (i8 pr (player s * -1)) as [p|]; cbn [bind]; [|discriminate]. unfold bg_roll_die.
    repeat match goal with |- context [let '(_, _) := ?x in _] => destruct x end. intros [= <- _] [= <- _]. apply bg_winner_board. reflexivity.
Qed.
Theorem C75_backgammon_lemma : forall pr ln s pl cfg r m r' n vm m0 q s0 q0, (pl = -1 \/ pl = 1) -> (0 < sim_limit cfg)%nat -> bg_check_winner s = None ->
  bg_valid_moves pr s = Ok vm -> In m0 vm -> bg_apply_move pr s m0 q = Ok (s0, q0) -> bg_check_winner s0 = Some pl ->
  2 <= n <= 16 -> bonus_within ln (cfg_c cfg) (Z.of_nat (iterations cfg)) (3 * n) ->
  Z.of_nat (length vm) * (n - 1) < Z.of_nat (iterations cfg) <= 2 ^ 14 ->
  mct_search (G := bg_game pr) ln s pl cfg r = Ok (m, r') -> In m vm /\ wins (bg_game pr) pl s m.
Proof.
  intros pr ln s pl cfg r m r' n vm m0 q s0 q0 Hpl Hlim Hw Hvm Hm0 Ea0 Hw0 Hn Hln Hk H.
  destruct (C75_immediate_win_lemma (bg_game pr) ln s pl cfg r m r' n vm m0 Hpl Hlim Hw Hvm Hm0) as (Hin & q1 & s1 & q1' & E1 & Hw1); try assumption.
  - intros q2 s2 q2' E2. cbn [g_apply g_winner bg_game] in *. rewrite (bg_apply_winner _ _ _ _ _ _ _ _ _ Ea0 E2). exact Hw0.
  - split; [exact Hin|]. intros q2 s2 q2' E2. cbn [g_apply g_winner bg_game] in *. rewrite (bg_apply_winner _ _ _ _ _ _ _ _ _ E1 E2). exact Hw1.
Qed.

(** ** no more iterations than moves *)
Section F.
  Variable G : Game.
  Variable ln : f32 -> f32.
  Variables (pl : Z) (cfg : mcfg) (s0 : St G) (vm : list (Mv G)).
  Hypothesis Hw0 : g_winner G s0 = None.
  Hypothesis Hvm : g_valid G s0 = Ok vm.
  Implicit Types (st : store G) (n : node G).

  Lemma root_step st r st' r' n0 : tree s0 st -> nth_error st 0 = Some n0 -> (length (n_children n0) < length vm)%nat -> mcts_iter ln pl cfg (st, r) = Ok (st', r') ->
    exists n0', nth_error st' 0 = Some n0' /\ length (n_children n0') = S (length (n_children n0)).
  Proof.
    intros HT E0 Hlen H. destruct (tree_root _ _ _ HT) as (n00 & E00 & _ & _ & Hs0). rewrite E0 in E00. injection E00 as <-.
    destruct (tree_moves _ _ _ HT _ _ E0) as (vm0 & acts & Evm0 & Hvm0 & HF). rewrite Hs0, Hvm in Evm0. injection Evm0 as <-.
    assert (Hex : n_exp n0 <> []).
    { intros He. rewrite He in Hvm0. assert (length (n_children n0) = length acts) by (clear -HF; induction HF; cbn; congruence). rewrite Hvm0 in Hlen. cbn in Hlen. rewrite rev_length in Hlen. lia. }
    assert (Es : select_leaf_node ln 0 st (cfg_c cfg) = Ok 0%nat).
    { unfold select_leaf_node. cbn [select_leaf_fuel]. unfold get_node. rewrite E0. cbn [bind]. unfold is_fully_expanded. destruct (n_exp n0); [congruence|]. rewrite Bool.orb_true_r. rewrite (tree_idx _ _ _ HT _ _ E0). reflexivity. }
    pose proof (nth_error_lt _ _ _ _ E0) as Hi. pose proof (tree_idx _ _ _ HT _ _ E0) as Hidx.
    unfold mcts_iter in H. rewrite Es in H. cbn [bind] in H. unfold get_node at 1 in H. rewrite E0 in H. cbn [bind] in H. rewrite Hs0, Hw0 in H.
    destruct (expand n0 st r) as [[[ci st1] r1]|] eqn:Ex; cbn [bind] in H; [|discriminate].
    destruct (expand_inv _ _ _ _ _ _ _ Ex) as (ex & a & s' & vm' & Ee & Ea & Ev & -> & Est1); [rewrite Hidx; exact Hi|]. rewrite Hidx in Est1 at 1.
    pose proof (ex_tree G s0 st 0 n0 ex a s' vm' r r1 HT E0 ltac:(congruence) Ee Ea Ev) as HT1.
    pose proof (ex_nth G st 0 n0 ex a s' vm' E0 0) as Hnth. rewrite <- Est1 in HT1, Hnth.
    destruct (get_node st1 (length st)) as [cn|] eqn:Ecn; cbn [bind] in H; [|discriminate].
    destruct (simulate cn pl (sim_limit cfg) r1) as [[v r2]|]; cbn [bind] in H; [|discriminate].
    destruct (backpropagate (length st) v st1) as [st2|] eqn:Eb; cbn [bind] in H; [|discriminate]. injection H as <- <-.
    assert (HL1 : length st1 = S (length st)) by (rewrite Est1, app_length, length_set_nth; cbn; lia).
    destruct (backprop_spec G (length st) v st1 ltac:(lia) (tree_parents_down _ _ _ HT1)) as (st3 & Eb3 & HS & _). rewrite Eb in Eb3. injection Eb3 as <-.
    destruct (Nat.eqb_spec 0 (length st)); [lia|]. cbn [Nat.eqb] in Hnth. destruct (shape_eq_nth _ _ _ _ _ HS Hnth) as (n0' & E0' & Hsh). exists n0'. split; [exact E0'|].
    unfold same_shape in Hsh. assert (Ec : n_children n0' = n_children n0 ++ [length st]) by (cbn in Hsh; intuition congruence). rewrite Ec, app_length. cbn. lia.
  Qed.
  Lemma root_loop r st0 : mcts_init (G := G) s0 = Ok st0 -> forall k st r', (k <= length vm)%nat -> mcts_loop ln k pl cfg (st0, r) = Ok (st, r') ->
    exists n0, nth_error st 0 = Some n0 /\ length (n_children n0) = k.
  Proof.
    intros Hi. induction k as [|k IH]; intros st r' Hk H.
    - cbn [mcts_loop] in H. injection H as <- <-. destruct (init_inv _ _ _ Hi) as (vm0 & _ & ->). eexists. split; reflexivity.
    - replace (S k) with (k + 1)%nat in H by lia. rewrite loop_add in H. destruct (mcts_loop ln k pl cfg (st0, r)) as [[st1 r1]|] eqn:E; cbn [bind] in H; [|discriminate].
      cbn [mcts_loop] in H. destruct (mcts_iter ln pl cfg (st1, r1)) as [[st2 r2]|] eqn:E2; cbn [bind] in H; [|discriminate]. injection H as <- <-.
      destruct (IH st1 r1 ltac:(lia) eq_refl) as (n0 & E0 & HL). pose proof (C26_tree_lemma G ln s0 pl cfg r k st0 st1 r1 Hi E) as HT.
      destruct (root_step st1 r1 st2 r2 n0 HT E0 ltac:(lia) E2) as (n0' & E0' & HL'). exists n0'. split; [exact E0'|lia].
  Qed.
End F.

Theorem C75_few_iterations_lemma : forall (G : Game) ln s pl cfg r m r' vm, g_winner G s = None -> g_valid G s = Ok vm ->
  (1 <= iterations cfg <= length vm)%nat -> Z.of_nat (iterations cfg) < 2 ^ 24 -> mct_search ln s pl cfg r = Ok (m, r') ->
  nth_error vm (length vm - iterations cfg) = Some m.
Proof.
  intros G ln s pl cfg r m r' vm Hw Hvm Hk HK H. unfold mct_search in H. rewrite Hw in H. destruct (mcts_init s) as [st0|] eqn:Ei; cbn [bind] in H; [|discriminate].
  destruct (mcts_loop ln (iterations cfg) pl cfg (st0, r)) as [[st r1]|] eqn:El; cbn [bind] in H; [|discriminate].
  destruct (select_most_visits 0 st) as [m'|] eqn:Es; cbn [bind] in H; [|discriminate]. injection H as -> _. set (k := iterations cfg) in *.
  pose proof (C26_tree_lemma G ln s pl cfg r k st0 st r1 Ei El) as HT.
  destruct (C29_visits_lemma G ln s pl cfg r k st0 st r1 Hw Ei El ltac:(lia)) as (f & HV).
  destruct (root_loop G ln pl cfg s vm Hw Hvm r st0 Ei k st r1 ltac:(lia) El) as (n0 & E0 & HL).
  destruct (tree_root _ _ _ HT) as (n00 & E00 & _ & _ & Hs0). rewrite E0 in E00. injection E00 as <-.
  destruct (tree_moves _ _ _ HT _ _ E0) as (vm0 & acts & Evm0 & Hvm0 & HF). rewrite Hs0, Hvm in Evm0. injection Evm0 as <-.
  assert (Hone : forall c, In c (n_children n0) -> f c = 1).
  { apply all_one; [|rewrite HL; symmetry; apply (vo_root_sum _ _ _ _ HV); exact E0]. intros c Hc. destruct (tree_child_gt _ _ _ _ _ _ HT E0 Hc) as [Hlt _]. apply (vo_pos _ _ _ _ HV). lia. }
  destruct (children_of_spec _ _ _ _ _ HT E0) as (ch & Ech & HFc & Hch).
  assert (Hv1 : forall x, In x ch -> n_visits x = f32_of_Z 1).
  { intros x Hx. destruct (forall2_in_r _ _ _ _ _ _ HFc Hx) as (c & Hc & Ec). rewrite <- (Hone c Hc). apply (vo_counts _ _ _ _ HV c x Ec). }
  destruct (C32_most_visits_lemma G st 0 ch) as [_ H32]; [exists n0; auto|]. destruct H32 as (l1 & mx & l2 & Ech2 & Esel & Hl1 & Hl2).
  { intros ->. inversion HFc as [He|]. rewrite <- He in HL. cbn in HL. lia. }
  { intros x Hx. rewrite (Hv1 x Hx). discriminate. }
  assert (l2 = []) as ->.
  { destruct l2 as [|x l2]; [reflexivity|exfalso]. specialize (Hl2 x (or_introl eq_refl)). rewrite (Hv1 x), (Hv1 mx) in Hl2 by (rewrite Ech2; apply in_or_app; right; cbn; auto). discriminate. }
  rewrite Es in Esel. injection Esel as ->.
  rewrite Ech2 in HFc. apply Forall2_app_inv_r in HFc. destruct HFc as (c1 & c2 & HF1 & HF2 & Ecs). inversion HF2 as [|c x c3 l3 Hc HF3]; subst. inversion HF3; subst.
  rewrite Ecs in HF. apply Forall2_app_inv_l in HF. destruct HF as (a1 & a2 & HA1 & HA2 & ->). inversion HA2 as [|? a ? ? (cn & Ecn & Hact) HA3]; subst. inversion HA3; subst.
  rewrite Hc in Ecn. injection Ecn as <-. unfold move_of. rewrite Hact.
  assert (Hlen : length (n_children n0) = S (length a1)) by (rewrite Ecs, app_length; cbn; assert (length c1 = length a1) by (clear -HA1; induction HA1; cbn; congruence); lia).
  rewrite rev_app_distr. cbn [rev app]. rewrite nth_error_app2; rewrite app_length; cbn [length]; rewrite rev_length; [|lia].
  replace (length (n_exp n0) + S (length a1) - k - length (n_exp n0))%nat with 0%nat by lia. reflexivity.
Qed.

(** ** instances *)
(** the exploration bonus of the example settings, exploration constant 2 and at most 100 visits *)
Lemma example_bonus : bonus_within ln100 (f32_of_Z 2) 100 12.
Proof.
  assert (H : forallb (fun v => SFleb f0 (fmul (f32_of_Z 2) (ln100 (f32_of_Z v))) && SFleb (fmul (f32_of_Z 2) (ln100 (f32_of_Z v))) (f32_of_Z 12)) (range 1 101) = true) by (vm_compute; reflexivity).
  rewrite forallb_forall in H. intros v Hv. specialize (H v). rewrite In_range in H. specialize (H ltac:(lia)). apply andb_prop in H. exact H.
Qed.
(** x completes the second row with 5 *)
Definition pair_of_x : ttt := mkTtt (-1) [1; 1; 0; -1; -1; 0; 0; 0; 0] 0.
Theorem C75_few_refuted_lemma : forall pr ln r, exists s m r' s' m0 s0, length (tboard s) = 9%nat /\ ttt_check_winner s = None
  /\ length (ttt_valid_moves s) = 5%nat /\ In m0 (ttt_valid_moves s) /\ ttt_apply_move pr s m0 = Ok s0 /\ ttt_check_winner s0 = Some (tplayer s)
  /\ mct_search (G := ttt_game pr) ln s (tplayer s) (example_cfg 5) r = Ok (m, r') /\ ttt_apply_move pr s m = Ok s' /\ ttt_check_winner s' = None.
Proof.
  intros pr ln r. destruct (C27_tictactoe_lemma pr ln pair_of_x (-1) (example_cfg 5) r eq_refl (or_introl eq_refl) (or_introl eq_refl)) as (m & r' & E & _).
  pose proof (C75_few_iterations_lemma (ttt_game pr) ln pair_of_x (-1) (example_cfg 5) r m r' (ttt_valid_moves pair_of_x) eq_refl eq_refl ltac:(vm_compute; lia) ltac:(vm_compute; reflexivity) E) as Hm.
  assert (m = 2) as -> by (vm_compute in Hm; congruence).
  exists pair_of_x, 2, r', (mkTtt 1 [1; 1; -1; -1; -1; 0; 0; 0; 0] 0), 5, (mkTtt 1 [1; 1; 0; -1; -1; -1; 0; 0; 0] 0).
  split; [reflexivity|]. split; [reflexivity|]. split; [reflexivity|]. split; [vm_compute; tauto|]. split; [destruct pr; reflexivity|]. split; [reflexivity|]. split; [exact E|]. split; [destruct pr; reflexivity|]. reflexivity.
Qed.
