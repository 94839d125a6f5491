(** * McApi: proofs of the plain Monte Carlo tree search properties, re-exported by Prop_Mc.v. *)
From Verif Require Import Base BaseFacts F32 F32Facts BgModel BgSpec BgReach BgWitness TttModel TttSpec TttApi
  GameModel McModel McSpec McProof McProof2 GameFacts.
Require Import ZifyBool ZifyNat.

(** node [i] exists and its children, in order, are the nodes [ch] *)
Definition has_children {G} (st : store G) (i : nat) (ch : list (node G)) : Prop :=
  exists n, nth_error st i = Some n /\ Forall2 (fun c m => nth_error st c = Some m) (n_children n) ch.
(** what a child stands for *)
Definition move_of {G} (m : node G) : Mv G := match n_action m with Some a => a | None => g_empty G end.

Lemma mmap_scores (A : Type) (f : A -> f32) (l : list A) : mmap (fun m => v <- Ok (f m) ;; Ok (m, v)) l = Ok (map (fun m => (m, f m)) l).
Proof. induction l as [|x l IH]; [reflexivity|]. cbn [mmap bind map] in *. rewrite IH. reflexivity. Qed.
Lemma has_children_of G (st : store G) i ch : has_children st i ch -> exists n, nth_error st i = Some n /\ children_of st n = Ok ch.
Proof.
  intros (n & E & HF). exists n. split; [exact E|]. unfold children_of. clear E.
  induction HF as [|c m l l' H HF IH]; cbn; [reflexivity|]. unfold get_node at 1. rewrite H. cbn [bind]. rewrite IH. reflexivity.
Qed.
Lemma best_by_pure G (f : node G -> f32) l : best_by (fun m => Ok (f m)) l
  = Ok (option_map fst (max_by (fun a b : node G * f32 => fcmp (snd a) (snd b)) (map (fun m => (m, f m)) l))).
Proof. unfold best_by. rewrite mmap_scores. reflexivity. Qed.
Lemma fle_le a b : a <> S754_nan -> b <> S754_nan -> fle a b -> SFleb a b = true.
Proof.
  intros Ha Hb. unfold fle, fcmp, SFleb. rewrite compare_key by assumption. destruct (lex3 _ _); congruence.
Qed.
Lemma gt_lt a b : a <> S754_nan -> b <> S754_nan -> fcmp a b = Gt -> SFltb b a = true.
Proof.
  intros Ha Hb. unfold fcmp, SFltb. rewrite compare_key by assumption. rewrite (compare_key b a) by assumption.
  rewrite (lex3_antisym (key a) (key b)). intros ->. reflexivity.
Qed.
Lemma best_by_max G (f : node G -> f32) l : l <> [] -> (forall m, In m l -> f m <> S754_nan) ->
  exists l1 m l2, l = l1 ++ m :: l2 /\ best_by (fun m => Ok (f m)) l = Ok (Some m)
    /\ (forall x, In x l1 -> SFleb (f x) (f m) = true) /\ (forall x, In x l2 -> SFltb (f x) (f m) = true).
Proof.
  intros Hne HN. rewrite best_by_pure. destruct l as [|m0 l]; [congruence|]. cbn [map max_by option_map].
  destruct (max_by_from_spec (fun p : node G * f32 => snd p) (map (fun m => (m, f m)) l) (m0, f m0)) as (p1 & p2 & E & H1 & H2).
  { intros x [<-|Hx]; [apply HN; left; reflexivity|]. apply in_map_iff in Hx. destruct Hx as (y & <- & Hy). apply HN. right. exact Hy. }
  cbv beta in *. set (b := max_by_from _ _ _) in *.
  change ((m0, f m0) :: map (fun m => (m, f m)) l) with (map (fun m => (m, f m)) (m0 :: l)) in E.
  apply map_eq_app in E. destruct E as (l1 & l2' & El & E1 & E2). apply map_eq_cons in E2. destruct E2 as (m & l2 & -> & Em & E3).
  exists l1, m, l2. assert (Eb : fst b = m) by (rewrite <- Em; reflexivity). assert (Ebs : snd b = f m) by (rewrite <- Em; reflexivity).
  assert (Hin : forall x, In x l1 \/ x = m \/ In x l2 -> f x <> S754_nan).
  { intros x Hx. apply HN. rewrite El. apply in_or_app. cbn. destruct Hx as [H|[->|H]]; auto. }
  split; [exact El|]. split; [rewrite Eb; reflexivity|]. rewrite Ebs in H1, H2. split.
  - intros x Hx. apply fle_le; [apply Hin; auto|apply Hin; auto|].
    apply (H1 (x, f x)). rewrite <- E1. apply in_map_iff. eauto.
  - intros x Hx. apply gt_lt; [apply Hin; auto|apply Hin; auto|].
    apply (H2 (x, f x)). rewrite <- E3. apply in_map_iff. eauto.
Qed.
Lemma best_by_empty_iff G (f : node G -> f32) l : exists b, best_by (fun m => Ok (f m)) l = Ok b /\ (l = [] -> b = None)
  /\ (l <> [] -> exists m, b = Some m /\ In m l).
Proof.
  destruct l as [|m0 l]; [exists None; repeat split; congruence|].
  destruct (best_by_ok G (fun m => Ok (f m)) (m0 :: l)) as (m & E & Hm); [eauto|congruence|].
  exists (Some m). split; [exact E|]. split; [congruence|]. eauto.
Qed.

Lemma simulate_zero G (self curr : St G) pl limit : g_winner G self = None -> forall r v r',
  simulate_loop self curr pl limit r = Ok (v, r') -> v = f0.
Proof.
  intros Hw. revert curr. induction limit as [|limit IH]; intros curr r v r' H; cbn [simulate_loop] in H; [congruence|].
  rewrite Hw in H. destruct (g_valid G curr) as [vm|]; cbn [bind] in H; [|discriminate].
  match type of H with bind ?x _ = _ => destruct x as [[c2 r2]|] end; cbn [bind] in H; [|discriminate].
  eapply IH; exact H.
Qed.

(** for examples: evaluate a run and check a boolean about its result *)
Lemma run_ex (A B : Type) (x : res (A * B)) (P : A -> bool) :
  match x with Ok (a, _) => P a | Panic _ => false end = true -> exists a b, x = Ok (a, b) /\ P a = true.
Proof. destruct x as [[a b]|]; [eauto|discriminate]. Qed.
Lemma ok_ex (A : Type) (x : res A) : match x with Ok _ => true | Panic _ => false end = true -> exists a, x = Ok a.
Proof. destruct x as [a|]; [eauto|discriminate]. Qed.
(** A concrete logarithm-free instance for examples: any function will do. *)
Definition ln0 : f32 -> f32 := fun _ => f1.
Definition cfg3 (k : nat) : mcfg := mkCfg k f1 5 f1 f0.

Theorem C26_tree_lemma : forall (G : Game) ln s pl cfg r k st0 st r', mcts_init (G := G) s = Ok st0 ->
  mcts_loop ln k pl cfg (st0, r) = Ok (st, r') -> tree s st.
Proof.
  intros G ln s pl cfg r k st0 st r' Hi H. eapply loop_tree; [|exact H]. eapply init_tree; exact Hi.
Qed.

Theorem C26_tree_while_expanding_lemma : forall (G : Game) s (st : store G) i n r ci st' r', tree s st -> nth_error st i = Some n ->
  g_winner G (n_state n) = None -> expand n st r = Ok (ci, st', r') -> tree s st' /\ ci = length st /\ length st' = S (length st).
Proof.
  intros G s st i n r ci st' r' HT E Hw H. pose proof (tree_idx _ _ _ HT _ _ E) as Hidx.
  destruct (expand_inv _ _ _ _ _ _ _ H) as (ex & a & s' & vm' & Ee & Ea & Ev & -> & ->); [rewrite Hidx; eapply nth_error_lt; exact E|].
  rewrite Hidx. split; [|split; [reflexivity|rewrite app_length, length_set_nth; cbn; lia]].
  pose proof (ex_tree G s st i n ex a s' vm' r r' HT E Hw Ee Ea Ev) as HT'. rewrite Hidx in HT'. exact HT'.
Qed.

Theorem C27_valid_move_lemma : forall (G : Game) ln I s pl cfg r, good G I -> live G I -> I s -> -127 <= pl <= 127 ->
  exists m r', mct_search ln s pl cfg r = Ok (m, r')
    /\ (g_winner G s <> None \/ iterations cfg = 0%nat -> m = g_empty G)
    /\ (g_winner G s = None -> (0 < iterations cfg)%nat -> exists vm, g_valid G s = Ok vm /\ In m vm).
Proof.
  intros G ln I s pl cfg r HG HL Hs Hp.
  destruct (search_total G ln I HG s pl cfg r Hp Hs) as [H|(_ & s' & Hs' & Hw & Hv)]; [exact H|].
  exfalso. exact (HL s' Hs' Hw Hv).
Qed.

Theorem C27_tictactoe_lemma : forall pr ln s pl cfg r, length (tboard s) = 9%nat -> (tplayer s = -1 \/ tplayer s = 1) -> (pl = -1 \/ pl = 1) ->
  exists m r', mct_search (G := ttt_game pr) ln s pl cfg r = Ok (m, r')
    /\ (ttt_check_winner s <> None \/ iterations cfg = 0%nat -> m = ttt_EMPTY)
    /\ (ttt_check_winner s = None -> (0 < iterations cfg)%nat -> 0 <= m < 9 /\ cell (tboard s) m = 0).
Proof.
  intros pr ln s pl cfg r HL HP Hpl.
  destruct (C27_valid_move_lemma (ttt_game pr) ln ttt_pos s pl cfg r (ttt_good pr) (ttt_live pr)) as (m & r' & E & H1 & H2); [split; assumption|lia|].
  exists m, r'. split; [exact E|]. split; [exact H1|]. intros Hw Hk. destruct (H2 Hw Hk) as (vm & Ev & Hin).
  cbn in Ev. injection Ev as <-. apply valid_moves_cell; assumption.
Qed.

Theorem C27_backgammon_lemma : forall pr ln s pl cfg r, bg_pos s -> (pl = -1 \/ pl = 1) -> bg_check_winner s = None -> (0 < iterations cfg)%nat ->
  (exists m r' vm, mct_search (G := bg_game pr) ln s pl cfg r = Ok (m, r') /\ bg_valid_moves pr s = Ok vm /\ In m vm)
  \/ (mct_search (G := bg_game pr) ln s pl cfg r = Panic PExplicit
      /\ exists s', bg_pos s' /\ bg_check_winner s' = None /\ bg_valid_moves pr s' = Ok []).
Proof.
  intros pr ln s pl cfg r Hs Hpl Hw Hk.
  destruct (search_total (bg_game pr) ln bg_pos (bg_good pr) s pl cfg r ltac:(lia) Hs) as [(m & r' & E & _ & H)|H].
  - left. destruct (H Hw Hk) as (vm & Ev & Hin). exists m, r', vm. auto.
  - right. exact H.
Qed.

Theorem C28_stuck_panics_lemma : forall (G : Game) ln s pl cfg r, g_winner G s = None -> g_valid G s = Ok [] -> (0 < iterations cfg)%nat ->
  mct_search ln s pl cfg r = Panic PExplicit.
Proof.
  intros G ln s pl cfg r Hw Hv Hk. unfold mct_search, mcts_init, add_node, node_new. rewrite Hw, Hv. cbn [bind length app].
  destruct (iterations cfg) as [|k]; [lia|]. cbn [mcts_loop]. unfold mcts_iter, select_leaf_node. cbn. rewrite Hw. reflexivity.
Qed.

Theorem C28_backgammon_search_refuted_lemma : forall pr, exists s, game pr s /\ bg_check_winner s = None /\
  forall ln cfg r, (0 < iterations cfg)%nat -> mct_search (G := bg_game pr) ln s (player s) cfg r = Panic PExplicit.
Proof.
  intros pr. exists st_stuck. split; [apply game_stuck|]. split; [reflexivity|]. intros ln cfg r Hk.
  apply C28_stuck_panics_lemma; [reflexivity|exact (moves_stuck pr)|exact Hk].
Qed.

Theorem C29_visits_lemma : forall (G : Game) ln s pl cfg r k st0 st r', g_winner G s = None -> mcts_init (G := G) s = Ok st0 ->
  mcts_loop ln k pl cfg (st0, r) = Ok (st, r') -> Z.of_nat k <= 2 ^ 24 ->
  exists f, visits_ok st f (Z.of_nat k).
Proof.
  intros G ln s pl cfg r k st0 st r' Hw Hi H Hk.
  apply (loop_visits G ln s pl cfg Hw k st0 r st r' (fun _ => 0) 0); auto; [eapply init_tree; exact Hi|eapply init_visits; exact Hi|lia].
Qed.

Theorem C29_counts_unique_lemma : forall (G : Game) (n : node G) a b, 0 <= a < 2 ^ 24 -> 0 <= b < 2 ^ 24 -> has_visits n a -> has_visits n b -> a = b.
Proof.
  intros G n a b Ha Hb H1 H2. unfold has_visits in *. apply f32_of_Z_inj; congruence.
Qed.

Theorem C30_backpropagate_lemma : forall (G : Game) (st : store G) i v, (i < length st)%nat -> parents_down st ->
  exists st', backpropagate i v st = Ok st' /\ length st' = length st
    /\ forall j n, nth_error st j = Some n ->
       (on_path st i j -> nth_error st' j = Some (mkNode (n_state n) (n_idx n) (n_parent n) (n_children n)
            (fadd (n_visits n) f1) (fadd (n_value n) v) (n_policy n) (n_action n) (n_exp n)))
       /\ (~ on_path st i j -> nth_error st' j = Some n).
Proof.
  intros G st i v Hi HP. destruct (backprop_spec G i v st Hi HP) as (st' & E & HS & HN).
  exists st'. split; [exact E|]. split; [symmetry; eapply shape_eq_length; exact HS|]. exact HN.
Qed.

Theorem C30_search_trees_lemma : forall (G : Game) s (st : store G), tree s st -> parents_down st /\ forall i, (i < length st)%nat -> on_path st i 0.
Proof.
  intros G s st HT. split; [eapply tree_parents_down; exact HT|]. intros i Hi. eapply tree_path_root; eassumption.
Qed.

Theorem C31_rollout_sees_nothing_lemma : forall (G : Game) (n : node G) pl limit r v r', g_winner G (n_state n) = None ->
  simulate n pl limit r = Ok (v, r') -> v = f0.
Proof.
  intros G n pl limit r v r' Hw H. eapply simulate_zero; [exact Hw|exact H].
Qed.

Theorem C31_finished_nodes_lemma : forall (G : Game) (n : node G) pl limit r w, (pl = -1 \/ pl = 1) -> g_winner G (n_state n) = Some w -> (0 < limit)%nat ->
  simulate n pl limit r = Ok (if w =? pl then f1 else if w =? - pl then fm1 else f0, r).
Proof.
  intros G n pl limit r w Hp Hw Hl. destruct limit as [|limit]; [lia|]. unfold simulate. cbn [simulate_loop]. rewrite Hw.
  unfold outcome. destruct (w =? pl); [reflexivity|]. rewrite i8_ok by lia. reflexivity.
Qed.

Theorem C31_sure_win_refuted_lemma : forall pr, exists s s', tgame pr 8 s /\ ttt_valid_moves s = [2] /\ ttt_apply_move pr s 2 = Ok s'
  /\ ttt_check_winner s' = Some (tplayer s)
  /\ forall i p c vi va po a ex limit r, exists r',
       simulate (G := ttt_game pr) (mkNode (G := ttt_game pr) s i p c vi va po a ex) (tplayer s) limit r = Ok (f0, r').
Proof.
  intros pr.
  assert (Hrun : forall l n s, tgame pr n s -> forall s', mfold (fun s m => if existsb (Z.eqb m) (ttt_valid_moves s) then
             match ttt_check_winner s with None => ttt_apply_move pr s m | Some _ => Panic PExplicit end else Panic PExplicit) l s = Ok s' ->
             tgame pr (n + length l) s').
  { induction l as [|m l IH]; intros n s Hg s' H; cbn [mfold] in H.
    - injection H as <-. rewrite Nat.add_0_r. exact Hg.
    - destruct (existsb (Z.eqb m) (ttt_valid_moves s)) eqn:Em; cbn [bind] in H; [|discriminate].
      destruct (ttt_check_winner s) eqn:Ew; cbn [bind] in H; [discriminate|].
      destruct (ttt_apply_move pr s m) as [s1|] eqn:Ea; cbn [bind] in H; [|discriminate].
      cbn [length]. rewrite Nat.add_succ_r. change (S (n + length l)) with (S n + length l)%nat. apply (IH (S n) s1); [|exact H].
      eapply tg_move; [exact Hg|exact Ew| |exact Ea]. apply existsb_exists in Em. destruct Em as (x & Hx & Ex). apply Z.eqb_eq in Ex. subst. exact Hx. }
  set (s := mkTtt (-1) [-1; -1; 0; 1; 1; -1; -1; 1; 1] 0).
  assert (Hg : tgame pr 8 s).
  { apply (Hrun [0; 3; 1; 4; 5; 7; 6; 8] 0%nat ttt_new (tg_new pr)). destruct pr; vm_compute; reflexivity. }
  exists s, (mkTtt 1 [-1; -1; -1; 1; 1; -1; -1; 1; 1] 0).
  split; [exact Hg|]. split; [reflexivity|]. split; [destruct pr; reflexivity|]. split; [reflexivity|].
  intros i p c vi va po a ex limit r.
  destruct (simulate_loop_ok (ttt_game pr) ttt_pos (ttt_good pr) (tplayer s) ltac:(cbn; lia) limit s s r) as (v & r' & E).
  { split; [reflexivity|left; reflexivity]. }
  exists r'. unfold simulate. cbn [n_state]. rewrite E. f_equal. f_equal. apply (simulate_zero (ttt_game pr)) in E; [exact E|reflexivity].
Qed.

Theorem C32_most_visits_lemma : forall (G : Game) (st : store G) i ch, has_children st i ch ->
  (ch = [] -> select_most_visits i st = Ok (g_empty G))
  /\ (ch <> [] -> (forall m, In m ch -> n_visits m <> S754_nan) ->
      exists l1 m l2, ch = l1 ++ m :: l2 /\ select_most_visits i st = Ok (move_of m)
        /\ (forall x, In x l1 -> SFleb (n_visits x) (n_visits m) = true)
        /\ (forall x, In x l2 -> SFltb (n_visits x) (n_visits m) = true)).
Proof.
  intros G st i ch H. destruct (has_children_of _ _ _ _ H) as (n & E & Ec). unfold select_most_visits, get_node. rewrite E. cbn [bind]. rewrite Ec. cbn [bind].
  split; [intros ->; reflexivity|]. intros Hne HN. destruct (best_by_max G n_visits ch Hne HN) as (l1 & m & l2 & El & Eb & H1 & H2).
  exists l1, m, l2. rewrite Eb. auto.
Qed.

Theorem C32_win_pct_lemma : forall (G : Game) (st : store G) i ch, has_children st i ch ->
  (ch = [] -> select_win_pct i st = Ok (g_empty G))
  /\ (ch <> [] -> (forall m, In m ch -> fdiv (n_value m) (n_visits m) <> S754_nan) ->
      exists l1 m l2, ch = l1 ++ m :: l2 /\ select_win_pct i st = Ok (move_of m)
        /\ (forall x, In x l1 -> SFleb (fdiv (n_value x) (n_visits x)) (fdiv (n_value m) (n_visits m)) = true)
        /\ (forall x, In x l2 -> SFltb (fdiv (n_value x) (n_visits x)) (fdiv (n_value m) (n_visits m)) = true)).
Proof.
  intros G st i ch H. destruct (has_children_of _ _ _ _ H) as (n & E & Ec). unfold select_win_pct, get_node. rewrite E. cbn [bind]. rewrite Ec. cbn [bind].
  split; [intros ->; reflexivity|]. intros Hne HN. destruct (best_by_max G win_pct ch Hne HN) as (l1 & m & l2 & El & Eb & H1 & H2).
  exists l1, m, l2. rewrite Eb. auto.
Qed.

Theorem C32_no_panic_lemma : forall (G : Game) (st : store G) i ch, has_children st i ch ->
  (exists a, select_most_visits i st = Ok a /\ (ch <> [] -> exists m, In m ch /\ a = move_of m))
  /\ (exists a, select_win_pct i st = Ok a /\ (ch <> [] -> exists m, In m ch /\ a = move_of m))
  /\ (forall ln c s, tree s st -> ch <> [] -> exists m, select_ucb ln i st c = Ok m /\ In m ch).
Proof.
  intros G st i ch H. destruct (has_children_of _ _ _ _ H) as (n & E & Ec).
  split; [|split].
  - unfold select_most_visits, get_node. rewrite E. cbn [bind]. rewrite Ec. cbn [bind].
    destruct (best_by_empty_iff G n_visits ch) as (b & Eb & H1 & H2). rewrite Eb. cbn [bind]. eexists. split; [reflexivity|].
    intros Hne. destruct (H2 Hne) as (m & -> & Hm). exists m. auto.
  - unfold select_win_pct, get_node. rewrite E. cbn [bind]. rewrite Ec. cbn [bind].
    destruct (best_by_empty_iff G win_pct ch) as (b & Eb & H1 & H2). rewrite Eb. cbn [bind]. eexists. split; [reflexivity|].
    intros Hne. destruct (H2 Hne) as (m & -> & Hm). exists m. auto.
  - intros ln c s HT Hne. destruct H as (n' & E' & HF). rewrite E in E'. injection E' as <-.
    destruct (select_ucb_spec G ln s st i n c HT E) as (m & Em & Hin & Enm); [intros Hn; rewrite Hn in HF; inversion HF; congruence|].
    exists m. split; [exact Em|]. clear -HF Hin Enm. induction HF as [|x y l l' Hx HF IH]; [destruct Hin|].
    destruct Hin as [->|Hin]; [left; congruence|right; apply IH; exact Hin].
Qed.

Theorem C33_counter_exact_lemma : forall n, 0 <= n < 2 ^ 24 -> fadd (f32_of_Z n) f1 = f32_of_Z (n + 1) /\ (n + 1 < 2 ^ 24 -> SFltb (f32_of_Z n) (f32_of_Z (n + 1)) = true).
Proof.
  intros n Hn. split; [apply counter_step; exact Hn|]. intros Hn'.
  apply gt_lt; [apply f32_of_Z_not_nan; unfold small; lia|apply f32_of_Z_not_nan; unfold small; lia|].
  rewrite fcmp_int by lia. apply Z.compare_gt_iff. lia.
Qed.

Theorem C33_counter_stops_lemma : forall k, Nat.iter k (fun v => fadd v f1) (f32_of_Z (2 ^ 24)) = f32_of_Z (2 ^ 24).
Proof.
  induction k as [|k IH]; [reflexivity|]. change (Nat.iter (S k) (fun v => fadd v f1) (f32_of_Z (2 ^ 24))) with (fadd (Nat.iter k (fun v => fadd v f1) (f32_of_Z (2 ^ 24))) f1).
  rewrite IH. apply counter_stuck.
Qed.

Theorem C33_backpropagate_stops_lemma : forall (G : Game) (st : store G) v n, nth_error st 0 = Some n -> n_parent n = None -> has_visits n (2 ^ 24) ->
  exists st' n', backpropagate 0 v st = Ok st' /\ nth_error st' 0 = Some n' /\ has_visits n' (2 ^ 24).
Proof.
  intros G st v n E Hp Hv. unfold backpropagate. cbn [backprop_fuel]. rewrite E, Hp. eexists. eexists. split; [reflexivity|].
  split; [destruct st; [discriminate|reflexivity]|]. unfold has_visits in *. cbn [bump n_visits]. rewrite Hv. apply counter_stuck.
Qed.
