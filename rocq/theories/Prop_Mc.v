(** * Prop_Mc: property theorems for the plain tree search (C26-C33). *)
From Verif Require Import Base F32 BgModel BgSpec BgReach BgWitness TttModel TttSpec GameModel McModel McSpec GameFacts McApi.

(** C26.  Whatever the game, the random source, the logarithm and the constants: after any
    number [k] of iterations the store is the search tree of the given position (see
    [McSpec.tree]: indices, the single root, parents and children, actions and states,
    tried and untried moves). *)
Theorem C26_tree : forall (G : Game) ln s pl cfg r k st0 st r', mcts_init (G := G) s = Ok st0 ->
  mcts_loop ln k pl cfg (st0, r) = Ok (st, r') -> tree s st.
Proof. exact C26_tree_lemma. Qed.
Print Assumptions C26_tree.

(** C26, between the two halves of an iteration: expanding the node that was selected (or
    any unfinished node) keeps the tree. *)
Theorem C26_tree_while_expanding : forall (G : Game) s (st : store G) i n r ci st' r', tree s st -> nth_error st i = Some n ->
  g_winner G (n_state n) = None -> expand n st r = Ok (ci, st', r') -> tree s st' /\ ci = length st /\ length st' = S (length st).
Proof. exact C26_tree_while_expanding_lemma. Qed.
Print Assumptions C26_tree_while_expanding.

(** a run of six iterations on the empty TicTacToe board builds seven nodes *)
Definition rng0 : rng := mkRng (fun _ => 0%N) 0.
(** the root of the empty board, and the run *)
Definition run_from (pr : profile) (k : nat) : res (store (ttt_game pr) * rng) :=
  st0 <- mcts_init (G := ttt_game pr) ttt_new ;; mcts_loop ln0 k (-1) (cfg3 k) (st0, rng0).
Lemma run_from_inv pr k st r' : run_from pr k = Ok (st, r') ->
  exists st0, mcts_init (G := ttt_game pr) ttt_new = Ok st0 /\ mcts_loop ln0 k (-1) (cfg3 k) (st0, rng0) = Ok (st, r').
Proof. unfold run_from. destruct (mcts_init _) as [st0|]; [|discriminate]. intros H. exists st0. auto. Qed.
Example C26_run : forall pr, exists st0 st r', mcts_init (G := ttt_game pr) ttt_new = Ok st0
  /\ mcts_loop ln0 6 (-1) (cfg3 6) (st0, rng0) = Ok (st, r') /\ length st = 7%nat.
Proof.
  intros pr. destruct (run_ex _ _ (run_from pr 6) (fun st => (length st =? 7)%nat)) as (st & r' & E & H); [destruct pr; vm_compute; reflexivity|].
  destruct (run_from_inv _ _ _ _ E) as (st0 & E0 & E1). exists st0, st, r'. apply Nat.eqb_eq in H. auto.
Qed.

(** C27, any game: let [I] be a set of positions closed under the game's operations, on which
    they do not panic, and in which every unfinished position has a move.  Then the search
    returns normally; the result is a valid move if the position is unfinished and at least
    one iteration is made, and EMPTY_MOVE otherwise. *)
Theorem C27_valid_move : forall (G : Game) ln I s pl cfg r, good G I -> live G I -> I s -> -127 <= pl <= 127 ->
  exists m r', mct_search ln s pl cfg r = Ok (m, r')
    /\ (g_winner G s <> None \/ iterations cfg = 0%nat -> m = g_empty G)
    /\ (g_winner G s = None -> (0 < iterations cfg)%nat -> exists vm, g_valid G s = Ok vm /\ In m vm).
Proof. exact C27_valid_move_lemma. Qed.
Print Assumptions C27_valid_move.

(** C27 for TicTacToe: any nine cells, either player to move, searching for either player. *)
Theorem C27_tictactoe : forall pr ln s pl cfg r, length (tboard s) = 9%nat -> (tplayer s = -1 \/ tplayer s = 1) -> (pl = -1 \/ pl = 1) ->
  exists m r', mct_search (G := ttt_game pr) ln s pl cfg r = Ok (m, r')
    /\ (ttt_check_winner s <> None \/ iterations cfg = 0%nat -> m = ttt_EMPTY)
    /\ (ttt_check_winner s = None -> (0 < iterations cfg)%nat -> 0 <= m < 9 /\ cell (tboard s) m = 0).
Proof. exact C27_tictactoe_lemma. Qed.
Print Assumptions C27_tictactoe.

(** C27 for Backgammon positions (well-formed board, dice rolled): the search either returns a
    valid move or stops with the "expand called on a node with no moves" panic, and the latter
    only because some position of the game is unfinished and without moves. *)
Theorem C27_backgammon : forall pr ln s pl cfg r, bg_pos s -> (pl = -1 \/ pl = 1) -> bg_check_winner s = None -> (0 < iterations cfg)%nat ->
  (exists m r' vm, mct_search (G := bg_game pr) ln s pl cfg r = Ok (m, r') /\ bg_valid_moves pr s = Ok vm /\ In m vm)
  \/ (mct_search (G := bg_game pr) ln s pl cfg r = Panic PExplicit
      /\ exists s', bg_pos s' /\ bg_check_winner s' = None /\ bg_valid_moves pr s' = Ok []).
Proof. exact C27_backgammon_lemma. Qed.
Print Assumptions C27_backgammon.

Example C27_run : forall pr, exists m r', mct_search (G := ttt_game pr) ln0 ttt_new (-1) (cfg3 12) rng0 = Ok (m, r')
  /\ 0 <= m < 9.
Proof.
  intros pr. destruct (run_ex _ _ (mct_search (G := ttt_game pr) ln0 ttt_new (-1) (cfg3 12) rng0) (fun m : Z => (0 <=? m) && (m <? 9))) as (m & r' & E & H);
    [destruct pr; vm_compute; reflexivity|].
  exists m, r'. split; [exact E|]. apply andb_true_iff in H. destruct H as [H1 H2]. apply Z.leb_le in H1. apply Z.ltb_lt in H2. auto.
Qed.
Example C27_run_bg : forall pr, exists m r', let s := fst (bg_roll_die bg_new (mkRng (fun _ => 3%N) 0)) in
  bg_pos s /\ mct_search (G := bg_game pr) ln0 s (-1) (cfg3 2) rng0 = Ok (m, r') /\ m <> [].
Proof.
  intros pr. assert (Hg : bg_pos (fst (bg_roll_die bg_new (mkRng (fun _ => 3%N) 0)))) by (apply (game_pos pr), game_start).
  destruct (run_ex _ _ (mct_search (G := bg_game pr) ln0 (fst (bg_roll_die bg_new (mkRng (fun _ => 3%N) 0))) (-1) (cfg3 2) rng0)
     (fun m : actions => match m with [] => false | _ => true end)) as (m & r' & E & H); [destruct pr; vm_compute; reflexivity|].
  exists m, r'. split; [exact Hg|]. split; [exact E|]. destruct m; [discriminate H|discriminate].
Qed.

(** C28.  The search panics on every unfinished position without valid moves. *)
Theorem C28_stuck_panics : forall (G : Game) ln s pl cfg r, g_winner G s = None -> g_valid G s = Ok [] -> (0 < iterations cfg)%nat ->
  mct_search ln s pl cfg r = Panic PExplicit.
Proof. exact C28_stuck_panics_lemma. Qed.
Print Assumptions C28_stuck_panics.

(** C28.  Refuted: "in every position a Backgammon game can reach, the MCTS agent answers":
    there is a reachable, unfinished position on which the search of the player to move panics. *)
Theorem C28_backgammon_search_refuted : forall pr, exists s, game pr s /\ bg_check_winner s = None /\
  forall ln cfg r, (0 < iterations cfg)%nat -> mct_search (G := bg_game pr) ln s (player s) cfg r = Panic PExplicit.
Proof. exact C28_backgammon_search_refuted_lemma. Qed.
Print Assumptions C28_backgammon_search_refuted.

(** C29.  After [k <= 2^24] iterations there is an integer count for every node that its f32
    counter holds exactly, and these counts add up as they should: see [McSpec.visits_ok]. *)
Theorem C29_visits : forall (G : Game) ln s pl cfg r k st0 st r', g_winner G s = None -> mcts_init (G := G) s = Ok st0 ->
  mcts_loop ln k pl cfg (st0, r) = Ok (st, r') -> Z.of_nat k <= 2 ^ 24 ->
  exists f, visits_ok st f (Z.of_nat k).
Proof. exact C29_visits_lemma. Qed.
Print Assumptions C29_visits.

(** The counts are determined by the stored floats below 2^24. *)
Theorem C29_counts_unique : forall (G : Game) (n : node G) a b, 0 <= a < 2 ^ 24 -> 0 <= b < 2 ^ 24 -> has_visits n a -> has_visits n b -> a = b.
Proof. exact C29_counts_unique_lemma. Qed.
Print Assumptions C29_counts_unique.

Example C29_run : forall pr, exists st0 st r' f, mcts_init (G := ttt_game pr) ttt_new = Ok st0
  /\ mcts_loop ln0 15 (-1) (cfg3 15) (st0, rng0) = Ok (st, r') /\ visits_ok st f (Z.of_nat 15)
  /\ exists i n, nth_error st i = Some n /\ (0 < i)%nat /\ n_children n <> [].
Proof.
  intros pr.
  destruct (run_ex _ _ (run_from pr 15) (fun st => existsb (fun n => match n_parent n, n_children n with Some _, _ :: _ => true | _, _ => false end) st))
    as (st & r' & E & H); [destruct pr; vm_compute; reflexivity|].
  destruct (run_from_inv _ _ _ _ E) as (st0 & E0 & E1).
  destruct (C29_visits (ttt_game pr) ln0 ttt_new (-1) (cfg3 15) rng0 15 st0 st r' eq_refl E0 E1 ltac:(vm_compute; discriminate)) as [f Hf].
  exists st0, st, r', f. split; [exact E0|]. split; [exact E1|]. split; [exact Hf|].
  apply existsb_exists in H. destruct H as (n & Hn & Hb). apply In_nth_error in Hn. destruct Hn as [i Ei].
  destruct (n_parent n) as [p|] eqn:Ep; [|discriminate]. exists i, n. split; [exact Ei|].
  split; [|destruct (n_children n); [discriminate|discriminate]].
  destruct i; [|apply Nat.lt_0_succ]. destruct (tree_root _ _ _ (C26_tree _ _ _ _ _ _ _ _ _ _ E0 E1)) as (n0 & En0 & Hp0 & _).
  rewrite Ei in En0. injection En0 as <-. congruence.
Qed.

(** C30.  In any store whose parent links lead to smaller indices, backpropagate returns; the
    nodes on the path from [i] to its root get one visit and the value added, everything
    else about them and all of every other node is unchanged, and no node appears or
    disappears. *)
Theorem C30_backpropagate : forall (G : Game) (st : store G) i v, (i < length st)%nat -> parents_down st ->
  exists st', backpropagate i v st = Ok st' /\ length st' = length st
    /\ forall j n, nth_error st j = Some n ->
       (on_path st i j -> nth_error st' j = Some (mkNode (n_state n) (n_idx n) (n_parent n) (n_children n)
            (fadd (n_visits n) f1) (fadd (n_value n) v) (n_policy n) (n_action n) (n_exp n)))
       /\ (~ on_path st i j -> nth_error st' j = Some n).
Proof. exact C30_backpropagate_lemma. Qed.
Print Assumptions C30_backpropagate.

(** The hypothesis holds in every search tree, and the path ends at the root. *)
Theorem C30_search_trees : forall (G : Game) s (st : store G), tree s st -> parents_down st /\ forall i, (i < length st)%nat -> on_path st i 0.
Proof. exact C30_search_trees_lemma. Qed.
Print Assumptions C30_search_trees.

(** C31.  Whatever the playout does, the score of an unfinished node is 0. *)
Theorem C31_rollout_sees_nothing : forall (G : Game) (n : node G) pl limit r v r', g_winner G (n_state n) = None ->
  simulate n pl limit r = Ok (v, r') -> v = f0.
Proof. exact C31_rollout_sees_nothing_lemma. Qed.
Print Assumptions C31_rollout_sees_nothing.

(** A finished node scores 1, -1 or 0 from the searching player's side (if the round limit is
    positive). *)
Theorem C31_finished_nodes : forall (G : Game) (n : node G) pl limit r w, (pl = -1 \/ pl = 1) -> g_winner G (n_state n) = Some w -> (0 < limit)%nat ->
  simulate n pl limit r = Ok (if w =? pl then f1 else if w =? - pl then fm1 else f0, r).
Proof. exact C31_finished_nodes_lemma. Qed.
Print Assumptions C31_finished_nodes.

(** C31.  Refuted: "simulate returns the outcome of the playout": with one empty cell left,
    whose only continuation wins for the player to move, the score is 0 for every random
    source and every limit. *)
Theorem C31_sure_win_refuted : forall pr, exists s s', tgame pr 8 s /\ ttt_valid_moves s = [2] /\ ttt_apply_move pr s 2 = Ok s'
  /\ ttt_check_winner s' = Some (tplayer s)
  /\ forall i p c vi va po a ex limit r, exists r',
       simulate (G := ttt_game pr) (mkNode (G := ttt_game pr) s i p c vi va po a ex) (tplayer s) limit r = Ok (f0, r').
Proof. exact C31_sure_win_refuted_lemma. Qed.
Print Assumptions C31_sure_win_refuted.

(** C32.  The last child among those with the most visits is chosen (no NaN among the visits,
    which [C29_visits] guarantees for search trees). *)
Theorem C32_most_visits : forall (G : Game) (st : store G) i ch, has_children st i ch ->
  (ch = [] -> select_most_visits i st = Ok (g_empty G))
  /\ (ch <> [] -> (forall m, In m ch -> n_visits m <> S754_nan) ->
      exists l1 m l2, ch = l1 ++ m :: l2 /\ select_most_visits i st = Ok (move_of m)
        /\ (forall x, In x l1 -> SFleb (n_visits x) (n_visits m) = true)
        /\ (forall x, In x l2 -> SFltb (n_visits x) (n_visits m) = true)).
Proof. exact C32_most_visits_lemma. Qed.
Print Assumptions C32_most_visits.

(** C32.  The same for select_win_pct with value/visits. *)
Theorem C32_win_pct : forall (G : Game) (st : store G) i ch, has_children st i ch ->
  (ch = [] -> select_win_pct i st = Ok (g_empty G))
  /\ (ch <> [] -> (forall m, In m ch -> fdiv (n_value m) (n_visits m) <> S754_nan) ->
      exists l1 m l2, ch = l1 ++ m :: l2 /\ select_win_pct i st = Ok (move_of m)
        /\ (forall x, In x l1 -> SFleb (fdiv (n_value x) (n_visits x)) (fdiv (n_value m) (n_visits m)) = true)
        /\ (forall x, In x l2 -> SFltb (fdiv (n_value x) (n_visits x)) (fdiv (n_value m) (n_visits m)) = true)).
Proof. exact C32_win_pct_lemma. Qed.
Print Assumptions C32_win_pct.

(** C32.  With any scores, NaN included, both return the move of some child (EMPTY_MOVE without
    children), and select_ucb in a search tree picks some child of the node. *)
Theorem C32_no_panic : forall (G : Game) (st : store G) i ch, has_children st i ch ->
  (exists a, select_most_visits i st = Ok a /\ (ch <> [] -> exists m, In m ch /\ a = move_of m))
  /\ (exists a, select_win_pct i st = Ok a /\ (ch <> [] -> exists m, In m ch /\ a = move_of m))
  /\ (forall ln c s, tree s st -> ch <> [] -> exists m, select_ucb ln i st c = Ok m /\ In m ch).
Proof. exact C32_no_panic_lemma. Qed.
Print Assumptions C32_no_panic.

(** three children with visits 2, 5, 5: the last one is taken; a NaN among win percentages
    (0/0, never visited) is skipped over or chosen, but never a panic *)
Definition mk3 (pr : profile) (a b c : f32) : store (ttt_game pr) :=
  [mkNode (G := ttt_game pr) ttt_new 0 None [1; 2; 3]%nat f0 f0 f0 None [];
   mkNode (G := ttt_game pr) ttt_new 1 (Some 0%nat) [] a f1 f0 (Some 4) [];
   mkNode (G := ttt_game pr) ttt_new 2 (Some 0%nat) [] b f1 f0 (Some 5) [];
   mkNode (G := ttt_game pr) ttt_new 3 (Some 0%nat) [] c f0 f0 (Some 6) []].
Example C32_run : forall pr, (exists ch, has_children (mk3 pr (f32_of_Z 2) (f32_of_Z 5) (f32_of_Z 5)) 0 ch)
  /\ select_most_visits 0 (mk3 pr (f32_of_Z 2) (f32_of_Z 5) (f32_of_Z 5)) = Ok 6
  /\ select_most_visits 0 (mk3 pr (f32_of_Z 2) (f32_of_Z 5) (f32_of_Z 4)) = Ok 5
  /\ select_win_pct 0 (mk3 pr (f32_of_Z 2) (f32_of_Z 5) (f32_of_Z 1)) = Ok 4
  /\ select_win_pct 0 (mk3 pr (f32_of_Z 2) (f32_of_Z 5) f0) = Ok 6.
Proof.
  intros pr. split.
  - eexists. eexists. split; [reflexivity|]. repeat (apply Forall2_cons; [reflexivity|]). apply Forall2_nil.
  - vm_compute. auto.
Qed.

(** C33.  Below 2^24 the counter counts. *)
Theorem C33_counter_exact : forall n, 0 <= n < 2 ^ 24 -> fadd (f32_of_Z n) f1 = f32_of_Z (n + 1) /\ (n + 1 < 2 ^ 24 -> SFltb (f32_of_Z n) (f32_of_Z (n + 1)) = true).
Proof. exact C33_counter_exact_lemma. Qed.
Print Assumptions C33_counter_exact.

(** C33.  At 2^24 it stands still, however many visits follow. *)
Theorem C33_counter_stops : forall k, Nat.iter k (fun v => fadd v f1) (f32_of_Z (2 ^ 24)) = f32_of_Z (2 ^ 24).
Proof. exact C33_counter_stops_lemma. Qed.
Print Assumptions C33_counter_stops.

(** C33 in terms of the search: a root with 2^24 visits keeps them whatever is searched. *)
Theorem C33_backpropagate_stops : forall (G : Game) (st : store G) v n, nth_error st 0 = Some n -> n_parent n = None -> has_visits n (2 ^ 24) ->
  exists st' n', backpropagate 0 v st = Ok st' /\ nth_error st' 0 = Some n' /\ has_visits n' (2 ^ 24).
Proof. exact C33_backpropagate_stops_lemma. Qed.
Print Assumptions C33_backpropagate_stops.
