(** * Prop_Seek: how well the two searches play where the truth is known (C73 to C75). *)
From Verif Require Import TttApi AlphaInst GameModel McModel SeekSpec SeekApi WinApi Witness.
Local Open Scope Z_scope.

(** C73, refuted.  "Guided by a network that knows the worth of every position for the player to move
    (the target it is trained towards), the search for a move to play makes no losing move the most
    visited one if another move does not lose": with such a network, the example settings and 20
    iterations, a losing move is strictly the most visited in a drawn position. *)
Theorem C73_exact_network : exists nt s st r' m s',
  net_ok (ttt_game Release) nt /\ exact_net nt /\ played s /\ ttt_check_winner s = None /\ ttt_worth s = 0
  /\ alpha_mcts_parallel (G := ttt_game Release) tsum0 dir0 nt (example_cfg 20) [0%nat] [] [s] rng0 = Ok (st, r')
  /\ most_visited st 0 m /\ In m (ttt_valid_moves s) /\ ttt_apply_move Release s m = Ok s' /\ ttt_worth s' = 1.
Proof. exact C73_exact_network_lemma. Qed.
Print Assumptions C73_exact_network.
(** C73.  Not for want of iterations: the same with 200 of them, twice the number of the example
    settings; the losing move then has over half of all visits. *)
Theorem C73_more_iterations : exists st r' m s',
  alpha_mcts_parallel (G := ttt_game Release) tsum0 dir0 oracle (example_cfg 200) [0%nat] [] [corners] rng0 = Ok (st, r')
  /\ most_visited st 0 m /\ ttt_worth corners = 0 /\ ttt_apply_move Release corners m = Ok s' /\ ttt_worth s' = 1.
Proof. exact C73_more_iterations_lemma. Qed.
Print Assumptions C73_more_iterations.
(** C73, non-vacuity: the network is well-shaped and exact; in the position the corner moves 2 and 6
    lose and all the others draw. *)
Example C73_oracle : net_ok (ttt_game Release) oracle /\ exact_net oracle /\ played corners.
Proof. split; [exact (oracle_ok Release)|]. split; [exact oracle_exact|exact corners_played]. Qed.
Example C73_moves : map (fun m => (m, match ttt_apply_move Release corners m with Ok s => ttt_worth s | Panic _ => 9 end)) (ttt_valid_moves corners) = [(1, 0); (2, 1); (3, 0); (5, 0); (6, 1); (7, 0)].
Proof. vm_compute. reflexivity. Qed.

(** C74, refuted.  "A player using the plain search does not allow the opponent to win at once where
    this can be avoided": with the example settings (100 iterations, exploration constant 2) it
    leaves a completed pair unblocked, and the opponent wins with the next move. *)
Theorem C74_no_block : exists s m r' s' m' s'',
  played s /\ ttt_check_winner s = None /\ ttt_worth s = 0
  /\ mct_search (G := ttt_game Release) ln100 s (tplayer s) (example_cfg 100) rng0 = Ok (m, r')
  /\ In m (ttt_valid_moves s) /\ ttt_apply_move Release s m = Ok s'
  /\ In m' (ttt_valid_moves s') /\ ttt_apply_move Release s' m' = Ok s'' /\ ttt_check_winner s'' = Some (- tplayer s).
Proof. exact C74_no_block_lemma. Qed.
Print Assumptions C74_no_block.
(** C74, non-vacuity: in that position the block at 2 holds the draw and every other move loses. *)
Example C74_moves : map (fun m => (m, match ttt_apply_move Release threat m with Ok s => ttt_worth s | Panic _ => 9 end)) (ttt_valid_moves threat) = [(2, 0); (4, 1); (6, 1); (7, 1)].
Proof. vm_compute. reflexivity. Qed.
(** the same with other random numbers *)
Example C74_streams : map (fun a => roll_out 50 (mkRng (fun k => (N.of_nat (k * k * 7 + k * 3) * a)%N) 0)) [1; 5]%N = [Some 7; Some 7].
Proof. vm_compute. reflexivity. Qed.

(** C75.  If some move wins at once, the plain search returns a move that wins at once - for any game,
    any random numbers and any logarithm, provided there are enough iterations for the number of
    moves: more than [(n - 1)] per move, where [3 * n] bounds the exploration constant times the
    logarithm of the number of iterations.  (For [pl] the player for whom the search is made; the
    result of the move may depend on chance, therefore "a possible result of it".) *)
Theorem C75_immediate_win : forall (G : Game) ln s pl cfg r m r' n vm m0, (pl = -1 \/ pl = 1) -> (0 < sim_limit cfg)%nat -> g_winner G s = None ->
  g_valid G s = Ok vm -> In m0 vm -> wins G pl s m0 ->
  2 <= n <= 16 -> bonus_within ln (cfg_c cfg) (Z.of_nat (iterations cfg)) (3 * n) ->
  Z.of_nat (length vm) * (n - 1) < Z.of_nat (iterations cfg) <= 2 ^ 14 ->
  mct_search ln s pl cfg r = Ok (m, r') -> In m vm /\ exists q s' q', g_apply G s m q = Ok (s', q') /\ g_winner G s' = Some pl.
Proof. exact C75_immediate_win_lemma. Qed.
Print Assumptions C75_immediate_win.
(** C75.  In Tic-Tac-Toe. *)
Theorem C75_tictactoe : forall pr ln s pl cfg r n m0 s0, length (tboard s) = 9%nat -> (tplayer s = -1 \/ tplayer s = 1) -> (pl = -1 \/ pl = 1) -> (0 < sim_limit cfg)%nat ->
  ttt_check_winner s = None -> In m0 (ttt_valid_moves s) -> ttt_apply_move pr s m0 = Ok s0 -> ttt_check_winner s0 = Some pl ->
  2 <= n <= 16 -> bonus_within ln (cfg_c cfg) (Z.of_nat (iterations cfg)) (3 * n) -> 9 * (n - 1) < Z.of_nat (iterations cfg) <= 2 ^ 14 ->
  exists m r' s', mct_search (G := ttt_game pr) ln s pl cfg r = Ok (m, r') /\ In m (ttt_valid_moves s) /\ ttt_apply_move pr s m = Ok s' /\ ttt_check_winner s' = Some pl.
Proof. exact C75_tictactoe_lemma. Qed.
Print Assumptions C75_tictactoe.
(** C75.  In Backgammon the returned move wins whatever is rolled afterwards. *)
Theorem C75_backgammon : forall pr ln s pl cfg r m r' n vm m0 q s0 q0, (pl = -1 \/ pl = 1) -> (0 < sim_limit cfg)%nat -> bg_check_winner s = None ->
  bg_valid_moves pr s = Ok vm -> In m0 vm -> bg_apply_move pr s m0 q = Ok (s0, q0) -> bg_check_winner s0 = Some pl ->
  2 <= n <= 16 -> bonus_within ln (cfg_c cfg) (Z.of_nat (iterations cfg)) (3 * n) ->
  Z.of_nat (length vm) * (n - 1) < Z.of_nat (iterations cfg) <= 2 ^ 14 ->
  mct_search (G := bg_game pr) ln s pl cfg r = Ok (m, r') -> In m vm /\ wins (bg_game pr) pl s m.
Proof. exact C75_backgammon_lemma. Qed.
Print Assumptions C75_backgammon.
(** C75.  With no more iterations than moves the results of the evaluations have no influence: the
    search returns the move that stands that many places from the end of the list of valid moves. *)
Theorem C75_few_iterations : forall (G : Game) ln s pl cfg r m r' vm, g_winner G s = None -> g_valid G s = Ok vm ->
  (1 <= iterations cfg <= length vm)%nat -> Z.of_nat (iterations cfg) < 2 ^ 24 -> mct_search ln s pl cfg r = Ok (m, r') ->
  nth_error vm (length vm - iterations cfg) = Some m.
Proof. exact C75_few_iterations_lemma. Qed.
Print Assumptions C75_few_iterations.
(** C75, refuted without the condition on the iterations: there is a position with 5 valid moves, one
    of which wins, in which 5 iterations always return a move that does not win. *)
Theorem C75_few_refuted : forall pr ln r, exists s m r' s' m0 s0, length (tboard s) = 9%nat /\ ttt_check_winner s = None
  /\ length (ttt_valid_moves s) = 5%nat /\ In m0 (ttt_valid_moves s) /\ ttt_apply_move pr s m0 = Ok s0 /\ ttt_check_winner s0 = Some (tplayer s)
  /\ mct_search (G := ttt_game pr) ln s (tplayer s) (example_cfg 5) r = Ok (m, r') /\ ttt_apply_move pr s m = Ok s' /\ ttt_check_winner s' = None.
Proof. exact C75_few_refuted_lemma. Qed.
Print Assumptions C75_few_refuted.
(** C75, non-vacuity: the example settings (exploration constant 2, 100 iterations) satisfy the
    condition with [n = 4], so that 28 iterations are enough in Tic-Tac-Toe. *)
Example C75_settings : bonus_within ln100 (cfg_c (example_cfg 100)) 100 (3 * 4).
Proof. exact example_bonus. Qed.
Example C75_position : forall pr r, exists m r' s', mct_search (G := ttt_game pr) ln100 pair_of_x (-1) (example_cfg 100) r = Ok (m, r')
  /\ In m (ttt_valid_moves pair_of_x) /\ ttt_apply_move pr pair_of_x m = Ok s' /\ ttt_check_winner s' = Some (-1).
Proof.
  intros pr r. refine (C75_tictactoe pr ln100 pair_of_x (-1) (example_cfg 100) r 4 5 (mkTtt 1 [1; 1; 0; -1; -1; -1; 0; 0; 0] 0) eq_refl (or_introl eq_refl) (or_introl eq_refl) _ eq_refl _ _ eq_refl _ C75_settings _).
  - cbn. apply Nat.lt_0_succ.
  - vm_compute. tauto.
  - destruct pr; reflexivity.
  - split; discriminate.
  - split; [reflexivity|discriminate].
Qed.
Example C75_position_moves : map (fun m => match ttt_apply_move Release pair_of_x m with Ok s => ttt_check_winner s | Panic _ => Some 9 end) (ttt_valid_moves pair_of_x) = [None; Some (-1); None; None; None].
Proof. reflexivity. Qed.
(** in this Backgammon position the first of the two valid moves wins and the second does not *)
Definition last_two : bg := mkBg (mkBoard [-1; 0; 0; 0; 0; -1; 0; 0; 0; 0; 0; 3; 0; 0; 0; 0; 0; 0; 0; 0; 0; 0; 0; 0] 0 0 13 12) (6, 1) (-1) false 0.
Example C75_backgammon_moves : bg_valid_moves Release last_two = Ok [[(0, -1); (5, -1)]; [(5, 4); (4, -1)]]
  /\ map (fun m => match bg_apply_move Release last_two m rng0 with Ok (s, _) => bg_check_winner s | Panic _ => Some 9 end) [[(0, -1); (5, -1)]; [(5, 4); (4, -1)]] = [Some (-1); None]
  /\ match mct_search (G := bg_game Release) ln100 last_two (-1) (example_cfg 7) rng0 with Ok (m, _) => m = [(0, -1); (5, -1)] | Panic _ => False end.
Proof. vm_compute. repeat split. Qed.
