(** * Prop_Versus: C39-C43, C55, C56, C64 — matches between agents, replays and the model gate. *)
From Coq Require Import Permutation.
From Verif Require Import Base F32 Tensor TttModel BgModel GameModel GameFacts McModel McSpec AlphaModel AlphaSpec AlphaInst SampleModel VisitSpec SelfSpec
  VersusModel VersusSpec VersusApi VersusStuck GateModel VersusApi2 VersusAgents Witness.

(** the hypothesis [setting] of the theorems below is met in both games, for random agents, for
    an Mcts agent and for model agents *)
Example settings : forall pr,
  setting (ttt_game pr) ttt_pos tsum0 dir0 unif0 pow1 (cfg0 1 1) hash0 order2 random_player random_player
  /\ setting (bg_game pr) bg_pos tsum0 dir0 unif0 pow1 (cfg0 1 1) hash0 order2 random_player random_player
  /\ setting (bg_game pr) bg_pos tsum0 dir0 unif0 pow1 (cfg0 1 1) hash0 order2 mcts_player random_player
  /\ setting (ttt_game pr) ttt_pos tsum0 dir0 unif0 pow1 (cfg0 1 1) hash0 order2 (model_player draw_a) (model_player draw_b)
  /\ setting (bg_game pr) bg_pos tsum0 dir0 unif0 pow1 (cfg0 1 1) hash0 order2 (model_player (repeat 1 1352)) (model_player (repeat 1 1352)).
Proof.
  intros pr. split; [apply random_setting, ttt_match|]. split; [apply random_setting, bg_match|]. split; [apply mcts_setting, bg_match|].
  split; apply model_setting; try apply ttt_match; try apply bg_match; try reflexivity; rewrite repeat_length; reflexivity.
Qed.

(** C39.  Whenever a match returns, its result is a faithful [report] of 400 games: see
    [VersusSpec.report].  Nothing in it is computed by the code's own counters.  The games [begun]
    one after the other, each with its own draw of the id generator. *)
Theorem C39_accounting : forall G I tsum dirichlet unif tpow cfg hash order p1 p2, setting G I tsum dirichlet unif tpow cfg hash order p1 p2 ->
  forall ln nanoid fuel r res r', play ln tsum dirichlet unif tpow nanoid cfg hash order p1 p2 fuel r = Ok (res, r') ->
  exists starts ws, report (plays ln tsum dirichlet unif tpow cfg p1 p2) tpow (pl_type p1) (pl_type p2) res starts ws /\ begun (pl_type p1) (pl_type p2) nanoid 0 r starts.
Proof. exact C39_accounting_lemma. Qed.
Print Assumptions C39_accounting.
(** C39.  Consequences of a report: the three totals are non-negative and add up to 400, and the
    winner fields of the games agree with them. *)
Theorem C39_totals : forall G may tpow t1 t2 (res : result G) starts ws, report may tpow t1 t2 res starts ws ->
  0 <= r_wins1 res /\ 0 <= r_wins2 res /\ 0 <= r_draws res /\ r_wins1 res + r_wins2 res + r_draws res = 400 /\ r_n res = 400 /\ length (r_games res) = 400%nat
  /\ (t1 <> ANone -> t2 <> ANone -> Z.of_nat (count_occ agent_eq_dec (map vg_winner (r_games res)) ANone) = r_draws res)
  /\ (t1 <> ANone -> t2 <> ANone -> t1 <> t2 ->
        Z.of_nat (count_occ agent_eq_dec (map vg_winner (r_games res)) t1) = r_wins1 res
        /\ Z.of_nat (count_occ agent_eq_dec (map vg_winner (r_games res)) t2) = r_wins2 res).
Proof. exact C39_totals_lemma. Qed.
Print Assumptions C39_totals.
(** matches that return: between random agents and between model agents *)
Example C39_runs : forall pr r, (exists res r', play (G := ttt_game pr) (fun x => x) tsum0 dir0 unif0 pow1 nano0 (cfg0 1 1) hash0 order2 random_player random_player 400 r = Ok (res, r'))
  /\ exists res r', play (G := ttt_game pr) (fun x => x) tsum0 dir0 unif0 pow1 nano0 (cfg0 1 1) hash0 order2 (model_player draw_a) (model_player draw_b) 400 r = Ok (res, r').
Proof. intros pr r. split; apply ttt_returns; [apply random_setting, ttt_match|apply model_setting; [apply ttt_match|reflexivity|reflexivity]]. Qed.

(** C40.  The 400 first positions: games 0-199 start with player 1 to move, games 200-399 with
    player 2; in Backgammon the dice are rolled. *)
Theorem C40_tictactoe : forall pr nanoid t1 t2 r, exists l r', first_games (G := ttt_game pr) nanoid t1 t2 0 400 r = Ok (l, r')
  /\ length l = 400%nat /\ forall i, (i < 400)%nat -> exists s g, nth_error l i = Some (Z.of_nat i, (s, g))
       /\ tboard s = repeat 0 9 /\ tplayer s = (if (i <? 200)%nat then -1 else 1) /\ tid s = Z.of_nat i
       /\ vg_init g = s /\ vg_turns g = [] /\ vg_winner g = ANone /\ vg_p1 g = t1 /\ vg_p2 g = t2.
Proof. exact C40_tictactoe_lemma. Qed.
Print Assumptions C40_tictactoe.
Theorem C40_backgammon : forall pr nanoid t1 t2 r, exists l r', first_games (G := bg_game pr) nanoid t1 t2 0 400 r = Ok (l, r')
  /\ length l = 400%nat /\ forall i, (i < 400)%nat -> exists s g, nth_error l i = Some (Z.of_nat i, (s, g))
       /\ bgboard s = initial_board /\ player s = (if (i <? 200)%nat then -1 else 1) /\ second s = false /\ bgid s = Z.of_nat i
       /\ 1 <= fst (roll s) <= 6 /\ 1 <= snd (roll s) <= 6
       /\ vg_init g = s /\ vg_turns g = [] /\ vg_winner g = ANone /\ vg_p1 g = t1 /\ vg_p2 g = t2.
Proof. exact C40_backgammon_lemma. Qed.
Print Assumptions C40_backgammon.

(** C41.  The round limit: a game still open after 399 rounds has seen nothing but skipped turns
    since round 399. *)
Theorem C41_after_limit : forall G I tsum dirichlet unif tpow cfg hash order p1 p2, setting G I tsum dirichlet unif tpow cfg hash order p1 p2 ->
  forall ln nanoid r a k a', vs_start nanoid p1 p2 r = Ok a ->
  mfold (fun a j => vs_round ln tsum dirichlet unif tpow cfg hash order p1 p2 j a) (seq 0 k) a = Ok a' -> (399 <= k)%nat -> Z.of_nat k < 2 ^ 31 ->
  forall i s g, In (i, (s, g)) (s_games a') ->
  exists s1, vhist (plays ln tsum dirichlet unif tpow cfg p1 p2) tpow (pl_type p1) (pl_type p2) (vg_init g) 399 s1 /\ skips (plays ln tsum dirichlet unif tpow cfg p1 p2) tpow (pl_type p1) (pl_type p2) (k - 399) s1 s.
Proof. exact C41_after_limit_lemma. Qed.
Print Assumptions C41_after_limit.
(** C41.  Hence, in a game where the mover of an open position always has a move (TicTacToe), the
    match returns after at most 400 rounds. *)
Theorem C41_terminates : forall G I tsum dirichlet unif tpow cfg hash order p1 p2, setting G I tsum dirichlet unif tpow cfg hash order p1 p2 -> live G I ->
  (pl_type p1 = AModel \/ pl_type p2 = AModel -> forall x, prob01 x -> tpow x = f0 -> x = f0) ->
  forall ln nanoid r, exists res r', forall fuel, (400 <= fuel)%nat -> play ln tsum dirichlet unif tpow nanoid cfg hash order p1 p2 fuel r = Ok (res, r').
Proof. exact C41_terminates_lemma. Qed.
Print Assumptions C41_terminates.
Example C41_live : forall pr, live (ttt_game pr) ttt_pos /\ forall x : f32, pow1 x = f0 -> x = f0.
Proof. intros pr. split; [apply ttt_live|]. intros x H. exact H. Qed.
(** C41, violation.  Two random Backgammon agents whose match never ends: the model runs out of
    any fuel (in a debug build the 32-bit counter overflows after 2^31 rounds). *)
Theorem C41_endless : forall pr fuel, play (G := bg_game pr) (fun x => x) tsum0 dir0 unif0 pow1 nano0 (cfg0 1 1) hash0 order2 random_player random_player fuel rng_stuck = Panic PFuel
  \/ (pr = Debug /\ 2 ^ 31 <= Z.of_nat fuel).
Proof. exact C41_endless_lemma. Qed.
Print Assumptions C41_endless.
Theorem C41_limit_refuted : forall pr, ~ (forall tsum dirichlet unif tpow cfg hash order p1 p2, setting (bg_game pr) bg_pos tsum dirichlet unif tpow cfg hash order p1 p2 ->
  forall ln nanoid r, exists fuel x, play ln tsum dirichlet unif tpow nanoid cfg hash order p1 p2 fuel r = Ok x).
Proof. exact C41_limit_refuted_lemma. Qed.
Print Assumptions C41_limit_refuted.

(** C42.  Without any assumption: no game of a result has a turn, and a replay of it prints the
    header and the first position, nothing else. *)
Theorem C42_no_turns : forall G ln tsum dirichlet unif tpow nanoid cfg hash order p1 p2 fuel r (res : result G) r',
  play ln tsum dirichlet unif tpow nanoid cfg hash order p1 p2 fuel r = Ok (res, r') ->
  forall g, In g (r_games res) -> vg_turns g = [] /\ print_game g = [LId (vg_id g); LPlayers (vg_p1 g) (vg_p2 g); LWinner (vg_winner g); LInitial; LState (vg_init g)].
Proof. exact C42_no_turns_lemma. Qed.
Print Assumptions C42_no_turns.
(** C56.  A replay of any file shows the first position and no other, once more after each turn. *)
Theorem C56_replay : forall (G : Game) (g : vgame G),
  (forall s, In (LState s) (print_game g) -> s = vg_init g)
  /\ length (filter (fun e => match e with LState _ => true | _ => false end) (print_game g)) = S (length (vg_turns g)).
Proof. exact C56_replay_lemma. Qed.
Print Assumptions C56_replay.
Section Replayed.
  Let G := ttt_game Debug.
  Let s0 : St G := ttt_new.
  Let s1 : St G := mkTtt 1 [-1; 0; 0; 0; 0; 0; 0; 0; 0] 0.
  Let t : turn G := mkTurn None [s1] ARandom.
  Let g : vgame G := mkVg 7 ARandom AMcts [t] ANone s0.
  Let lines : list (shown_line G) := [LId 7; LPlayers ARandom AMcts; LWinner ANone; LInitial; LState s0; LPlayer ARandom; LRoll None; LAction [s1]; LAfter; LState s0].
  Example C56_turns : print_game g = lines /\ s1 <> s0.
  Proof. split; [reflexivity|discriminate]. Qed.
End Replayed.

(** C43.  The thresholds 0.55 and 0.45 in f64 arithmetic, for every possible number of wins. *)
Theorem C43_thresholds : forall wins, 0 <= wins <= 400 ->
  gate (ddiv (f64_of_Z wins) (f64_of_Z 400)) = if 220 <=? wins then Some 1%nat else if wins <=? 180 then Some 2%nat else None.
Proof. exact C43_thresholds_lemma. Qed.
Print Assumptions C43_thresholds.
(** C43.  The verdict of a match between two models in terms of the outcomes of the games; all
    draws count as a lost match. *)
Theorem C43_verdict : forall G I tsum dirichlet unif tpow cfg hash order self other,
  setting G I tsum dirichlet unif tpow cfg hash order (mkPlayer AModel (Some self)) (mkPlayer AModel (Some other)) ->
  forall ln nanoid fuel r v r', play_vs_model ln tsum dirichlet unif tpow nanoid cfg hash order self other fuel r = Ok (v, r') ->
  exists res starts ws, play ln tsum dirichlet unif tpow nanoid cfg hash order (mkPlayer AModel (Some self)) (mkPlayer AModel (Some other)) fuel r = Ok (res, r')
    /\ report (plays ln tsum dirichlet unif tpow cfg (mkPlayer AModel (Some self)) (mkPlayer AModel (Some other))) tpow AModel AModel res starts ws
    /\ (v = Some 1%nat <-> 220 <= times (-1) ws) /\ (v = Some 2%nat <-> times (-1) ws <= 180) /\ (v = None <-> 180 < times (-1) ws < 220)
    /\ (Forall (fun w => w = 0) ws -> v = Some 2%nat).
Proof. exact C43_verdict_lemma. Qed.
Print Assumptions C43_verdict.
(** C43.  The file of the best model: it changes only if it does not exist or the new model won;
    for every behaviour of saving and loading. *)
Theorem C43_file : forall G ln tsum dirichlet unif tpow nanoid cfg hash order file parse save self best fuel r best' r',
  play_vs_best_model (G := G) ln tsum dirichlet unif tpow nanoid cfg hash order file parse save self best fuel r = Ok (best', r') ->
  (best = None /\ best' = save self None)
  \/ exists f other v, best = Some f /\ parse f = Some other /\ play_vs_model (G := G) ln tsum dirichlet unif tpow nanoid cfg hash order self other fuel r = Ok (v, r')
       /\ (v = Some 1%nat -> best' = save self best) /\ (v <> Some 1%nat -> best' = best).
Proof. exact C43_file_lemma. Qed.
Print Assumptions C43_file.
(** C43.  In TicTacToe (or any live game) the gate always decides. *)
Theorem C43_returns : forall G I tsum dirichlet unif tpow cfg hash order self other,
  setting G I tsum dirichlet unif tpow cfg hash order (mkPlayer AModel (Some self)) (mkPlayer AModel (Some other)) -> live G I ->
  (forall x, prob01 x -> tpow x = f0 -> x = f0) ->
  forall ln nanoid r, exists v r', forall fuel, (400 <= fuel)%nat -> play_vs_model ln tsum dirichlet unif tpow nanoid cfg hash order self other fuel r = Ok (v, r').
Proof. exact C43_returns_lemma. Qed.
Print Assumptions C43_returns.
Example C43_runs : map (fun w => gate (ddiv (f64_of_Z w) (f64_of_Z 400))) [0; 180; 181; 219; 220; 400] = [Some 2%nat; Some 2%nat; None; None; Some 1%nat; Some 1%nat].
Proof. vm_compute. reflexivity. Qed.

(** C55.  A match never panics but for three reasons: the model's fuel; an Mcts agent that has to
    move without a valid move; the 32-bit round counter of a debug build. *)
Theorem C55_no_panic : forall G I tsum dirichlet unif tpow cfg hash order p1 p2, setting G I tsum dirichlet unif tpow cfg hash order p1 p2 ->
  forall ln nanoid fuel r p, play ln tsum dirichlet unif tpow nanoid cfg hash order p1 p2 fuel r = Panic p ->
  p = PFuel
  \/ (p = PExplicit /\ (pl_type p1 = AMcts \/ pl_type p2 = AMcts) /\ exists s, I s /\ g_winner G s = None /\ g_valid G s = Ok [])
  \/ (p = POverflow /\ g_pr G = Debug /\ 2 ^ 31 <= Z.of_nat fuel).
Proof. exact C55_no_panic_lemma. Qed.
Print Assumptions C55_no_panic.
(** C55, violation.  The second reason does occur: a Backgammon match with an Mcts agent panics. *)
Theorem C55_mcts_refuted : forall pr, ~ (forall tsum dirichlet unif tpow cfg hash order p1 p2, setting (bg_game pr) bg_pos tsum dirichlet unif tpow cfg hash order p1 p2 ->
  forall ln nanoid fuel r p, play ln tsum dirichlet unif tpow nanoid cfg hash order p1 p2 fuel r = Panic p -> p = PFuel \/ (p = POverflow /\ 2 ^ 31 <= Z.of_nat fuel)).
Proof. exact C55_mcts_refuted_lemma. Qed.
Print Assumptions C55_mcts_refuted.
Example C55_mcts_panics : forall pr,
  play (G := bg_game pr) (fun x => x) tsum0 dir0 unif0 pow1 nano0 (cfg0 1 1) hash0 order2 mcts_player random_player 20 rng_stuck = Panic PExplicit.
Proof. exact mcts_run. Qed.

(** C64.  Every game that is open after [k] rounds got there by moves (or skips) that the agent of
    the player on turn chose: see [VersusSpec.plays]. *)
Theorem C64_rounds : forall G I tsum dirichlet unif tpow cfg hash order p1 p2, setting G I tsum dirichlet unif tpow cfg hash order p1 p2 ->
  forall ln nanoid r a k a', vs_start nanoid p1 p2 r = Ok a ->
  mfold (fun a j => vs_round ln tsum dirichlet unif tpow cfg hash order p1 p2 j a) (seq 0 k) a = Ok a' ->
  forall i s g, In (i, (s, g)) (s_games a') ->
  g_id G s = i /\ vhist (plays ln tsum dirichlet unif tpow cfg p1 p2) tpow (pl_type p1) (pl_type p2) (vg_init g) k s.
Proof. exact C64_rounds_lemma. Qed.
Print Assumptions C64_rounds.
(** C64.  The same for the last move of each finished game; its winner is the agent of the winning
    player. *)
Theorem C64_last_move : forall G I tsum dirichlet unif tpow cfg hash order p1 p2, setting G I tsum dirichlet unif tpow cfg hash order p1 p2 ->
  forall ln nanoid fuel r res r', play ln tsum dirichlet unif tpow nanoid cfg hash order p1 p2 fuel r = Ok (res, r') ->
  forall g, In g (r_games res) -> exists k s m vm s' r1 r2,
    vhist (plays ln tsum dirichlet unif tpow cfg p1 p2) tpow (pl_type p1) (pl_type p2) (vg_init g) k s
    /\ g_valid G s = Ok vm /\ In m vm
    /\ agent_plays ln tsum dirichlet unif tpow cfg (if g_player G s =? -1 then p1 else p2) s m /\ g_apply G s m r1 = Ok (s', r2)
    /\ vg_winner g = match g_winner G s' with Some w => won_by (pl_type p1) (pl_type p2) w | None => ANone end.
Proof. exact C64_last_move_lemma. Qed.
Print Assumptions C64_last_move.
(** C64.  A random agent may answer every valid move and no other one. *)
Theorem C64_random : forall (G : Game) (s : St G) vm, g_valid G s = Ok vm ->
  (forall r m r', random_action s r = Ok (m, r') -> (vm = [] /\ m = g_empty G) \/ In m vm)
  /\ (forall m, In m vm -> exists r r', random_action s r = Ok (m, r')).
Proof. exact C64_random_lemma. Qed.
Print Assumptions C64_random.
(** what an agent may answer is not arbitrary: in the first position of TicTacToe a random agent
    can answer cell 4, but not skip *)
Example C64_case : forall pr, let P := agent_plays (G := ttt_game pr) (fun x => x) tsum0 dir0 unif0 pow1 (cfg0 1 1) random_player (g_new (ttt_game pr)) in
  P 4 /\ ~ P (g_empty (ttt_game pr)).
Proof.
  intros pr. split.
  - right. exists [0; 1; 2; 3; 4; 5; 6; 7; 8]. split; [reflexivity|]. cbn. tauto.
  - intros [[H _]|(vm & H & Hin)]; [discriminate|]. assert (E : Ok vm = Ok [0; 1; 2; 3; 4; 5; 6; 7; 8]) by (rewrite <- H; reflexivity). injection E as ->.
    cbn in Hin. repeat (destruct Hin as [X|Hin]; [discriminate X|]). exact Hin.
Qed.
