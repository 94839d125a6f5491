(** * VersusSpec: what a match between two agents should do, independent of the code's books. *)
From Verif Require Import Base F32 Tensor GameModel McModel McSpec AlphaModel AlphaSpec VisitSpec SampleModel SelfModel SelfSpec VersusModel.

(** which move an agent may answer in the position [s] *)
Section Agents.
  Variable G : Game.
  Variable ln : f32 -> f32.
  Variable tsum : list f32 -> f32.
  Variable dirichlet : nat -> f32 -> rng -> list f32 * rng.
  Variable unif : f64 -> rng -> f64 * rng.
  Variable tpow : f32 -> f32.
  Variable cfg : mcfg.
  (** drawn from the weights [row]; the empty move if they vanish or no move exists *)
  Definition drawn (row : list f32) (s : St G) (m : Mv G) : Prop :=
    if SFeqb (tsum row) f0 || match g_valid G s with Ok [] => true | _ => false end then m = g_empty G
    else exists a r r', weighted_select_tensor_idx unif row r = Ok (a, r') /\ g_decode G s (Z.of_nat a) = Ok m.
  Definition agent_plays (p : vplayer) (s : St G) (m : Mv G) : Prop :=
    match pl_type p with
    (** any valid move *)
    | ARandom => (g_valid G s = Ok [] /\ m = g_empty G) \/ exists vm, g_valid G s = Ok vm /\ In m vm
    (** the result of a tree search for the player whose turn it is *)
    | AMcts => exists r r', mct_search ln s (g_player G s) cfg r = Ok (m, r')
    (** drawn from the tempered visits of a search guided by the agent's own network, among other games *)
    | AModel => exists nt ss k ord r st r' rows row, pl_model p = Some nt /\ nth_error ss k = Some s
        /\ Permutation.Permutation ord (seq 0 (length ss)) /\ alpha_mcts_parallel tsum dirichlet nt cfg ord [] ss r = Ok (st, r')
        /\ get_prob_tensor_parallel tsum (firstn (length ss) st) st = Ok rows /\ nth_error rows k = Some row /\ drawn (map tpow row) s m
    | ANone => False
    end.
  (** player 1 (who is -1 on the board) is played by [p1], player 2 by [p2] *)
  Definition plays (p1 p2 : vplayer) (s : St G) (m : Mv G) : Prop := agent_plays (if g_player G s =? -1 then p1 else p2) s m.
End Agents.
Arguments drawn {G}. Arguments agent_plays {G}. Arguments plays {G}.

Section Spec.
  Variable G : Game.
  (** what the agent on turn may answer *)
  Variable may : St G -> Mv G -> Prop.
  Variable tpow : f32 -> f32.
  (** the agents of player 1 (who is -1 on the board) and player 2 *)
  Variables t1 t2 : agent.

  (** what a match needs from a game on the positions [I], besides what self-play needs *)
  Record match_game (I : St G -> Prop) : Prop := {
    mg_play : play_game I;
    (** the first position of game [i] *)
    mg_first : forall i r, exists s r', first_state (G := G) i r = Ok (s, r') /\ I s /\ g_winner G s = None /\ g_id G s = Z.of_nat i
      /\ g_player G s = (if (i <? 200)%nat then -1 else 1);
    (** a game keeps its number *)
    mg_id_apply : forall s m r s' r', g_apply G s m r = Ok (s', r') -> g_id G s' = g_id G s;
    mg_id_skip : forall s r s' r', g_skip G s r = Ok (s', r') -> g_id G s' = g_id G s;
    (** EMPTY_MOVE is not a move *)
    mg_empty : forall s vm, I s -> g_valid G s = Ok vm -> ~ In (g_empty G) vm
  }.
  (** a player that can take part: not the agent [None], and a model agent has a network *)
  Definition player_ok (p : vplayer) : Prop :=
    pl_type p <> ANone /\ (pl_type p = AModel -> exists nt, pl_model p = Some nt /\ net_ok G nt).

  (** the agent whose turn it is *)
  Definition on_turn (s : St G) : agent := if g_player G s =? -1 then t1 else t2.
  (** a valid move was played, one that the agent on turn chose *)
  Definition vmoved (s s' : St G) : Prop :=
    exists vm m r r', g_valid G s = Ok vm /\ In m vm /\ may s m /\ g_apply G s m r = Ok (s', r').
  (** the turn was skipped: no valid move, or a model agent whose tempered weights all vanish *)
  Definition vskipped (s s' : St G) : Prop :=
    may s (g_empty G) /\ exists r r', g_skip G s r = Ok (s', r')
      /\ (g_valid G s = Ok [] \/ (on_turn s = AModel /\ exists ps, target tpow s ps /\ Forall (fun y => y = f0) ps)).
  (** what the 32-bit round counter shows in round [k] *)
  Definition shown (k : nat) : Z := (Z.of_nat k + 2 ^ 31) mod 2 ^ 32 - 2 ^ 31.

  (** [vhist s0 k s]: after [k] rounds the unfinished game that started at [s0] stands at [s] *)
  Inductive vhist (s0 : St G) : nat -> St G -> Prop :=
  | v_start : g_winner G s0 = None -> vhist s0 0 s0
  | v_skip k s s' : vhist s0 k s -> vskipped s s' -> vhist s0 (S k) s'
  | v_move k s s' : vhist s0 k s -> vmoved s s' -> g_winner G s' = None -> shown (S k) < 400 -> vhist s0 (S k) s'.
  (** [vended s0 w]: the game that started at [s0] ended with [w]: -1 or 1 won, 0 is a draw *)
  Inductive vended (s0 : St G) : Z -> Prop :=
  | e_won k s s' w : vhist s0 k s -> vmoved s s' -> g_winner G s' = Some w -> vended s0 w
  | e_limit k s s' : vhist s0 k s -> vmoved s s' -> g_winner G s' = None -> 400 <= shown (S k) -> vended s0 0.

  (** the agent named as winner *)
  Definition won_by (w : Z) : agent := if w =? -1 then t1 else if w =? 1 then t2 else ANone.
  (** how often [w] occurs *)
  Definition times (w : Z) (ws : list Z) : Z := Z.of_nat (count_occ Z.eq_dec ws w).

  (** the games from number [i] on as they begin: each position is set up and given an id, in this
      order and from one random stream, before the next *)
  Inductive begun (nanoid : rng -> Z * rng) : nat -> rng -> list (vgame G) -> Prop :=
  | b_done i r : begun nanoid i r []
  | b_next i r s r1 id r2 gs : first_state i r = Ok (s, r1) -> nanoid r1 = (id, r2) -> begun nanoid (S i) r2 gs ->
      begun nanoid i r (mkVg id t1 t2 [] ANone s :: gs).

  (** the match report: [starts] are the 400 games as they began, [ws] their outcomes *)
  Record report (res : result G) (starts : list (vgame G)) (ws : list Z) : Prop := {
    rep_num : length starts = 400%nat;
    rep_start : forall i g, nth_error starts i = Some g -> exists id r r', g = mkVg id t1 t2 [] ANone (vg_init g) /\ first_state i r = Ok (vg_init g, r');
    rep_end : Forall2 (fun g w => vended (vg_init g) w) starts ws;
    rep_games : Permutation.Permutation (r_games res) (map (fun e => let (g, w) := e : vgame G * Z in mkVg (vg_id g) t1 t2 [] (won_by w) (vg_init g)) (combine starts ws));
    rep_wins1 : r_wins1 res = times (-1) ws;
    rep_wins2 : r_wins2 res = times 1 ws;
    rep_draws : r_draws res = 400 - times (-1) ws - times 1 ws;
    rep_n : r_n res = 400;
    rep_rate : r_winrate res = ddiv (f64_of_Z (times (-1) ws)) (f64_of_Z 400);
    rep_agents : r_p1 res = t1 /\ r_p2 res = t2
  }.
End Spec.
Arguments match_game {G}. Arguments on_turn {G}. Arguments vmoved {G}. Arguments vskipped {G}. Arguments vhist {G}. Arguments vended {G}. Arguments begun {G}. Arguments report {G}.

(** everything the theorems about matches assume; each item is met by the program: the game, the
    sum of a tensor, the Dirichlet and uniform samplers, the tempering, a positive noise
    parameter, at least one search iteration and no more than f32 counters can count, hash orders
    that are orders, and players that can play *)
Record setting (G : Game) (I : St G -> Prop) (tsum : list f32 -> f32) (dirichlet : nat -> f32 -> rng -> list f32 * rng)
  (unif : f64 -> rng -> f64 * rng) (tpow : f32 -> f32) (cfg : mcfg)
  (hash : nat -> list (Z * (St G * vgame G)) -> list (Z * (St G * vgame G))) (order : nat -> bool -> nat -> list nat)
  (p1 p2 : vplayer) : Prop := {
  se_game : match_game I;
  se_sum : tsum_ok tsum;
  se_dir : forall k a rr, length (fst (dirichlet k a rr)) = k;
  se_unif : unif_ok unif;
  se_pow : pow_ok tpow;
  se_alpha : SFltb f0 (dir_alpha cfg) = true;
  se_iter : (0 < iterations cfg)%nat;
  se_iter_max : 1 + Z.of_nat (iterations cfg) * 401 <= 2 ^ 24;
  se_hash : forall j l, Permutation.Permutation (hash j l) l;
  se_order : forall j b n, Permutation.Permutation (order j b n) (seq 0 n);
  se_p1 : player_ok G p1;
  se_p2 : player_ok G p2
}.
