(** * VersusModel: matches between two agents.
    src/versus.rs:17-52, 124-139, 160-319 (VS), for an arbitrary game.

    Parameters besides those of AlphaModel, SampleModel and McModel: [tpow] is the entry-wise
    [pow_(1.0 / temp)]; [nanoid] draws a game id (the text is represented by an integer);
    [hash j l] is the order in which round [j] walks through the values of the HashMap with the
    entries [l]; [order j b n] is the order of the HashSet built by the search of round [j] for
    player 1 ([b] = true) or 2 over [n] games.  The games of [par_iter] read one random stream
    one after the other instead of one stream for each thread: the theorems hold for every
    stream, so for every way the threads' draws can come out.  Progress bars, printing and
    devices are left out. *)
From Verif Require Export Base F32 GameModel McModel AlphaModel SampleModel.

(** VS:17-20 *)
Inductive agent := ARandom | AMcts | AModel | ANone.

(** i32, usize and [f64 as usize] *)
Definition i32 (pr : profile) (z : Z) : res Z :=
  if (- 2 ^ 31 <=? z) && (z <? 2 ^ 31) then Ok z
  else match pr with Debug => Panic POverflow | Release => Ok ((z + 2 ^ 31) mod 2 ^ 32 - 2 ^ 31) end.
Definition usize (pr : profile) (z : Z) : res Z :=
  if (0 <=? z) && (z <? 2 ^ 64) then Ok z
  else match pr with Debug => Panic POverflow | Release => Ok (z mod 2 ^ 64) end.
Definition f64_as_usize (x : f64) : Z :=
  match x with
  | S754_finite false m e => Z.min (2 ^ 64 - 1) (if 0 <=? e then Z.pos m * 2 ^ e else Z.pos m / 2 ^ (- e))
  | S754_infinity false => 2 ^ 64 - 1
  | _ => 0
  end.

(** HashMap with integer keys, as a list of entries *)
Fixpoint hget {A} (k : Z) (l : list (Z * A)) : option A :=
  match l with [] => None | (k', a) :: l' => if k' =? k then Some a else hget k l' end.
Fixpoint hset {A} (k : Z) (v : A) (l : list (Z * A)) : list (Z * A) :=
  match l with [] => [] | (k', a) :: l' => if k' =? k then (k', v) :: l' else (k', a) :: hset k v l' end.
Fixpoint hremove {A} (k : Z) (l : list (Z * A)) : list (Z * A) :=
  match l with [] => [] | (k', a) :: l' => if k' =? k then l' else (k', a) :: hremove k l' end.
Definition unwrap {A} (o : option A) : res A := match o with Some a => Ok a | None => Panic PUnwrap end.

(** VS:168-169 *)
Definition num_games : nat := 400.
Definition round_limit : Z := 400.

Section Versus.
  Variable G : Game.
  (** VS:21-26; the field [action] of type [Vec<T>] holds positions, not moves *)
  Record turn := mkTurn { t_roll : option (Z * Z); t_action : list (St G); t_player : agent }.
  (** VS:27-35 *)
  Record vgame := mkVg { vg_id : Z; vg_p1 : agent; vg_p2 : agent; vg_turns : list turn; vg_winner : agent; vg_init : St G }.
  (** VS:42-51 *)
  Definition vg_new (id : Z) (p1 p2 : agent) (s : St G) : vgame := mkVg id p1 p2 [] ANone s.
  Definition set_winner (a : agent) (g : vgame) : vgame := mkVg (vg_id g) (vg_p1 g) (vg_p2 g) (vg_turns g) a (vg_init g).
  (** VS:124-127 *)
  Record vplayer := mkPlayer { pl_type : agent; pl_model : option net }.
  (** VS:130-139 *)
  Record result := mkResult { r_p1 : agent; r_p2 : agent; r_wins1 : Z; r_wins2 : Z; r_draws : Z; r_n : Z; r_winrate : f64; r_games : list vgame }.

  Variable ln : f32 -> f32.
  Variable tsum : list f32 -> f32.
  Variable dirichlet : nat -> f32 -> rng -> list f32 * rng.
  Variable unif : f64 -> rng -> f64 * rng.
  Variable tpow : f32 -> f32.
  Variable nanoid : rng -> Z * rng.
  Variable cfg : mcfg.
  Variable hash : nat -> list (Z * (St G * vgame)) -> list (Z * (St G * vgame)).
  Variable order : nat -> bool -> nat -> list nat.

  (** a computation for each element of a list, sharing the random stream *)
  Fixpoint each {A B} (f : A -> rng -> res (B * rng)) (l : list A) (r : rng) : res (list B * rng) :=
    match l with
    | [] => Ok ([], r)
    | x :: l' => '(y, r1) <- f x r ;; '(ys, r2) <- each f l' r1 ;; Ok (y :: ys, r2)
    end.

  (** VS:288-300: the move of one root *)
  Definition model_action (rows : list (list f32)) (e : nat * node G) (r : rng) : res (Mv G * rng) :=
    row <- idx rows (Z.of_nat (fst e)) ;;
    if SFeqb (tsum row) f0 || match n_children (snd e) with [] => true | _ => false end then Ok (g_empty G, r)
    else
      '(a, r1) <- weighted_select_tensor_idx unif row r ;;
      m <- g_decode G (n_state (snd e)) (Z.of_nat a) ;;
      Ok (m, r1).
  (** VS:307-316 *)
  Definition random_action (s : St G) (r : rng) : res (Mv G * rng) :=
    vm <- g_valid G s ;;
    let (o, r1) := choose vm r in
    Ok (match o with Some m => m | None => g_empty G end, r1).
  (** VS:270-319; [ord n] is the order of the HashSet over [n] games *)
  Definition get_actions_for_player (ord : nat -> list nat) (p : vplayer) (games : list (St G)) (r : rng) : res (list (Mv G) * rng) :=
    match games with
    | [] => Ok ([], r)
    | _ =>
      match pl_type p with
      | AModel =>
        nt <- unwrap (pl_model p) ;;
        '(st, r1) <- alpha_mcts_parallel tsum dirichlet nt cfg (ord (length games)) [] games r ;;
        let roots := get_root_nodes st in
        rows <- get_prob_tensor_parallel tsum roots st ;;
        each (model_action (map (map tpow) rows)) (combine (seq 0 (length roots)) roots) r1
      | AMcts => each (fun s r => mct_search ln s (g_player G s) cfg r) games r
      | ARandom => each random_action games r
      | ANone => Panic PExplicit
      end
    end.

  (** VS:170-181: the games [i], ..., [i + n - 1] *)
  Definition first_state (i : nat) (r : rng) : res (St G * rng) :=
    '(s1, r1) <- (if (num_games / 2 <=? i)%nat then g_skip G (g_new G) r else Ok (g_new G, r)) ;;
    '(s2, r2) <- (if g_det G then Ok (s1, r1) else g_roll G s1 r1) ;;
    Ok (g_set_id G (Z.of_nat i) s2, r2).
  Fixpoint first_games (p1 p2 : agent) (i n : nat) (r : rng) : res (list (Z * (St G * vgame)) * rng) :=
    match n with
    | O => Ok ([], r)
    | S n' =>
      '(s, r1) <- first_state i r ;;
      let (id, r2) := nanoid r1 in
      '(l, r3) <- first_games p1 p2 (S i) n' r2 ;;
      Ok ((Z.of_nat i, (s, vg_new id p1 p2 s)) :: l, r3)
    end.

  (** VS:216-249: one action; [v_rem] is [games_to_remove] *)
  Record vacc := mkVacc { v_games : list (Z * (St G * vgame)); v_w1 : f64; v_w2 : f64; v_rem : list Z; v_rng : rng }.
  Definition vs_step (t1 t2 : agent) (count : Z) (a : vacc) (e : Mv G * St G) : res vacc :=
    let '(m, s) := e in
    let i := g_id G s in
    '(s0, g) <- unwrap (hget i (v_games a)) ;;
    if g_mv_eqb G m (g_empty G) then
      '(s1, r1) <- g_skip G s0 (v_rng a) ;;
      Ok (mkVacc (hset i (s1, g) (v_games a)) (v_w1 a) (v_w2 a) (v_rem a) r1)
    else
      vm <- g_valid G s0 ;;
      if existsb (fun v => g_mv_eqb G v m) vm then
        '(s1, r1) <- g_apply G s0 m (v_rng a) ;;
        match (match g_winner G s1 with
               | Some w => Some w
               | None => if round_limit <=? count then Some 0 else None
               end) with
        | None => Ok (mkVacc (hset i (s1, g) (v_games a)) (v_w1 a) (v_w2 a) (v_rem a) r1)
        | Some w =>
          if w =? -1 then Ok (mkVacc (hset i (s1, set_winner t1 g) (v_games a)) (dadd (v_w1 a) (f64_of_Z 1)) (v_w2 a) (v_rem a ++ [i]) r1)
          else if w =? 1 then Ok (mkVacc (hset i (s1, set_winner t2 g) (v_games a)) (v_w1 a) (dadd (v_w2 a) (f64_of_Z 1)) (v_rem a ++ [i]) r1)
          else Ok (mkVacc (hset i (s1, set_winner ANone g) (v_games a)) (v_w1 a) (v_w2 a) (v_rem a ++ [i]) r1)
        end
      else Panic PAssert.
  (** VS:250-253 *)
  Definition vs_remove (a : list (Z * (St G * vgame)) * list vgame) (i : Z) : res (list (Z * (St G * vgame)) * list vgame) :=
    e <- unwrap (hget i (fst a)) ;; Ok (hremove i (fst a), snd a ++ [snd e]).

  (** VS:192-254: round [j] *)
  Record vstate := mkVs { s_games : list (Z * (St G * vgame)); s_played : list vgame; s_w1 : f64; s_w2 : f64; s_count : Z; s_rng : rng }.
  Definition vs_round (p1 p2 : vplayer) (j : nat) (a : vstate) : res vstate :=
    let states := map (fun e => fst (snd e)) (hash j (s_games a)) in
    let games1 := filter (fun s => g_player G s =? -1) states in
    let games2 := filter (fun s => negb (g_player G s =? -1)) states in
    '(a1, r1) <- get_actions_for_player (order j true) p1 games1 (s_rng a) ;;
    '(a2, r2) <- get_actions_for_player (order j false) p2 games2 r1 ;;
    count <- i32 (g_pr G) (s_count a + 1) ;;
    b <- mfold (vs_step (pl_type p1) (pl_type p2) count) (combine a1 games1 ++ combine a2 games2)
               (mkVacc (s_games a) (s_w1 a) (s_w2 a) [] r2) ;;
    '(games, played) <- mfold vs_remove (v_rem b) (v_games b, s_played a) ;;
    Ok (mkVs games played (v_w1 b) (v_w2 b) count (v_rng b)).
  (** VS:192: the loop; [fuel] bounds the number of rounds *)
  Fixpoint vs_loop (p1 p2 : vplayer) (fuel j : nat) (a : vstate) : res vstate :=
    match s_games a with
    | [] => Ok a
    | _ => match fuel with
           | O => Panic PFuel
           | S fuel' => a' <- vs_round p1 p2 j a ;; vs_loop p1 p2 fuel' (S j) a'
           end
    end.
  (** VS:168-191 *)
  Definition vs_start (p1 p2 : vplayer) (r : rng) : res vstate :=
    '(games, r1) <- first_games (pl_type p1) (pl_type p2) 0 num_games r ;;
    Ok (mkVs games [] (f64_of_Z 0) (f64_of_Z 0) 0 r1).
  (** VS:255-267 *)
  Definition vs_result (p1 p2 : vplayer) (a : vstate) : res result :=
    let winrate := ddiv (s_w1 a) (f64_of_Z (Z.of_nat num_games)) in
    let w1 := f64_as_usize (s_w1 a) in
    let w2 := f64_as_usize (s_w2 a) in
    sum <- usize (g_pr G) (w1 + w2) ;;
    draws <- usize (g_pr G) (Z.of_nat num_games - sum) ;;
    Ok (mkResult (pl_type p1) (pl_type p2) w1 w2 draws (Z.of_nat num_games) winrate (s_played a)).
  (** VS:160-268 *)
  Definition play (p1 p2 : vplayer) (fuel : nat) (r : rng) : res (result * rng) :=
    a <- vs_start p1 p2 r ;;
    b <- vs_loop p1 p2 fuel 0 a ;;
    res <- vs_result p1 p2 b ;;
    Ok (res, s_rng b).
End Versus.
Arguments mkTurn {G}. Arguments mkVg {G}. Arguments vg_id {G}. Arguments vg_p1 {G}. Arguments vg_p2 {G}. Arguments vg_turns {G}.
Arguments vg_winner {G}. Arguments vg_init {G}. Arguments vg_new {G}. Arguments set_winner {G}. Arguments mkResult {G}.
Arguments r_p1 {G}. Arguments r_p2 {G}. Arguments r_wins1 {G}. Arguments r_wins2 {G}. Arguments r_draws {G}. Arguments r_n {G}.
Arguments r_winrate {G}. Arguments r_games {G}. Arguments model_action {G}. Arguments random_action {G}. Arguments get_actions_for_player {G}.
Arguments first_state {G}. Arguments first_games {G}. Arguments mkVacc {G}. Arguments v_games {G}. Arguments v_w1 {G}. Arguments v_w2 {G}.
Arguments v_rem {G}. Arguments v_rng {G}. Arguments vs_step {G}. Arguments vs_remove {G}. Arguments mkVs {G}. Arguments s_games {G}.
Arguments s_played {G}. Arguments s_w1 {G}. Arguments s_w2 {G}. Arguments s_count {G}. Arguments s_rng {G}. Arguments vs_round {G}.
Arguments vs_loop {G}. Arguments vs_start {G}. Arguments vs_result {G}. Arguments play {G}.
