(** * McModel: src/mcts/node.rs (ND), node_store.rs (NS), simple_mcts.rs (SM), function by
    function, for an arbitrary game.  [f32::ln] is an arbitrary function [ln].
    Nodes live in a [Vec]; a node index is a [nat].  The two recursive functions get fuel
    [S (length store)]; running out of fuel is [PFuel] (the real recursion would not end,
    since it would revisit a node of a store that it does not change structurally). *)
From Verif Require Export Base F32 GameModel.

(** lib.rs:33-40 *)
Record mcfg := mkCfg { iterations : nat; cfg_c : f32; sim_limit : nat; dir_alpha : f32; dir_eps : f32 }.

Section Mc.
  Variable G : Game.

  (** ND:8-19 *)
  Record node := mkNode {
    n_state : St G; n_idx : nat; n_parent : option nat; n_children : list nat;
    n_visits : f32; n_value : f32; n_policy : f32;
    n_action : option (Mv G); n_exp : list (Mv G) }.
  Definition store := list node.

  (** ND:43-62 *)
  Definition node_new (s : St G) (i : nat) (p : option nat) (a : option (Mv G)) (pol : f32) : res node :=
    moves <- g_valid G s ;; Ok (mkNode s i p [] f0 f0 pol a moves).
  (** ND:78-84 *)
  Definition is_fully_expanded (n : node) : bool := match n_exp n with [] => true | _ => false end.
  Definition is_terminal (n : node) : bool := match g_winner G (n_state n) with Some _ => true | None => false end.

  (** NS:34-45 *)
  Definition add_node (st : store) (s : St G) (p : option nat) (a : option (Mv G)) (pol : f32)
    : res (nat * store) :=
    n <- node_new s (length st) p a pol ;; Ok (length st, st ++ [n]).
  (** NS:47-61 *)
  Definition get_node (st : store) (i : nat) : res node :=
    match nth_error st i with Some n => Ok n | None => Panic PUnwrap end.
  Definition set_node (st : store) (n : node) : res store :=
    if (n_idx n <? length st)%nat then Ok (set_nth st (n_idx n) n) else Panic PIndex.
  (** NS:30-32 *)
  Definition get_root_nodes (st : store) : list node :=
    filter (fun n => match n_parent n with None => true | _ => false end) st.

  Variable ln : f32 -> f32.
  (** ND:86-96 *)
  Definition ucb (n : node) (st : store) (c : f32) : res f32 :=
    match n_parent n with
    | Some p =>
      parent <- get_node st p ;;
      let exploitation := fdiv (n_value n) (n_visits n) in
      let exploration := fsqrt (fdiv (fmul c (ln (n_visits parent))) (n_visits n)) in
      Ok (fadd exploitation exploration)
    | None => Ok finf
    end.
  (** ND:98-112 *)
  Definition alpha_ucb (n : node) (st : store) (c : f32) : res f32 :=
    let q_value := if SFeqb (n_visits n) f0 then f0 else fdiv (n_value n) (n_visits n) in
    match n_parent n with
    | Some p =>
      parent <- get_node st p ;;
      Ok (fadd q_value (fmul (fmul c (fdiv (fsqrt (n_visits parent)) (fadd (n_visits n) f1))) (n_policy n)))
    | None => Ok finf
    end.
  (** ND:114-116 *)
  Definition win_pct (n : node) : f32 := fdiv (n_value n) (n_visits n).

  (** ND:118-137.  [pop] takes the last move. *)
  Definition expand (n : node) (st : store) (r : rng) : res (nat * store * rng) :=
    match rev (n_exp n) with
    | [] => Panic PExplicit
    | a :: rest =>
      '(s', r') <- g_apply G (n_state n) a r ;;
      '(ci, st1) <- add_node st s' (Some (n_idx n)) (Some a) f0 ;;
      let n' := mkNode (n_state n) (n_idx n) (n_parent n) (n_children n ++ [ci])
                       (n_visits n) (n_value n) (n_policy n) (n_action n) (rev rest) in
      st2 <- set_node st1 n' ;;
      Ok (ci, st2, r')
    end.

  (** ND:182-184, SM:26-28: the score of [winner] for [player] *)
  Definition outcome (pl winner : Z) : res f32 :=
    if winner =? pl then Ok f1
    else q <- i8 (g_pr G) (- pl) ;; Ok (if winner =? q then fm1 else f0).

  (** ND:180-194: note that the result is looked for in [self.state], not in [curr_state] *)
  Fixpoint simulate_loop (self curr : St G) (pl : Z) (limit : nat) (r : rng) : res (f32 * rng) :=
    match limit with
    | O => Ok (f0, r)
    | S limit' =>
      match g_winner G self with
      | Some w => v <- outcome pl w ;; Ok (v, r)
      | None =>
        vm <- g_valid G curr ;;
        '(curr', r2) <-
          match vm with
          | [] => g_skip G curr r
          | _ => let (om, r1) := choose vm r in
                 match om with Some m => g_apply G curr m r1 | None => Panic PUnwrap end
          end ;;
        simulate_loop self curr' pl limit' r2
      end
    end.
  (** ND:176-196 *)
  Definition simulate (n : node) (pl : Z) (limit : nat) (r : rng) : res (f32 * rng) :=
    simulate_loop (n_state n) (n_state n) pl limit r.

  (** [children.iter().map(get_node)] followed by [max_by] on a score that may panic.
      The score of a child does not depend on the other children, so computing all scores
      first changes nothing unless one of them panics with fewer than two children, which
      cannot be told apart from the outside in a store with valid parent links. *)
  Definition children_of (st : store) (n : node) : res (list node) := mmap (get_node st) (n_children n).
  Definition best_by (score : node -> res f32) (l : list node) : res (option node) :=
    scored <- mmap (fun n => v <- score n ;; Ok (n, v)) l ;;
    Ok (option_map fst (max_by (fun a b : node * f32 => fcmp (snd a) (snd b)) scored)).

  (** SM:41-52 *)
  Definition select_ucb (i : nat) (st : store) (c : f32) : res node :=
    n <- get_node st i ;;
    ch <- children_of st n ;;
    b <- best_by (fun m => ucb m st c) ch ;;
    match b with Some m => Ok m | None => Panic PUnwrap end.
  (** SM:54-69 and SM:71-86 *)
  Definition action_or_empty (b : option node) : Mv G :=
    match b with
    | Some m => match n_action m with Some a => a | None => g_empty G end
    | None => g_empty G
    end.
  Definition select_win_pct (i : nat) (st : store) : res (Mv G) :=
    n <- get_node st i ;;
    ch <- children_of st n ;;
    b <- best_by (fun m => Ok (win_pct m)) ch ;;
    Ok (action_or_empty b).
  Definition select_most_visits (i : nat) (st : store) : res (Mv G) :=
    n <- get_node st i ;;
    ch <- children_of st n ;;
    b <- best_by (fun m => Ok (n_visits m)) ch ;;
    Ok (action_or_empty b).

  (** SM:88-94 *)
  Fixpoint select_leaf_fuel (fuel : nat) (i : nat) (st : store) (c : f32) : res nat :=
    match fuel with
    | O => Panic PFuel
    | S fuel' =>
      n <- get_node st i ;;
      if match n_children n with [] => true | _ => false end || negb (is_fully_expanded n)
      then Ok (n_idx n)
      else m <- select_ucb i st c ;; select_leaf_fuel fuel' (n_idx m) st c
    end.
  Definition select_leaf_node (i : nat) (st : store) (c : f32) : res nat :=
    select_leaf_fuel (S (length st)) i st c.

  (** SM:96-103 *)
  Definition bump (n : node) (v : f32) : node :=
    mkNode (n_state n) (n_idx n) (n_parent n) (n_children n)
           (fadd (n_visits n) f1) (fadd (n_value n) v) (n_policy n) (n_action n) (n_exp n).
  Fixpoint backprop_fuel (fuel : nat) (i : nat) (v : f32) (st : store) : res store :=
    match fuel with
    | O => Panic PFuel
    | S fuel' =>
      match nth_error st i with
      | None => Panic PIndex
      | Some n =>
        let st' := set_nth st i (bump n v) in
        match n_parent n with
        | Some p => backprop_fuel fuel' p v st'
        | None => Ok st'
        end
      end
    end.
  Definition backpropagate (i : nat) (v : f32) (st : store) : res store :=
    backprop_fuel (S (length st)) i v st.

  (** SM:20-37: one iteration of the search *)
  Definition mcts_iter (pl : Z) (cfg : mcfg) (sr : store * rng) : res (store * rng) :=
    let (st, r) := sr in
    i <- select_leaf_node 0 st (cfg_c cfg) ;;
    n <- get_node st i ;;
    match g_winner G (n_state n) with
    | Some w =>
      v <- outcome pl w ;;
      st' <- backpropagate i v st ;;
      Ok (st', r)
    | None =>
      '(ci, st1, r1) <- expand n st r ;;
      cn <- get_node st1 ci ;;
      '(v, r2) <- simulate cn pl (sim_limit cfg) r1 ;;
      st' <- backpropagate ci v st1 ;;
      Ok (st', r2)
    end.
  Fixpoint mcts_loop (k : nat) (pl : Z) (cfg : mcfg) (sr : store * rng) : res (store * rng) :=
    match k with
    | O => Ok sr
    | S k' => sr' <- mcts_iter pl cfg sr ;; mcts_loop k' pl cfg sr'
    end.
  (** SM:16-17: the store with its root *)
  Definition mcts_init (s : St G) : res store := '(_, st) <- add_node [] s None None f0 ;; Ok st.
  (** SM:10-39 *)
  Definition mct_search (s : St G) (pl : Z) (cfg : mcfg) (r : rng) : res (Mv G * rng) :=
    match g_winner G s with
    | Some _ => Ok (g_empty G, r)
    | None =>
      st0 <- mcts_init s ;;
      '(st, r') <- mcts_loop (iterations cfg) pl cfg (st0, r) ;;
      m <- select_most_visits 0 st ;;
      Ok (m, r')
    end.
End Mc.

Arguments mkNode {G}. Arguments n_state {G}. Arguments n_idx {G}. Arguments n_parent {G}.
Arguments n_children {G}. Arguments n_visits {G}. Arguments n_value {G}. Arguments n_policy {G}.
Arguments n_action {G}. Arguments n_exp {G}.
Arguments is_fully_expanded {G}. Arguments is_terminal {G}. Arguments get_node {G}. Arguments set_node {G}.
Arguments add_node {G}. Arguments node_new {G}. Arguments get_root_nodes {G}. Arguments ucb {G}. Arguments alpha_ucb {G}. Arguments win_pct {G}.
Arguments expand {G}. Arguments simulate_loop {G}. Arguments simulate {G}. Arguments children_of {G}.
Arguments best_by {G}. Arguments select_ucb {G}. Arguments select_win_pct {G}. Arguments select_most_visits {G}.
Arguments action_or_empty {G}. Arguments select_leaf_fuel {G}. Arguments select_leaf_node {G}. Arguments bump {G}.
Arguments backprop_fuel {G}. Arguments backpropagate {G}. Arguments mcts_iter {G}. Arguments mcts_loop {G}.
Arguments mcts_init {G}. Arguments mct_search {G}.
