(** * SelfModel: self-play.
    src/alphazero/alpha_parallel.rs:101-231 (AP), src/alphazero/alpha_no_parallel.rs:32-83 (AN),
    src/alphazero/alphazero.rs:139-147 (AZ), for an arbitrary game.

    Parameters besides those of AlphaModel and SampleModel: [tpow] is the entry-wise
    [pow_(1.0 / temperature)]; [hash j l] is the order in which round [j] of the loop walks
    through the HashMap with the entries [l] ([iter] and [values_mut] agree because the map
    is not changed in between); [order j n] is the order of the HashSet built by the search
    of round [j] for [n] games.  Progress bars, printing and devices are left out. *)
From Verif Require Export Base F32 GameModel McModel AlphaModel SampleModel.

(** alphazero.rs:66-71 *)
Record frag := mkFrag { fr_outcome : Z; fr_ps : list f32; fr_state : tensor Z }.
Definition set_outcome (o : Z) (f : frag) : frag := mkFrag o (fr_ps f) (fr_state f).

Section SelfPlay.
  Variable G : Game.
  Variable tsum : list f32 -> f32.
  Variable dirichlet : nat -> f32 -> rng -> list f32 * rng.
  Variable unif : f64 -> rng -> f64 * rng.
  Variable tpow : f32 -> f32.
  Variable nt : net.
  Variable cfg : mcfg.
  Variable hash : nat -> list (nat * St G) -> list (nat * St G).
  Variable order : nat -> nat -> list nat.

  (** AP:105-109, AN:34-37: a fresh game *)
  Definition fresh (r : rng) : res (St G * rng) :=
    if g_det G then Ok (g_new G, r) else g_roll G (g_new G) r.
  (** AP:103-111 *)
  Fixpoint fresh_games (i n : nat) (r : rng) : res (list (nat * St G) * rng) :=
    match n with
    | O => Ok ([], r)
    | S n' => '(s, r1) <- fresh r ;; '(l, r2) <- fresh_games (S i) n' r1 ;; Ok ((i, s) :: l, r2)
    end.

  (** AP:217 *)
  Definition label (w : Z) (f : frag) : res frag :=
    if w =? fr_outcome f then Ok (set_outcome 1 f)
    else no <- i8 (g_pr G) (- fr_outcome f) ;;
         Ok (set_outcome (if w =? no then -1 else 0) f).

  (** AP:182-215 for the game at place [p] of the batch: the position after the round, the
      game's memory, and the winner if a move ended the game *)
  Definition sp_play (st : store G) (p : nat) (row : list f32) (s : St G) (mem : list frag) (r : rng)
    : res (St G * list frag * option Z * rng) :=
    skip <- (if SFeqb (tsum row) f0 then Ok true
             else n <- get_node st p ;; Ok (match n_children n with [] => true | _ => false end)) ;;
    if skip : bool then '(s', r') <- g_skip G s r ;; Ok (s', mem, None, r')
    else
      '(a, r1) <- weighted_select_tensor_idx unif row r ;;
      x <- g_tensor G s ;;
      m <- g_decode G s (Z.of_nat a) ;;
      vm <- g_valid G s ;;
      if existsb (fun v => g_mv_eqb G v m) vm then
        '(s', r') <- g_apply G s m r1 ;;
        Ok (s', mem ++ [mkFrag (g_player G s) row x], g_winner G s', r')
      else Panic PAssert.

  (** AP:168-224: [out] collects the map's entries, [rem] is [states_to_remove] *)
  Record racc := mkAcc { a_out : list (nat * St G); a_mems : list (list frag); a_all : list frag;
                         a_rounds : list nat; a_rem : list nat; a_rng : rng }.
  Definition sp_step (rows : list (list f32)) (st : store G) (a : racc) (e : nat * (nat * St G)) : res racc :=
    let '(p, (i, s)) := e in
    row <- idx rows (Z.of_nat p) ;;
    k <- idx (a_rounds a) (Z.of_nat i) ;;
    mem <- idx (a_mems a) (Z.of_nat i) ;;
    let lim := (sim_limit cfg <=? k)%nat in
    let all1 := if lim then a_all a ++ map (set_outcome 0) mem else a_all a in
    let rem1 := if lim then a_rem a ++ [i] else a_rem a in
    '(s', mem', w, r') <- sp_play st p row s mem (a_rng a) ;;
    mems' <- upd (a_mems a) (Z.of_nat i) mem' ;;
    rounds' <- upd (a_rounds a) (Z.of_nat i) (S k) ;;
    '(all2, rem2) <- match w with
                     | Some w => lab <- mmap (label w) mem' ;; Ok (all1 ++ lab, rem1 ++ [i])
                     | None => Ok (all1, rem1)
                     end ;;
    Ok (mkAcc (a_out a ++ [(i, s')]) mems' all2 rounds' rem2 r').

  (** AP:130-228: round [j] *)
  Record sps := mkSps { sp_states : list (nat * St G); sp_mems : list (list frag); sp_all : list frag;
                        sp_rounds : list nat; sp_rng : rng }.
  Definition sp_round (j : nat) (a : sps) : res sps :=
    let l := hash j (sp_states a) in
    '(st, r1) <- alpha_mcts_parallel tsum dirichlet nt cfg (order j (length l)) [] (map snd l) (sp_rng a) ;;
    roots <- mmap (get_node st) (seq 0 (length l)) ;;
    rows <- get_prob_tensor_parallel tsum roots st ;;
    b <- mfold (sp_step (map (map tpow) rows) st) (combine (seq 0 (length l)) l)
               (mkAcc [] (sp_mems a) (sp_all a) (sp_rounds a) [] r1) ;;
    Ok (mkSps (filter (fun e => negb (existsb (Nat.eqb (fst e)) (a_rem b))) (a_out b))
              (a_mems b) (a_all b) (a_rounds b) (a_rng b)).
  (** AP:129: the loop; [fuel] bounds the number of rounds *)
  Fixpoint sp_loop (fuel j : nat) (a : sps) : res (list frag * rng) :=
    match sp_states a with
    | [] => Ok (sp_all a, sp_rng a)
    | _ => match fuel with
           | O => Panic PFuel
           | S fuel' => a' <- sp_round j a ;; sp_loop fuel' (S j) a'
           end
    end.
  (** AP:101-231; [n] is [num_self_play_batches] *)
  Definition self_play_parallel (fuel n : nat) (r : rng) : res (list frag * rng) :=
    '(l, r1) <- fresh_games 0 n r ;;
    sp_loop fuel 0 (mkSps l (repeat [] n) [] (repeat 0%nat n) r1).

  (** ** the sequential version, for any search *)
  Variable search : St G -> rng -> res (option (list f32) * rng).
  (** AN:44-82.  [pow_] works in place, so the vector kept in the memory is the tempered one. *)
  Fixpoint self_play_loop (fuel : nat) (s : St G) (mem : list frag) (r : rng) : res (list frag * rng) :=
    match fuel with
    | O => Panic PFuel
    | S fuel' =>
      '(o, r1) <- search s r ;;
      match o with
      | None => '(s', r') <- g_skip G s r1 ;; self_play_loop fuel' s' mem r'
      | Some pi =>
        let pi := map tpow pi in
        '(a, r2) <- weighted_select_tensor_idx unif pi r1 ;;
        x <- g_tensor G s ;;
        let mem' := mem ++ [mkFrag (g_player G s) pi x] in
        m <- g_decode G s (Z.of_nat a) ;;
        '(s', r') <- g_apply G s m r2 ;;
        match g_winner G s' with
        | Some w => Ok (map (fun f => set_outcome (if fr_outcome f =? w then 1 else -1) f) mem', r')
        | None => self_play_loop fuel' s' mem' r'
        end
      end
    end.
  (** AN:32-83 *)
  Definition self_play (fuel : nat) (r : rng) : res (list frag * rng) :=
    '(s, r1) <- fresh r ;; self_play_loop fuel s [] r1.
  (** AZ:139-147 *)
  Definition get_next_move_for_state (s : St G) (r : rng) : res (Mv G * rng) :=
    '(o, r1) <- search s r ;;
    match o with
    | None => Ok (g_empty G, r1)
    | Some pi =>
      '(a, r2) <- weighted_select_tensor_idx unif (map tpow pi) r1 ;;
      m <- g_decode G s (Z.of_nat a) ;;
      Ok (m, r2)
    end.
End SelfPlay.
Arguments fresh {G}. Arguments fresh_games {G}. Arguments label {G}. Arguments sp_play {G}. Arguments racc {G}. Arguments mkAcc {G}.
Arguments a_out {G}. Arguments a_mems {G}. Arguments a_all {G}. Arguments a_rounds {G}. Arguments a_rem {G}. Arguments a_rng {G}.
Arguments sp_step {G}. Arguments sps {G}. Arguments mkSps {G}. Arguments sp_states {G}. Arguments sp_mems {G}. Arguments sp_all {G}.
Arguments sp_rounds {G}. Arguments sp_rng {G}. Arguments sp_round {G}. Arguments sp_loop {G}. Arguments self_play_parallel {G}.
Arguments self_play_loop {G}. Arguments self_play {G}. Arguments get_next_move_for_state {G}.
