(** * GateModel: replaying games and the gate between a new and the best model.
    src/versus.rs:75-105 (VS) and src/alphazero/alpha_versus.rs:16-81 (AV). *)
From Verif Require Export Base F32 GameModel McModel AlphaModel SampleModel VersusModel.

(** VS:75-105: what a replay prints, one event for each [println].  Texts are represented by
    what they show; the wait for the Enter key is left out. *)
Inductive shown_line (G : Game) :=
| LId (id : Z) | LPlayers (p1 p2 : agent) | LWinner (a : agent) | LInitial | LState (s : St G)
| LPlayer (a : agent) | LRoll (d : option (Z * Z)) | LAction (l : list (St G)) | LAfter.
Arguments LId {G}. Arguments LPlayers {G}. Arguments LWinner {G}. Arguments LInitial {G}. Arguments LState {G}.
Arguments LPlayer {G}. Arguments LRoll {G}. Arguments LAction {G}. Arguments LAfter {G}.
Definition print_game {G : Game} (g : vgame G) : list (shown_line G) :=
  let current_state := vg_init g in
  [LId (vg_id g); LPlayers (vg_p1 g) (vg_p2 g); LWinner (vg_winner g); LInitial; LState current_state]
  ++ flat_map (fun t => [LPlayer (t_player G t); LRoll (t_roll G t); LAction (t_action G t); LAfter; LState current_state]) (vg_turns g).

(** the f64 literals of AV:73-75: the f64 nearest to 55/100 and 45/100, which is what the
    correctly rounded quotient is *)
Definition f64_055 : f64 := ddiv (f64_of_Z 55) (f64_of_Z 100).
Definition f64_045 : f64 := ddiv (f64_of_Z 45) (f64_of_Z 100).

Section Gate.
  Variable G : Game.
  Variable ln : f32 -> f32.
  Variable tsum : list f32 -> f32.
  Variable dirichlet : nat -> f32 -> rng -> list f32 * rng.
  Variable unif : f64 -> rng -> f64 * rng.
  Variable tpow : f32 -> f32.
  Variable nanoid : rng -> Z * rng.
  Variable cfg : mcfg.
  Variable hash : nat -> list (Z * (St G * vgame G)) -> list (Z * (St G * vgame G)).
  Variable order : nat -> bool -> nat -> list nat.
  (** contents of a model file; [parse] is [ResNet::from_path] (None: the file does not load);
      [save w old] is [VarStore::save]: what the file is afterwards, whether it succeeds or not *)
  Variable file : Type.
  Variable parse : file -> option net.
  Variable save : net -> option file -> option file.

  (** AV:73-79 *)
  Definition gate (winrate : f64) : option nat :=
    if SFleb f64_055 winrate then Some 1%nat else if SFleb winrate f64_045 then Some 2%nat else None.
  (** AV:59-80; the copy of the variables (AV:60-63) is the same function *)
  Definition play_vs_model (self other : net) (fuel : nat) (r : rng) : res (option nat * rng) :=
    '(match_res, r1) <- play (G := G) ln tsum dirichlet unif tpow nanoid cfg hash order (mkPlayer AModel (Some self)) (mkPlayer AModel (Some other)) fuel r ;;
    Ok (gate (r_winrate match_res), r1).
  (** AV:16-57; [best] is the file best_model.ot before the call, the result is the file after *)
  Definition play_vs_best_model (self : net) (best : option file) (fuel : nat) (r : rng) : res (option file * rng) :=
    match best with
    | None => Ok (save self None, r)
    | Some f =>
      nnet_best <- match parse f with Some nt => Ok nt | None => Panic PExplicit end ;;
      '(v, r1) <- play_vs_model self nnet_best fuel r ;;
      better <- match v with Some 1%nat => Ok true | Some 2%nat => Ok false | None => Ok false | Some _ => Panic PExplicit end ;;
      Ok (if better : bool then save self best else best, r1)
    end.
End Gate.
Arguments play_vs_model {G}. Arguments play_vs_best_model {G}.
