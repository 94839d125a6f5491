(** * CommandModel: the commands train, learn and play as a whole.
    src/main.rs:117-207 (MN), src/alphazero/alphazero.rs:81-127 (AZ).

    The parts are those of FilesModel, ConfigModel, NetModel, TrainModel, VersusModel, JsonModel and
    ShowModel; here they are put in the order of the code.  [W] is the state of training (weights
    and the optimiser's memory), [init] the state made of new variables and [weights] its weights;
    what the optimiser does depends on weight decay and learning rate.  Creating and writing files
    succeeds; console output other than the result of a match is left out. *)
From Verif Require Export Base F32 Tensor GameModel McModel AlphaModel SelfModel VersusModel TrainModel FilesModel NetModel ConfigModel.
From Verif Require JsonModel ShowModel.
Local Open Scope string_scope.

(** the settings of a search *)
Definition mcfg_of (m : mcts_conf) : mcfg := mkCfg (Z.to_nat (k_iterations m)) (k_c m) (Z.to_nat (k_limit m)) (k_alpha m) (k_eps m).

Section Commands.
  Variable pr : profile.
  Variable broadcast : tensor f32 -> tensor f32 -> option (tensor f32).
  Variable W : Type.
  Variable init : NetModel.store -> W.
  Variable weights : W -> NetModel.store.
  Variable optimise : f64 * f64 -> W -> tensor Z -> tensor f32 -> tensor Z -> res W.
  (** AZ:113-127 *)
  Definition az_from (c : conf) (reqs : list (string * tensor f32)) (path best : option (option NetModel.store)) : res (az_conf * mcts_conf * (f64 * f64) * W) :=
    '(a, m, o) <- from_config c ;;
    st <- alphazero_new broadcast reqs path best ;;
    Ok (a, m, o, init st).
  (** MN:201-202 *)
  Definition out_file (game : string) (out : option string) : string := match out with Some p => p | None => "./models/" ++ game ++ "/trained_model.ot" end.
  (** MN:172-207: the file written and its content *)
  Definition train_main (game : string) (root : FilesModel.node) (c : conf) (reqs : list (string * tensor f32)) (path best : option (option NetModel.store))
      (run_id learn self_play out : option string) (r : rng) : res (string * NetModel.store * rng) :=
    p <- data_path run_id learn self_play ;;
    match open_path root p with
    | None => Panic PExplicit
    | Some n =>
      let (paths, _) := get_all_paths_rec p n [] in
      datas <- mmap (load_path root) paths ;;
      '(a, _, o, w) <- az_from c reqs path best ;;
      '(w', _, r') <- train pr W (optimise o) (k_batch a) w (concat datas) r ;;
      Ok (out_file game out, weights w', r')
    end.
  (** MN:121-124; [self_play], [mkdir], [no_nan] and [gate] as in TrainModel, with the settings *)
  Definition learn_main (self_play : az_conf -> mcts_conf -> W -> rng -> res (list frag * rng)) (mkdir : nat -> nat -> bool) (no_nan : W -> bool)
      (gate : az_conf -> mcts_conf -> W -> nat -> rng -> res rng)
      (c : conf) (reqs : list (string * tensor f32)) (path best : option (option NetModel.store)) (r : rng) : res (W * list (nat * nat * saved) * rng) :=
    '(a, m, o, w) <- az_from c reqs path best ;;
    learn_parallel pr W (optimise o) (self_play a m) mkdir no_nan (gate a m) (Z.to_nat (k_learn a)) (Z.to_nat (k_self a)) (Z.to_nat (k_epochs a)) (k_batch a) w r.
End Commands.

Section Play.
  Context {G : Game}.
  Variable ln : f32 -> f32.
  Variable tsum : list f32 -> f32.
  Variable dirichlet : nat -> f32 -> rng -> list f32 * rng.
  Variable unif : f64 -> rng -> f64 * rng.
  Variable tpow : f64 -> f32 -> f32.                             (** by the temperature *)
  Variable nanoid : rng -> Z * rng.
  Variable hash : nat -> list (Z * (St G * vgame G)) -> list (Z * (St G * vgame G)).
  Variable order : nat -> bool -> nat -> list nat.
  Variable name : Z -> JsonModel.text.
  Variable wr : St G -> JsonModel.json.
  Variable showf : f64 -> JsonModel.text.
  (** MN:125-171: the text shown and the content of the output directory *)
  Definition play_main (agent_one : option string) (model_one : option (option net)) (agent_two : option string) (model_two : option (option net))
      (out : option (option JsonModel.dir)) (c : conf) (fuel : nat) (r : rng) : res (JsonModel.text * JsonModel.dir * rng) :=
    let is_dir := option_map (fun o : option JsonModel.dir => match o with Some _ => true | None => false end) out in
    '(p1, p2, temp, m) <- play_players agent_one model_one agent_two model_two is_dir c ;;
    match out with
    | Some (Some d) =>
      '(res, r') <- play (G := G) ln tsum dirichlet unif (tpow temp) nanoid (mcfg_of m) hash order p1 p2 fuel r ;;
      Ok (ShowModel.summary showf res, JsonModel.save_all wr (map (JsonModel.saved name) (r_games res)) d, r')
    | _ => Panic PExplicit
    end.
End Play.
