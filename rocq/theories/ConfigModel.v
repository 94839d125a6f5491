(** * ConfigModel: settings and command line decisions.
    src/lib.rs:42-51 (LB), src/alphazero/alphazero.rs:34-59, 113-127 (AZ), src/main.rs:97-110,
    119-177 (MN).

    A configuration is what the crate config returns for a key: [get_int] an i64 and [get_float]
    an f64, or an error.  The text format, messages and the parsing of the command line (crate
    clap) are left out. *)
From Coq Require Export String Ascii.
From Verif Require Export Base F32 VersusModel.
Local Open Scope string_scope.
Local Open Scope Z_scope.

Record conf := mkConf { get_int : string -> option Z; get_float : string -> option f64 }.
(** i64 [as usize] *)
Definition as_usize (z : Z) : Z := z mod 2 ^ 64.
(** f64 [as f32]: rounds to nearest even *)
Definition f32_of_f64 (x : f64) : f32 := match x with S754_finite s m e => binary_round 24 128 s m e | _ => x end.
Definition obind {A B} (o : option A) (k : A -> option B) : option B := match o with Some a => k a | None => None end.

(** LB:42-51 *)
Record mcts_conf := mkMctsConf { k_iterations : Z; k_c : f32; k_limit : Z; k_alpha : f32; k_eps : f32 }.
Definition mcts_from_config (c : conf) : option mcts_conf :=
  obind (get_int c "iterations") (fun i =>
  obind (get_float c "exploration_const") (fun e =>
  obind (get_int c "simulate_round_limit") (fun l =>
  obind (get_float c "dirichlet_alpha") (fun a =>
  obind (get_float c "dirichlet_epsilon") (fun d =>
  Some (mkMctsConf (as_usize i) (f32_of_f64 e) (as_usize l) (f32_of_f64 a) (f32_of_f64 d))))))).
(** AZ:34-45 *)
Record az_conf := mkAzConf { k_temp : f64; k_learn : Z; k_self : Z; k_epochs : Z; k_batch : Z; k_games : Z }.
Definition az_from_config (c : conf) : option az_conf :=
  obind (get_float c "temperature") (fun t =>
  obind (get_int c "learn_iterations") (fun l =>
  obind (get_int c "self_play_iterations") (fun s =>
  obind (get_int c "num_epochs") (fun e =>
  obind (get_int c "training_batch_size") (fun b =>
  obind (get_int c "num_self_play_batches") (fun g =>
  Some (mkAzConf t (as_usize l) (as_usize s) (as_usize e) (as_usize b) (as_usize g)))))))).
(** AZ:52-59 *)
Definition op_from_config (c : conf) : option (f64 * f64) :=
  obind (get_float c "wd") (fun wd => obind (get_float c "lr") (fun lr => Some (wd, lr))).
(** AZ:113-127 up to the call of [new] *)
Definition from_config (c : conf) : res (az_conf * mcts_conf * (f64 * f64)) :=
  match az_from_config c with None => Panic PExplicit | Some a =>
  match mcts_from_config c with None => Panic PExplicit | Some m =>
  match op_from_config c with None => Panic PExplicit | Some o => Ok (a, m, o) end end end.

(** MN:99-111; the crate rayon: [num_threads(0)] means all processors *)
Definition n_cpus (arg : option Z) (in_device : Z) : res Z :=
  match arg with Some n => if in_device <? n then Panic PExplicit else Ok n | None => Ok (in_device / 2) end.
Definition threads (n in_device : Z) : Z := if n =? 0 then in_device else n.

(** [str::to_ascii_lowercase] *)
Definition lower (c : ascii) : ascii :=
  let n := N_of_ascii c in if (65 <=? n)%N && (n <=? 90)%N then ascii_of_N (n + 32) else c.
Fixpoint to_ascii_lowercase (s : string) : string := match s with EmptyString => EmptyString | String c s' => String (lower c) (to_ascii_lowercase s') end.
(** MN:126-133 and 137-144 *)
Definition parse_agent (arg : option string) : res agent :=
  match arg with
  | None => Panic PExplicit
  | Some a =>
    let l := to_ascii_lowercase a in
    if String.eqb l "model" then Ok AModel else if String.eqb l "mcts" then Ok AMcts else if String.eqb l "random" then Ok ARandom else Panic PExplicit
  end.
(** MN:124-171: the two players of the play command.  [is_dir]: the output path is a directory
    ([None]: it is not given); [model_one], [model_two]: the model path and what [from_path] makes
    of it ([None]: it panics) *)
Definition play_players (agent_one : option string) (model_one : option (option net)) (agent_two : option string) (model_two : option (option net))
    (is_dir : option bool) (c : conf) : res (vplayer * vplayer * f64 * mcts_conf) :=
  a1 <- parse_agent agent_one ;;
  a2 <- parse_agent agent_two ;;
  d <- match is_dir with Some d => Ok d | None => Panic PExplicit end ;;
  _ <- (if d : bool then Ok tt else Panic PAssert) ;;
  m1 <- match model_one with None => Ok None | Some (Some nt) => Ok (Some nt) | Some None => Panic PExplicit end ;;
  m2 <- match model_two with None => Ok None | Some (Some nt) => Ok (Some nt) | Some None => Panic PExplicit end ;;
  temp <- match get_float c "temperature" with Some t => Ok t | None => Panic PExplicit end ;;
  m <- match mcts_from_config c with Some m => Ok m | None => Panic PUnwrap end ;;
  Ok (mkPlayer a1 m1, mkPlayer a2 m2, temp, m).
