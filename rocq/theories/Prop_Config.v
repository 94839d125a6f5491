(** * Prop_Config: C53, C58 — settings and command line. *)
From Coq Require Import Permutation.
From Verif Require Import Base F32 Tensor TttModel BgModel GameModel McModel GameFacts AlphaModel SelfModel VersusModel VersusSpec VersusApi TrainModel TrainSpec TrainApi FilesModel ConfigModel ConfigSpec ConfigApi ConfigNum Witness.
Local Open Scope string_scope.
Local Open Scope Z_scope.

(** C53.  Non-negative integers are kept, negative ones become huge. *)
Theorem C53_cast : forall z, - 2 ^ 63 <= z < 2 ^ 63 -> (0 <= z -> as_usize z = z) /\ (z < 0 -> as_usize z = 2 ^ 64 + z /\ 2 ^ 63 <= as_usize z).
Proof. exact C53_cast_lemma. Qed.
Print Assumptions C53_cast.
(** C53.  The settings are accepted exactly when all keys are there with the right kind. *)
Theorem C53_settings : forall c, (forall k z, get_int c k = Some z -> - 2 ^ 63 <= z < 2 ^ 63) ->
  (exists cfg, from_config c = Ok cfg) <->
  (forall k, In k ["iterations"; "simulate_round_limit"; "learn_iterations"; "self_play_iterations"; "num_epochs"; "training_batch_size"; "num_self_play_batches"] -> get_int c k <> None)
  /\ (forall k, In k ["exploration_const"; "dirichlet_alpha"; "dirichlet_epsilon"; "temperature"; "wd"; "lr"] -> get_float c k <> None).
Proof. exact C53_settings_lemma. Qed.
Print Assumptions C53_settings.
(** C53.  Which key ends up in which setting, and how it is converted. *)
Theorem C53_values : forall c a m o, from_config c = Ok (a, m, o) ->
  get_float c "temperature" = Some (k_temp a)
  /\ (forall f key, In (f, key) [(k_learn a, "learn_iterations"); (k_self a, "self_play_iterations"); (k_epochs a, "num_epochs"); (k_batch a, "training_batch_size"); (k_games a, "num_self_play_batches");
                                 (k_iterations m, "iterations"); (k_limit m, "simulate_round_limit")] -> exists z, get_int c key = Some z /\ f = z mod 2 ^ 64)
  /\ (forall f key, In (f, key) [(k_c m, "exploration_const"); (k_alpha m, "dirichlet_alpha"); (k_eps m, "dirichlet_epsilon")] -> exists x, get_float c key = Some x /\ f = f32_of_f64 x)
  /\ get_float c "wd" = Some (fst o) /\ get_float c "lr" = Some (snd o).
Proof. exact C53_values_lemma. Qed.
Print Assumptions C53_values.
(** C53.  A double becomes the neighbouring single precision number, up to two parts in 2^24; single
    precision numbers survive the way to double and back. *)
Theorem C53_rounding :
  (forall s m e, 2 ^ 52 <= Z.pos m < 2 ^ 53 -> -149 <= e <= 47 ->
     exists m' e', f32_of_f64 (S754_finite s m e) = S754_finite s m' e' /\ 2 ^ 23 <= Z.pos m' < 2 ^ 24 /\ -149 <= e' <= 104
       /\ 2 ^ 23 * Z.abs (Z.pos m' * 2 ^ (e' + 149) - Z.pos m * 2 ^ (e + 149)) <= 2 * (Z.pos m * 2 ^ (e + 149)))
  /\ (forall x : f32, valid_binary 24 128 x = true -> f32_of_f64 (f64_of_f32 x) = x).
Proof. exact C53_rounding_lemma. Qed.
Print Assumptions C53_rounding.
(** C53, consequence.  A negative training batch size is no error: one batch with all the data. *)
Theorem C53_negative_batch : forall z, - 2 ^ 63 <= z < 0 -> forall pr W optimise (w : W) memory r, memory <> [] -> Z.of_nat (length memory) < 2 ^ 63 ->
  exists b r', Permutation b memory
    /\ train pr W optimise (as_usize z) w memory r = ('(x, p, o) <- batch_tensors b ;; w' <- optimise w x p o ;; Ok (w', b, r')).
Proof. exact C53_negative_batch_lemma. Qed.
Print Assumptions C53_negative_batch.
(** C53.  The train command accepts exactly the prefix-closed combinations. *)
Theorem C53_train_args : forall id l sp,
  (exists p, data_path id l sp = Ok p) <-> (l <> None -> id <> None) /\ (sp <> None -> l <> None).
Proof. exact C53_train_args_lemma. Qed.
Print Assumptions C53_train_args.
(** C53.  More processors than there are panic; otherwise between one and all are used (zero, given
    or by default on a machine with one, means all). *)
Theorem C53_cpus : forall arg dev, 1 <= dev -> (forall n, arg = Some n -> 0 <= n) ->
  ((exists p, n_cpus arg dev = Panic p) <-> exists n, arg = Some n /\ dev < n)
  /\ forall n, n_cpus arg dev = Ok n -> (arg = None -> n = dev / 2) /\ (forall k, arg = Some k -> n = k) /\ 1 <= threads n dev <= dev.
Proof. exact C53_cpus_lemma. Qed.
Print Assumptions C53_cpus.
(** C53.  Agents are recognised up to ASCII case, everything else panics. *)
Theorem C53_agents : forall arg a, parse_agent arg = Ok a <->
  exists s, arg = Some s /\ ((a = AModel /\ nocases s "model") \/ (a = AMcts /\ nocases s "mcts") \/ (a = ARandom /\ nocases s "random")).
Proof. exact C53_agents_lemma. Qed.
Print Assumptions C53_agents.

Definition toy_conf : conf := mkConf (fun k => if String.eqb k "training_batch_size" then Some (-1) else Some 7) (fun _ => Some (f64_of_Z 2)).
Example C53_run : match from_config toy_conf with Ok (a, m, _) => k_batch a = 2 ^ 64 - 1 /\ k_learn a = 7 /\ k_c m = f32_of_Z 2 | Panic _ => False end.
Proof. vm_compute. repeat split. Qed.
Example C53_cpus_run : n_cpus (Some 9) 8 = Panic PExplicit /\ n_cpus (Some 8) 8 = Ok 8 /\ n_cpus None 8 = Ok 4 /\ n_cpus None 1 = Ok 0 /\ threads 0 1 = 1.
Proof. repeat split. Qed.
Example C53_agents_run : map parse_agent [Some "Model"; Some "MCTS"; Some "random"; Some "minimax"; None] = [Ok AModel; Ok AMcts; Ok ARandom; Panic PExplicit; Panic PExplicit].
Proof. reflexivity. Qed.
(** rounding of a float setting: 0.1 in double precision becomes 0.1 in single precision *)
Example C53_float : f32_of_f64 (ddiv (f64_of_Z 1) (f64_of_Z 10)) = fdiv f1 (f32_of_Z 10).
Proof. vm_compute. reflexivity. Qed.

(** C58, violation.  A model agent without a model path is accepted by the command ... *)
Theorem C58_command : forall agent_one agent_two model_one model_two is_dir c p1 p2 t m,
  play_players agent_one model_one agent_two model_two is_dir c = Ok (p1, p2, t, m) ->
  parse_agent agent_one = Ok (pl_type p1) /\ parse_agent agent_two = Ok (pl_type p2) /\ is_dir = Some true
  /\ model_one = option_map Some (pl_model p1) /\ model_two = option_map Some (pl_model p2) /\ get_float c "temperature" = Some t /\ mcts_from_config c = Some m.
Proof. exact C58_command_lemma. Qed.
Print Assumptions C58_command.
(** ... and then makes every match panic, in both games. *)
Theorem C58_no_model : forall G I, match_game (G := G) I ->
  forall ln tsum dirichlet unif tpow nanoid cfg hash order, (forall j l, Permutation (hash j l) l) ->
  forall p1 p2, (pl_type p1 = AModel /\ pl_model p1 = None) \/ (pl_type p2 = AModel /\ pl_model p2 = None) ->
  forall fuel r, exists p, play (G := G) ln tsum dirichlet unif tpow nanoid cfg hash order p1 p2 fuel r = Panic p.
Proof. exact C58_no_model_lemma. Qed.
Print Assumptions C58_no_model.
Example C58_run : match play_players (Some "model") None (Some "random") None (Some true) toy_conf with Ok (p1, p2, _, _) => p1 = mkPlayer AModel None /\ p2 = mkPlayer ARandom None | Panic _ => False end.
Proof. vm_compute. split; reflexivity. Qed.
Example C58_games : (forall pr, exists I, match_game (G := ttt_game pr) I) /\ (forall pr, exists I, match_game (G := bg_game pr) I).
Proof. split; intros pr; eexists; [apply ttt_match|apply bg_match]. Qed.
