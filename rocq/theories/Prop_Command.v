(** * Prop_Command: C77 — the commands train, learn and play as a whole. *)
From Coq Require Import Permutation.
From Verif Require Import Base BaseFacts F32 Tensor TttModel TttSpec BgModel BgSpec BgReach GameModel McModel GameFacts AlphaModel SelfModel VersusModel VersusSpec VersusApi
  TrainModel TrainSpec FilesModel FilesSpec NetModel ConfigModel ConfigSpec CommandModel CommandSpec CommandApi VersusStuck VersusApi2 Witness.
From Verif Require JsonModel JsonApi ShowModel.
Local Open Scope string_scope.
Local Open Scope Z_scope.

(** C77, violation.  The content of the model file has no influence on train and learn: any two
    readable files, or none, give the same result ... *)
Theorem C77_model_ignored : forall pr broadcast W init weights optimise c reqs path best path' best', readable path best -> readable path' best' ->
  (forall game root run_id learn self_play out r,
     train_main pr broadcast W init weights optimise game root c reqs path best run_id learn self_play out r
     = train_main pr broadcast W init weights optimise game root c reqs path' best' run_id learn self_play out r)
  /\ (forall self_play mkdir no_nan gate r,
     learn_main pr broadcast W init optimise self_play mkdir no_nan gate c reqs path best r = learn_main pr broadcast W init optimise self_play mkdir no_nan gate c reqs path' best' r).
Proof. exact C77_model_ignored_lemma. Qed.
Print Assumptions C77_model_ignored.
(** ... but an unreadable one makes them panic. *)
Theorem C77_unreadable : forall pr broadcast W init weights optimise c reqs path best, ~ readable path best ->
  (forall game root run_id learn self_play out r, exists p, train_main pr broadcast W init weights optimise game root c reqs path best run_id learn self_play out r = Panic p)
  /\ (forall self_play mkdir no_nan gate r, exists p, learn_main pr broadcast W init optimise self_play mkdir no_nan gate c reqs path best r = Panic p).
Proof. exact C77_unreadable_lemma. Qed.
Print Assumptions C77_unreadable.
(** C77.  What train does: from new weights, one pass over all fragments found, in batches; the
    result goes to the given file or to trained_model.ot. *)
Theorem C77_train : forall pr broadcast W init weights optimise game root c reqs path best run_id learn self_play out r file st r',
  train_main pr broadcast W init weights optimise game root c reqs path best run_id learn self_play out r = Ok (file, st, r') ->
  (out = None -> file = "./models/" ++ game ++ "/trained_model.ot") /\ (forall f, out = Some f -> file = f)
  /\ exists p n wd lr z, data_path run_id learn self_play = Ok p /\ open_path root p = Some n
    /\ get_float c "wd" = Some wd /\ get_float c "lr" = Some lr /\ get_int c "training_batch_size" = Some z
    /\ (tree n -> listable n -> exists ps datas, NoDup ps /\ (forall q, In q ps <-> outermost_sp n q) /\ mmap (fun q => load_path root (p ++ q)%list) ps = Ok datas
         /\ (Z.of_nat (length (concat datas)) < 2 ^ 63 ->
              exists batches w', cut (Z.to_nat (z mod 2 ^ 64)) batches /\ Permutation (concat batches) (concat datas)
                /\ mfold (fun w b => '(x, t, v) <- batch_tensors b ;; optimise (wd, lr) w x t v) batches (init (add_all [] reqs)) = Ok w' /\ st = weights w')).
Proof. exact C77_train_lemma. Qed.
Print Assumptions C77_train.
(** C77.  Of the settings, train uses batch size, weight decay and learning rate only; the number of
    epochs has no influence. *)
Theorem C77_train_settings : forall pr broadcast W init weights optimise c c' cfg cfg', from_config c = Ok cfg -> from_config c' = Ok cfg' ->
  get_int c "training_batch_size" = get_int c' "training_batch_size" -> get_float c "wd" = get_float c' "wd" -> get_float c "lr" = get_float c' "lr" ->
  forall game root reqs path best run_id learn self_play out r,
  train_main pr broadcast W init weights optimise game root c reqs path best run_id learn self_play out r
  = train_main pr broadcast W init weights optimise game root c' reqs path best run_id learn self_play out r.
Proof. exact C77_train_settings_lemma. Qed.
Print Assumptions C77_train_settings.
(** C77.  What learn does, by the settings. *)
Theorem C77_learn : forall pr broadcast W init optimise self_play mkdir no_nan gate c reqs path best r w' files r',
  learn_main pr broadcast W init optimise self_play mkdir no_nan gate c reqs path best r = Ok (w', files, r') ->
  readable path best /\ exists a m wd lr zl zs ze zb, from_config c = Ok (a, m, (wd, lr)) /\ get_float c "wd" = Some wd /\ get_float c "lr" = Some lr
    /\ get_int c "learn_iterations" = Some zl /\ get_int c "self_play_iterations" = Some zs /\ get_int c "num_epochs" = Some ze /\ get_int c "training_batch_size" = Some zb
    /\ (zb mod 2 ^ 64 <> 0 -> exists ws : list W, length ws = S (Z.to_nat (zl mod 2 ^ 64)) /\ nth_error ws 0 = Some (init (add_all [] reqs)) /\ nth_error ws (Z.to_nat (zl mod 2 ^ 64)) = Some w'
          /\ forall l wl wl', (l < Z.to_nat (zl mod 2 ^ 64))%nat -> nth_error ws l = Some wl -> nth_error ws (S l) = Some wl' ->
               learned (optimise (wd, lr)) (self_play a m) (Z.to_nat (zs mod 2 ^ 64)) (Z.to_nat (ze mod 2 ^ 64)) (Z.to_nat (zb mod 2 ^ 64)) wl wl'
               /\ no_nan wl' = true /\ exists ra rb, gate a m wl' l ra = Ok rb).
Proof. exact C77_learn_lemma. Qed.
Print Assumptions C77_learn.
(** C77.  What play does: the agents are those named, the text is that of the match, and the output
    directory holds its 400 games afterwards. *)
Theorem C77_play : forall pr ln tsum dirichlet unif tpow nanoid hash order name showf agent_one model_one agent_two model_two out c fuel r text d' r',
  play_main (G := ttt_game pr) ln tsum dirichlet unif tpow nanoid hash order name JsonModel.wr_ttt showf agent_one model_one agent_two model_two out c fuel r = Ok (text, d', r') ->
  exists p1 p2 temp m d res, out = Some (Some d) /\ parse_agent agent_one = Ok (pl_type p1) /\ parse_agent agent_two = Ok (pl_type p2)
    /\ model_one = option_map Some (pl_model p1) /\ model_two = option_map Some (pl_model p2) /\ get_float c "temperature" = Some temp /\ mcts_from_config c = Some m
    /\ play (G := ttt_game pr) ln tsum dirichlet unif (tpow temp) nanoid (mcfg_of m) hash order p1 p2 fuel r = Ok (res, r')
    /\ text = ShowModel.summary showf res
    /\ (setting (ttt_game pr) ttt_pos tsum dirichlet unif (tpow temp) (mcfg_of m) hash order p1 p2 ->
        NoDup (map (fun g => name (vg_id g)) (r_games res)) -> (forall g e, In g (r_games res) -> In e d -> fst e <> (name (vg_id g) ++ JsonModel.txt ".json")%list) ->
        forall old, JsonModel.load_all JsonModel.rd_ttt d = Some old ->
        exists l, JsonModel.load_all JsonModel.rd_ttt d' = Some l /\ Permutation l (map (JsonModel.saved name) (r_games res) ++ old) /\ length l = (400 + length old)%nat).
Proof. exact C77_play_lemma. Qed.
Print Assumptions C77_play.
Theorem C77_play_backgammon : forall pr ln tsum dirichlet unif tpow nanoid hash order name showf agent_one model_one agent_two model_two out c fuel r text d' r',
  play_main (G := bg_game pr) ln tsum dirichlet unif tpow nanoid hash order name JsonModel.wr_bg showf agent_one model_one agent_two model_two out c fuel r = Ok (text, d', r') ->
  exists p1 p2 temp m d res, out = Some (Some d) /\ parse_agent agent_one = Ok (pl_type p1) /\ parse_agent agent_two = Ok (pl_type p2)
    /\ model_one = option_map Some (pl_model p1) /\ model_two = option_map Some (pl_model p2) /\ get_float c "temperature" = Some temp /\ mcts_from_config c = Some m
    /\ play (G := bg_game pr) ln tsum dirichlet unif (tpow temp) nanoid (mcfg_of m) hash order p1 p2 fuel r = Ok (res, r')
    /\ text = ShowModel.summary showf res
    /\ (setting (bg_game pr) bg_pos tsum dirichlet unif (tpow temp) (mcfg_of m) hash order p1 p2 ->
        NoDup (map (fun g => name (vg_id g)) (r_games res)) -> (forall g e, In g (r_games res) -> In e d -> fst e <> (name (vg_id g) ++ JsonModel.txt ".json")%list) ->
        forall old, JsonModel.load_all JsonModel.rd_bg d = Some old ->
        exists l, JsonModel.load_all JsonModel.rd_bg d' = Some l /\ Permutation l (map (JsonModel.saved name) (r_games res) ++ old) /\ length l = (400 + length old)%nat).
Proof. exact C77_play_backgammon_lemma. Qed.
Print Assumptions C77_play_backgammon.
(** C77.  The searches in these games use the numbers given in the configuration. *)
Theorem C77_settings : forall c m, mcts_from_config c = Some m ->
  option_map as_usize (get_int c "iterations") = Some (k_iterations m) /\ iterations (mcfg_of m) = Z.to_nat (k_iterations m) /\
  option_map as_usize (get_int c "simulate_round_limit") = Some (k_limit m) /\ sim_limit (mcfg_of m) = Z.to_nat (k_limit m) /\
  option_map f32_of_f64 (get_float c "exploration_const") = Some (cfg_c (mcfg_of m)) /\
  option_map f32_of_f64 (get_float c "dirichlet_alpha") = Some (dir_alpha (mcfg_of m)) /\
  option_map f32_of_f64 (get_float c "dirichlet_epsilon") = Some (dir_eps (mcfg_of m)).
Proof. exact C77_settings_lemma. Qed.
Print Assumptions C77_settings.

(** a training state that records the outcomes of each batch *)
Definition rec_opt (o : f64 * f64) (w : list (list Z)) (x : tensor Z) (p : tensor f32) (v : tensor Z) : res (list (list Z)) := Ok (w ++ [data v])%list.
Definition toy (k : Z) : mem := mkMem k (mkT [2%nat] [f32_of_Z k; f1]) (mkT [1; 2]%nat [k; 7]).
Definition toy_saved (ks : list Z) : saved := match save_training_data true (map toy ks) with Ok s => s | Panic _ => mkSaved (mkT [] []) (mkT [] []) (mkT [] []) end.
Definition toy_root : FilesModel.node := data_node [("a1", [[toy_saved [1; -1]; toy_saved [0; 1; 1]]])].
Definition toy_conf (epochs : Z) : conf := mkConf (fun k => if String.eqb k "training_batch_size" then Some 2 else if String.eqb k "num_epochs" then Some epochs else Some 1) (fun _ => Some (f64_of_Z 1)).
Definition toy_file (x : f32) : NetModel.store := [("weight", mkT [1%nat] [x])].
Definition toy_train (epochs : Z) (path : option (option NetModel.store)) :=
  train_main Debug (fun _ _ => None) (list (list Z)) (fun st => map (fun _ => []) st) (fun w => map (fun b => ("batch", mkT [length b] (map f32_of_Z b))) w) rec_opt
    "tictactoe" toy_root (toy_conf epochs) (toy_file f0) path None (Some "a1") None None None rng0.
Example C77_run : match toy_train 5 (Some (Some (toy_file f1))) with
  | Ok (file, st, _) => file = "./models/tictactoe/trained_model.ot" /\ map (fun e : string * tensor f32 => shape (snd e)) st = [[0]; [2]; [2]; [1]]%nat | Panic _ => False end
  /\ toy_train 1 (Some None) = Panic PExplicit.
Proof. vm_compute. repeat split. Qed.
Example C77_hyp : readable (Some (Some (toy_file f1))) None /\ readable None None /\ ~ readable (Some None) None /\ ~ readable None (Some None)
  /\ (exists cfg, from_config (toy_conf 5) = Ok cfg) /\ exists cfg, from_config (toy_conf 1) = Ok cfg.
Proof. repeat split; try (vm_compute; discriminate); try (intros H; apply H; reflexivity); (eexists; vm_compute; reflexivity). Qed.
Example C77_learn_run : match learn_main Debug (fun _ _ => None) (list (list Z)) (fun st => []) rec_opt (fun a m w r => Ok ([mkFrag 1 [f1; f0] (mkT [1; 2]%nat [1; 7])], r)) (fun _ _ => true) (fun _ => true) (fun a m w l r => Ok r)
    (toy_conf 3) (toy_file f0) (Some (Some (toy_file f1))) None rng0 with
  | Ok (w, files, _) => w = [[1]; [1]; [1]] /\ length files = 1%nat | Panic _ => False end.
Proof. vm_compute. split; reflexivity. Qed.
(** two random agents, an empty directory *)
Definition play_conf : conf := mkConf (fun _ => Some 1) (fun k => Some (f64_of_Z (if String.eqb k "dirichlet_epsilon" then 0 else 1))).
Example C77_play_run : forall pr r, exists text d' r' l,
  play_main (G := ttt_game pr) (fun x => x) tsum0 dir0 unif0 (fun _ => pow1) JsonApi.count_id hash0 order2 JsonApi.tally JsonModel.wr_ttt (fun _ => []) (Some "Random") None (Some "RANDOM") None (Some (Some [])) play_conf 400 r = Ok (text, d', r')
  /\ JsonModel.load_all JsonModel.rd_ttt d' = Some l /\ length l = 400%nat.
Proof.
  intros pr r. destruct (JsonApi.count_match pr r) as (res & r' & E & HN).
  assert (EM : play_main (G := ttt_game pr) (fun x => x) tsum0 dir0 unif0 (fun _ => pow1) JsonApi.count_id hash0 order2 JsonApi.tally JsonModel.wr_ttt (fun _ => []) (Some "Random") None (Some "RANDOM") None (Some (Some [])) play_conf 400 r
    = Ok (ShowModel.summary (fun _ => []) res, JsonModel.save_all JsonModel.wr_ttt (map (JsonModel.saved JsonApi.tally) (r_games res)) [], r')).
  { unfold play_main. cbn [option_map]. replace (play_players (Some "Random") None (Some "RANDOM") None (Some true) play_conf) with (Ok (random_player, random_player, f64_of_Z 1, mkMctsConf 1 f1 1 f1 f0)) by (vm_compute; reflexivity).
    cbn [bind]. change (mcfg_of (mkMctsConf 1 f1 1 f1 f0)) with (cfg0 1 1). rewrite E. reflexivity. }
  destruct (JsonApi.C68_ttt_match_lemma pr _ _ _ _ _ _ _ _ _ (random_setting _ _ (ttt_match pr)) _ _ _ _ _ _ E JsonApi.tally [] [] _ HN (fun g e _ H => match H with end) eq_refl (Permutation_refl _)) as (l & El & _ & HL).
  do 3 eexists. exists l. split; [exact EM|]. split; [exact El|exact HL].
Qed.
