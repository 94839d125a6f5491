(** * CommandApi: the commands as a whole (C77). *)
From Coq Require Import Permutation.
From Verif Require Import Base BaseFacts F32 Tensor TttModel TttSpec BgModel BgSpec BgReach GameModel McModel GameFacts AlphaModel SelfModel VersusModel VersusSpec VersusApi
  TrainModel TrainSpec TrainProof TrainApi TrainLoop FilesModel FilesSpec FilesApi NetModel ConfigModel ConfigSpec ConfigApi ConfigNum CommandModel CommandSpec.
From Verif Require JsonModel JsonApi ShowModel.
Local Open Scope string_scope.
Local Open Scope Z_scope.

Lemma new_readable broadcast reqs path best : readable path best -> alphazero_new broadcast reqs path best = Ok (add_all [] reqs).
Proof. unfold readable, alphazero_new. destruct path as [[f|]|]; [reflexivity|intros H; contradiction|]. destruct best as [[f|]|]; [reflexivity|intros H; contradiction|reflexivity]. Qed.
Lemma new_unreadable broadcast reqs path best : ~ readable path best -> alphazero_new broadcast reqs path best = Panic PExplicit.
Proof. unfold readable, alphazero_new. destruct path as [[f|]|]; [intros H; exfalso; apply H; discriminate|reflexivity|]. destruct best as [[f|]|]; [intros H; exfalso; apply H; discriminate|reflexivity|intros H; exfalso; apply H; discriminate]. Qed.
Lemma az_same broadcast W init c reqs path best path' best' : readable path best -> readable path' best' ->
  az_from broadcast W init c reqs path best = az_from broadcast W init c reqs path' best'.
Proof. intros H H'. unfold az_from. rewrite !new_readable by assumption. reflexivity. Qed.

Theorem C77_model_ignored_lemma : forall pr broadcast W init weights optimise c reqs path best path' best', readable path best -> readable path' best' ->
  (forall game root run_id learn self_play out r,
     train_main pr broadcast W init weights optimise game root c reqs path best run_id learn self_play out r
     = train_main pr broadcast W init weights optimise game root c reqs path' best' run_id learn self_play out r)
  /\ (forall self_play mkdir no_nan gate r,
     learn_main pr broadcast W init optimise self_play mkdir no_nan gate c reqs path best r = learn_main pr broadcast W init optimise self_play mkdir no_nan gate c reqs path' best' r).
Proof.
  intros pr broadcast W init weights optimise c reqs path best path' best' H H'. split; intros; unfold train_main, learn_main; rewrite (az_same _ _ _ _ _ _ _ _ _ H H'); reflexivity.
Qed.
Lemma az_unreadable broadcast W init c reqs path best : ~ readable path best -> exists p, az_from broadcast W init c reqs path best = Panic p.
Proof. intros H. unfold az_from. destruct (from_config c) as [[[a m] o]|p]; cbn [bind]; [|eauto]. rewrite (new_unreadable _ _ _ _ H). cbn [bind]. eauto. Qed.
Theorem C77_unreadable_lemma : forall pr broadcast W init weights optimise c reqs path best, ~ readable path best ->
  (forall game root run_id learn self_play out r, exists p, train_main pr broadcast W init weights optimise game root c reqs path best run_id learn self_play out r = Panic p)
  /\ (forall self_play mkdir no_nan gate r, exists p, learn_main pr broadcast W init optimise self_play mkdir no_nan gate c reqs path best r = Panic p).
Proof.
  intros pr broadcast W init weights optimise c reqs path best H. destruct (az_unreadable broadcast W init c reqs path best H) as [q E]. split; intros; unfold train_main, learn_main; rewrite E.
  - destruct (data_path run_id learn self_play) as [p|]; cbn [bind]; [|eauto]. destruct (open_path root p) as [n|]; [|eauto]. destruct (get_all_paths_rec p n []) as [ps ok].
    destruct (mmap (load_path root) ps); cbn [bind]; eauto.
  - cbn [bind]. eauto.
Qed.

Lemma az_ok broadcast W init c reqs path best a m o w : az_from broadcast W init c reqs path best = Ok (a, m, o, w) ->
  from_config c = Ok (a, m, o) /\ readable path best /\ w = init (add_all [] reqs).
Proof.
  intros E. unfold az_from in E. destruct (from_config c) as [[[a' m'] o']|]; [|discriminate E]. cbn [bind] in E.
  assert (HR : readable path best).
  { unfold readable, alphazero_new in *. destruct path as [[f|]|]; [discriminate|discriminate E|]. destruct best as [[f|]|]; [discriminate|discriminate E|discriminate]. }
  rewrite (new_readable _ _ _ _ HR) in E. cbn [bind] in E. injection E as <- <- <- <-. auto.
Qed.
(** what the train command does *)
Theorem C77_train_lemma : forall pr broadcast W init weights optimise game root c reqs path best run_id learn self_play out r file st r',
  train_main pr broadcast W init weights optimise game root c reqs path best run_id learn self_play out r = Ok (file, st, r') ->
  (out = None -> file = "./models/" ++ game ++ "/trained_model.ot") /\ (forall f, out = Some f -> file = f)
  /\ exists p n wd lr z, data_path run_id learn self_play = Ok p /\ open_path root p = Some n
    /\ get_float c "wd" = Some wd /\ get_float c "lr" = Some lr /\ get_int c "training_batch_size" = Some z
    /\ (tree n -> listable n -> exists ps datas, NoDup ps /\ (forall q, In q ps <-> outermost_sp n q) /\ mmap (fun q => load_path root (p ++ q)%list) ps = Ok datas
         /\ (Z.of_nat (length (concat datas)) < 2 ^ 63 ->
              exists batches w', cut (Z.to_nat (z mod 2 ^ 64)) batches /\ Permutation (concat batches) (concat datas)
                /\ mfold (fun w b => '(x, t, v) <- batch_tensors b ;; optimise (wd, lr) w x t v) batches (init (add_all [] reqs)) = Ok w' /\ st = weights w')).
Proof.
  intros pr broadcast W init weights optimise game root c reqs path best run_id learn self_play out r file st r' E. unfold train_main in E.
  apply bind_ok in E. destruct E as (p & Ep & E). destruct (open_path root p) as [n|] eqn:En; [|discriminate E]. destruct (get_all_paths_rec p n []) as [qs ok] eqn:Eq.
  apply bind_ok in E. destruct E as (datas & Ed & E). apply bind_ok in E. destruct E as ([[[a m] o] w] & Ea & E). apply bind_ok in E. destruct E as ([[w' sh] r1] & Et & E). injection E as <- <- <-.
  destruct (az_ok _ _ _ _ _ _ _ _ _ _ _ Ea) as (Ec & _ & ->). destruct (C53_values_lemma c a m o Ec) as (_ & HZ & _ & Hwd & Hlr). destruct o as [wd lr]. cbn [fst snd] in *.
  destruct (HZ (k_batch a) "training_batch_size" ltac:(cbn; tauto)) as (z & Hz & Hb).
  split; [intros ->; reflexivity|]. split; [intros f ->; reflexivity|]. exists p, n, wd, lr, z. repeat (split; [assumption|]).
  intros HT HL. destruct (C51_found_lemma n p HT HL) as (ps & Eps & HN & Hps). rewrite Eq in Eps. injection Eps as -> ->. exists ps, datas. split; [exact HN|]. split; [exact Hps|].
  split. { clear - Ed. revert datas Ed. induction ps as [|q ps IH]; intros datas Ed; [exact Ed|]. cbn [map mmap] in *. destruct (load_path root (p ++ q)%list) as [d|]; [|discriminate Ed]. cbn [bind] in *.
    apply bind_ok in Ed. destruct Ed as (ds & E1 & E2). rewrite (IH ds E1). exact E2. }
  intros Hlen. assert (Hbs : k_batch a <> 0) by (intros H0; rewrite H0, C48_zero_lemma in Et; discriminate Et).
  assert (Hbs' : 1 <= k_batch a < 2 ^ 64) by (rewrite Hb in *; pose proof (Z.mod_pos_bound z (2 ^ 64) ltac:(lia)); lia).
  destruct (C48_batches_lemma pr W (optimise (wd, lr)) (k_batch a) (init (add_all [] reqs)) (concat datas) r Hbs' Hlen) as (batches & r2 & Hc & HP & Etr).
  rewrite Etr in Et. apply bind_ok in Et. destruct Et as (w2 & Ew & Et). injection Et as -> <- <-. exists batches, w'. rewrite <- Hb. auto.
Qed.
(** the settings that matter to it *)
Theorem C77_train_settings_lemma : forall pr broadcast W init weights optimise c c' cfg cfg', from_config c = Ok cfg -> from_config c' = Ok cfg' ->
  get_int c "training_batch_size" = get_int c' "training_batch_size" -> get_float c "wd" = get_float c' "wd" -> get_float c "lr" = get_float c' "lr" ->
  forall game root reqs path best run_id learn self_play out r,
  train_main pr broadcast W init weights optimise game root c reqs path best run_id learn self_play out r
  = train_main pr broadcast W init weights optimise game root c' reqs path best run_id learn self_play out r.
Proof.
  intros pr broadcast W init weights optimise c c' [[a m] o] [[a' m'] o'] Ec Ec' Hb Hw Hl game root reqs path best run_id learn self_play out r.
  destruct (C53_values_lemma c a m o Ec) as (_ & HZ & _ & Hwd & Hlr). destruct (C53_values_lemma c' a' m' o' Ec') as (_ & HZ' & _ & Hwd' & Hlr').
  destruct (HZ (k_batch a) "training_batch_size" ltac:(cbn; tauto)) as (z & Hz & Hba). destruct (HZ' (k_batch a') "training_batch_size" ltac:(cbn; tauto)) as (z' & Hz' & Hba').
  assert (Eb : k_batch a = k_batch a') by congruence. assert (Eo : o = o') by (destruct o, o'; cbn [fst snd] in *; congruence).
  unfold train_main, az_from. rewrite Ec, Ec'. cbn [bind]. subst o'. destruct (data_path run_id learn self_play) as [p|]; [|reflexivity]. cbn [bind]. destruct (open_path root p) as [n|]; [|reflexivity].
  destruct (get_all_paths_rec p n []) as [ps ok]. destruct (mmap (load_path root) ps); [|reflexivity]. cbn [bind]. destruct (alphazero_new broadcast reqs path best); [|reflexivity]. cbn [bind]. rewrite Eb. reflexivity.
Qed.
(** what the learn command does *)
Theorem C77_learn_lemma : forall pr broadcast W init optimise self_play mkdir no_nan gate c reqs path best r w' files r',
  learn_main pr broadcast W init optimise self_play mkdir no_nan gate c reqs path best r = Ok (w', files, r') ->
  readable path best /\ exists a m wd lr zl zs ze zb, from_config c = Ok (a, m, (wd, lr)) /\ get_float c "wd" = Some wd /\ get_float c "lr" = Some lr
    /\ get_int c "learn_iterations" = Some zl /\ get_int c "self_play_iterations" = Some zs /\ get_int c "num_epochs" = Some ze /\ get_int c "training_batch_size" = Some zb
    /\ (zb mod 2 ^ 64 <> 0 -> exists ws : list W, length ws = S (Z.to_nat (zl mod 2 ^ 64)) /\ nth_error ws 0 = Some (init (add_all [] reqs)) /\ nth_error ws (Z.to_nat (zl mod 2 ^ 64)) = Some w'
          /\ forall l wl wl', (l < Z.to_nat (zl mod 2 ^ 64))%nat -> nth_error ws l = Some wl -> nth_error ws (S l) = Some wl' ->
               learned (optimise (wd, lr)) (self_play a m) (Z.to_nat (zs mod 2 ^ 64)) (Z.to_nat (ze mod 2 ^ 64)) (Z.to_nat (zb mod 2 ^ 64)) wl wl'
               /\ no_nan wl' = true /\ exists ra rb, gate a m wl' l ra = Ok rb).
Proof.
  intros pr broadcast W init optimise self_play mkdir no_nan gate c reqs path best r w' files r' E. unfold learn_main in E.
  apply bind_ok in E. destruct E as ([[[a m] o] w] & Ea & E). destruct (az_ok _ _ _ _ _ _ _ _ _ _ _ Ea) as (Ec & HR & ->). split; [exact HR|].
  destruct (C53_values_lemma c a m o Ec) as (_ & HZ & _ & Hwd & Hlr). destruct o as [wd lr]. cbn [fst snd] in *.
  destruct (HZ (k_batch a) "training_batch_size" ltac:(cbn; tauto)) as (zb & Hzb & Hb). destruct (HZ (k_learn a) "learn_iterations" ltac:(cbn; tauto)) as (zl & Hzl & Hl).
  destruct (HZ (k_self a) "self_play_iterations" ltac:(cbn; tauto)) as (zs & Hzs & Hs). destruct (HZ (k_epochs a) "num_epochs" ltac:(cbn; tauto)) as (ze & Hze & He).
  exists a, m, wd, lr, zl, zs, ze, zb. repeat (split; [assumption|]). intros Hne.
  rewrite Hb, Hl, Hs, He in E. pose proof (Z.mod_pos_bound zb (2 ^ 64) ltac:(lia)) as Hm.
  assert (Hm1 : 1 <= zb mod 2 ^ 64 < 2 ^ 64) by lia. exact (C63_parallel_lemma pr W (optimise (wd, lr)) (self_play a m) mkdir no_nan (gate a m) _ _ _ _ _ _ _ _ _ Hm1 E).
Qed.

(** ** play *)
Theorem C77_play_lemma : forall pr ln tsum dirichlet unif tpow nanoid hash order name showf agent_one model_one agent_two model_two out c fuel r text d' r',
  play_main (G := ttt_game pr) ln tsum dirichlet unif tpow nanoid hash order name JsonModel.wr_ttt showf agent_one model_one agent_two model_two out c fuel r = Ok (text, d', r') ->
  exists p1 p2 temp m d res, out = Some (Some d) /\ parse_agent agent_one = Ok (pl_type p1) /\ parse_agent agent_two = Ok (pl_type p2)
    /\ model_one = option_map Some (pl_model p1) /\ model_two = option_map Some (pl_model p2) /\ get_float c "temperature" = Some temp /\ mcts_from_config c = Some m
    /\ play (G := ttt_game pr) ln tsum dirichlet unif (tpow temp) nanoid (mcfg_of m) hash order p1 p2 fuel r = Ok (res, r')
    /\ text = ShowModel.summary showf res
    /\ (setting (ttt_game pr) ttt_pos tsum dirichlet unif (tpow temp) (mcfg_of m) hash order p1 p2 ->
        NoDup (map (fun g => name (vg_id g)) (r_games res)) -> (forall g e, In g (r_games res) -> In e d -> fst e <> (name (vg_id g) ++ JsonModel.txt ".json")%list) ->
        forall old, JsonModel.load_all JsonModel.rd_ttt d = Some old ->
        exists l, JsonModel.load_all JsonModel.rd_ttt d' = Some l /\ Permutation l (map (JsonModel.saved name) (r_games res) ++ old) /\ length l = (400 + length old)%nat).
Proof.
  intros pr ln tsum dir unif tpow nanoid hash order name showf a1 m1 a2 m2 out c fuel r text d' r' E. unfold play_main in E. apply bind_ok in E. destruct E as ([[[p1 p2] temp] m] & Ep & E).
  destruct (C58_command_lemma _ _ _ _ _ _ _ _ _ _ Ep) as (H1 & H2 & _ & H3 & H4 & H5 & H6). destruct out as [[d|]|]; try discriminate E.
  apply bind_ok in E. destruct E as ([res r1] & Er & E). injection E as <- <- <-. exists p1, p2, temp, m, d, res. repeat (split; [first [reflexivity|assumption]|]).
  intros HS HN Hd old Ho. exact (JsonApi.C68_ttt_match_lemma pr tsum dir unif (tpow temp) (mcfg_of m) hash order p1 p2 HS ln nanoid fuel r res r1 Er name d old _ HN Hd Ho (Permutation_refl _)).
Qed.
Theorem C77_play_backgammon_lemma : forall pr ln tsum dirichlet unif tpow nanoid hash order name showf agent_one model_one agent_two model_two out c fuel r text d' r',
  play_main (G := bg_game pr) ln tsum dirichlet unif tpow nanoid hash order name JsonModel.wr_bg showf agent_one model_one agent_two model_two out c fuel r = Ok (text, d', r') ->
  exists p1 p2 temp m d res, out = Some (Some d) /\ parse_agent agent_one = Ok (pl_type p1) /\ parse_agent agent_two = Ok (pl_type p2)
    /\ model_one = option_map Some (pl_model p1) /\ model_two = option_map Some (pl_model p2) /\ get_float c "temperature" = Some temp /\ mcts_from_config c = Some m
    /\ play (G := bg_game pr) ln tsum dirichlet unif (tpow temp) nanoid (mcfg_of m) hash order p1 p2 fuel r = Ok (res, r')
    /\ text = ShowModel.summary showf res
    /\ (setting (bg_game pr) bg_pos tsum dirichlet unif (tpow temp) (mcfg_of m) hash order p1 p2 ->
        NoDup (map (fun g => name (vg_id g)) (r_games res)) -> (forall g e, In g (r_games res) -> In e d -> fst e <> (name (vg_id g) ++ JsonModel.txt ".json")%list) ->
        forall old, JsonModel.load_all JsonModel.rd_bg d = Some old ->
        exists l, JsonModel.load_all JsonModel.rd_bg d' = Some l /\ Permutation l (map (JsonModel.saved name) (r_games res) ++ old) /\ length l = (400 + length old)%nat).
Proof.
  intros pr ln tsum dir unif tpow nanoid hash order name showf a1 m1 a2 m2 out c fuel r text d' r' E. unfold play_main in E. apply bind_ok in E. destruct E as ([[[p1 p2] temp] m] & Ep & E).
  destruct (C58_command_lemma _ _ _ _ _ _ _ _ _ _ Ep) as (H1 & H2 & _ & H3 & H4 & H5 & H6). destruct out as [[d|]|]; try discriminate E.
  apply bind_ok in E. destruct E as ([res r1] & Er & E). injection E as <- <- <-. exists p1, p2, temp, m, d, res. repeat (split; [first [reflexivity|assumption]|]).
  intros HS HN Hd old Ho. exact (JsonApi.C68_bg_match_lemma pr tsum dir unif (tpow temp) (mcfg_of m) hash order p1 p2 HS ln nanoid fuel r res r1 Er name d old _ HN Hd Ho (Permutation_refl _)).
Qed.
Lemma C77_settings_lemma : forall c m, mcts_from_config c = Some m ->
  option_map as_usize (get_int c "iterations") = Some (k_iterations m) /\ iterations (mcfg_of m) = Z.to_nat (k_iterations m) /\
  option_map as_usize (get_int c "simulate_round_limit") = Some (k_limit m) /\ sim_limit (mcfg_of m) = Z.to_nat (k_limit m) /\
  option_map f32_of_f64 (get_float c "exploration_const") = Some (cfg_c (mcfg_of m)) /\
  option_map f32_of_f64 (get_float c "dirichlet_alpha") = Some (dir_alpha (mcfg_of m)) /\
  option_map f32_of_f64 (get_float c "dirichlet_epsilon") = Some (dir_eps (mcfg_of m)).
Proof.
  intros c m. unfold mcts_from_config. destruct (get_int c "iterations"); [|discriminate]. destruct (get_float c "exploration_const"); [|discriminate].
  destruct (get_int c "simulate_round_limit"); [|discriminate]. destruct (get_float c "dirichlet_alpha"); [|discriminate]. destruct (get_float c "dirichlet_epsilon"); [|discriminate].
  intros [= <-]. repeat split.
Qed.
