(** * ConfigApi: settings and command line decisions (C53, C58). *)
From Coq Require Import Permutation.
From Verif Require Import Base BaseFacts F32 Tensor GameModel McModel AlphaModel SampleModel SelfModel SelfSpec VersusModel VersusSpec VersusProof VersusApi
  TrainModel TrainSpec TrainProof TrainApi FilesModel ConfigModel.
Local Open Scope string_scope.
Local Open Scope Z_scope.

(** ** C53 *)
Theorem C53_cast_lemma : forall z, - 2 ^ 63 <= z < 2 ^ 63 -> (0 <= z -> as_usize z = z) /\ (z < 0 -> as_usize z = 2 ^ 64 + z /\ 2 ^ 63 <= as_usize z).
Proof.
  intros z Hz. unfold as_usize. split; intros H.
  - apply Z.mod_small. lia.
  - assert (E : z mod 2 ^ 64 = 2 ^ 64 + z). { symmetry. apply Z.mod_unique_pos with (-1); lia. } rewrite E. lia.
Qed.
Theorem C53_settings_lemma : forall c, (forall k z, get_int c k = Some z -> - 2 ^ 63 <= z < 2 ^ 63) ->
  (exists cfg, from_config c = Ok cfg) <->
  (forall k, In k ["iterations"; "simulate_round_limit"; "learn_iterations"; "self_play_iterations"; "num_epochs"; "training_batch_size"; "num_self_play_batches"] -> get_int c k <> None)
  /\ (forall k, In k ["exploration_const"; "dirichlet_alpha"; "dirichlet_epsilon"; "temperature"; "wd"; "lr"] -> get_float c k <> None).
Proof.
  intros c _. unfold from_config, az_from_config, mcts_from_config, op_from_config, obind. split.
  - intros [cfg H].
    destruct (get_float c "temperature") eqn:E1; [|discriminate H]. destruct (get_int c "learn_iterations") eqn:E2; [|discriminate H]. destruct (get_int c "self_play_iterations") eqn:E3; [|discriminate H].
    destruct (get_int c "num_epochs") eqn:E4; [|discriminate H]. destruct (get_int c "training_batch_size") eqn:E5; [|discriminate H]. destruct (get_int c "num_self_play_batches") eqn:E6; [|discriminate H].
    destruct (get_int c "iterations") eqn:E7; [|discriminate H]. destruct (get_float c "exploration_const") eqn:E8; [|discriminate H]. destruct (get_int c "simulate_round_limit") eqn:E9; [|discriminate H].
    destruct (get_float c "dirichlet_alpha") eqn:E10; [|discriminate H]. destruct (get_float c "dirichlet_epsilon") eqn:E11; [|discriminate H]. destruct (get_float c "wd") eqn:E12; [|discriminate H]. destruct (get_float c "lr") eqn:E13; [|discriminate H].
    split; intros k Hk; cbn in Hk; repeat (destruct Hk as [<-|Hk]; [congruence|]); contradiction.
  - intros [HI HF].
    assert (GI : forall k, In k ["iterations"; "simulate_round_limit"; "learn_iterations"; "self_play_iterations"; "num_epochs"; "training_batch_size"; "num_self_play_batches"] -> exists z, get_int c k = Some z).
    { intros k Hk. specialize (HI k Hk). destruct (get_int c k) as [z|]; [exists z; reflexivity|contradiction]. }
    assert (GF : forall k, In k ["exploration_const"; "dirichlet_alpha"; "dirichlet_epsilon"; "temperature"; "wd"; "lr"] -> exists z, get_float c k = Some z).
    { intros k Hk. specialize (HF k Hk). destruct (get_float c k) as [z|]; [exists z; reflexivity|contradiction]. }
    destruct (GF "temperature" ltac:(cbn; tauto)) as [? ->]. destruct (GI "learn_iterations" ltac:(cbn; tauto)) as [? ->]. destruct (GI "self_play_iterations" ltac:(cbn; tauto)) as [? ->].
    destruct (GI "num_epochs" ltac:(cbn; tauto)) as [? ->]. destruct (GI "training_batch_size" ltac:(cbn; tauto)) as [? ->]. destruct (GI "num_self_play_batches" ltac:(cbn; tauto)) as [? ->].
    destruct (GI "iterations" ltac:(cbn; tauto)) as [? ->]. destruct (GF "exploration_const" ltac:(cbn; tauto)) as [? ->]. destruct (GI "simulate_round_limit" ltac:(cbn; tauto)) as [? ->].
    destruct (GF "dirichlet_alpha" ltac:(cbn; tauto)) as [? ->]. destruct (GF "dirichlet_epsilon" ltac:(cbn; tauto)) as [? ->]. destruct (GF "wd" ltac:(cbn; tauto)) as [? ->]. destruct (GF "lr" ltac:(cbn; tauto)) as [? ->].
    eexists. reflexivity.
Qed.
(** which setting ends up where *)
Theorem C53_values_lemma : forall c a m o, from_config c = Ok (a, m, o) ->
  get_float c "temperature" = Some (k_temp a)
  /\ (forall f key, In (f, key) [(k_learn a, "learn_iterations"); (k_self a, "self_play_iterations"); (k_epochs a, "num_epochs"); (k_batch a, "training_batch_size"); (k_games a, "num_self_play_batches");
                                 (k_iterations m, "iterations"); (k_limit m, "simulate_round_limit")] -> exists z, get_int c key = Some z /\ f = z mod 2 ^ 64)
  /\ (forall f key, In (f, key) [(k_c m, "exploration_const"); (k_alpha m, "dirichlet_alpha"); (k_eps m, "dirichlet_epsilon")] -> exists x, get_float c key = Some x /\ f = f32_of_f64 x)
  /\ get_float c "wd" = Some (fst o) /\ get_float c "lr" = Some (snd o).
Proof.
  intros c a m o H. unfold from_config, az_from_config, mcts_from_config, op_from_config, obind in H.
    destruct (get_float c "temperature") eqn:E1; [|discriminate H]. destruct (get_int c "learn_iterations") eqn:E2; [|discriminate H]. destruct (get_int c "self_play_iterations") eqn:E3; [|discriminate H].
    destruct (get_int c "num_epochs") eqn:E4; [|discriminate H]. destruct (get_int c "training_batch_size") eqn:E5; [|discriminate H]. destruct (get_int c "num_self_play_batches") eqn:E6; [|discriminate H].
    destruct (get_int c "iterations") eqn:E7; [|discriminate H]. destruct (get_float c "exploration_const") eqn:E8; [|discriminate H]. destruct (get_int c "simulate_round_limit") eqn:E9; [|discriminate H].
    destruct (get_float c "dirichlet_alpha") eqn:E10; [|discriminate H]. destruct (get_float c "dirichlet_epsilon") eqn:E11; [|discriminate H]. destruct (get_float c "wd") eqn:E12; [|discriminate H]. destruct (get_float c "lr") eqn:E13; [|discriminate H].
  injection H as <- <- <-. cbn [k_temp k_learn k_self k_epochs k_batch k_games k_iterations k_limit k_c k_alpha k_eps fst snd]. repeat split.
  - intros fv key Hin. cbn in Hin. repeat (destruct Hin as [E|Hin]; [injection E as <- <-; eexists; split; [eassumption|reflexivity]|]). contradiction.
  - intros fv key Hin. cbn in Hin. repeat (destruct Hin as [E|Hin]; [injection E as <- <-; eexists; split; [eassumption|reflexivity]|]). contradiction.
Qed.
(** a negative batch size: no error, but one batch with all the data *)
Theorem C53_negative_batch_lemma : forall z, - 2 ^ 63 <= z < 0 -> forall pr W optimise (w : W) memory r, memory <> [] -> Z.of_nat (length memory) < 2 ^ 63 ->
  exists b r', Permutation b memory
    /\ train pr W optimise (as_usize z) w memory r = ('(x, p, o) <- batch_tensors b ;; w' <- optimise w x p o ;; Ok (w', b, r')).
Proof.
  intros z Hz pr W optimise w memory r Hne Hlen. destruct (C53_cast_lemma z ltac:(lia)) as [_ H]. destruct (H ltac:(lia)) as [E Hbig].
  destruct (C48_batches_lemma pr W optimise (as_usize z) w memory r ltac:(lia) Hlen) as (batches & r' & Hc & HP & Et).
  assert (Hone : exists b, batches = [b]).
  { destruct Hc as [|b Hb Hl|b bb Hb Hbb Hc]; [exfalso; apply Hne; apply Permutation_nil; exact HP|exists b; reflexivity|].
    exfalso. cbn [concat] in HP. apply Permutation_length in HP. rewrite app_length, Hb in HP. lia. }
  destruct Hone as [b ->]. exists b, r'. cbn [concat] in *. rewrite app_nil_r in *. split; [exact HP|]. rewrite Et. cbn [mfold]. destruct (batch_tensors b) as [[[x p] o]|e]; [|reflexivity]. cbn [bind]. destruct (optimise w x p o); reflexivity.
Qed.
(** the data directory asked for *)
Theorem C53_train_args_lemma : forall id l sp,
  (exists p, data_path id l sp = Ok p) <-> (l <> None -> id <> None) /\ (sp <> None -> l <> None).
Proof.
  intros [id|] [l|] [sp|]; cbn [data_path]; split; try (intros _; split; congruence); try (intros _; eexists; reflexivity); try (intros [p H]; discriminate H); intros [H1 H2]; exfalso; try (apply H1; congruence); try (apply H2; congruence).
Qed.
(** processors *)
Theorem C53_cpus_lemma : forall arg dev, 1 <= dev -> (forall n, arg = Some n -> 0 <= n) ->
  ((exists p, n_cpus arg dev = Panic p) <-> exists n, arg = Some n /\ dev < n)
  /\ forall n, n_cpus arg dev = Ok n -> (arg = None -> n = dev / 2) /\ (forall k, arg = Some k -> n = k) /\ 1 <= threads n dev <= dev.
Proof.
  intros arg dev Hd Ha. unfold n_cpus, threads. destruct arg as [k|].
  - specialize (Ha k eq_refl). destruct (dev <? k) eqn:E.
    + apply Z.ltb_lt in E. split; [split; [intros _; exists k; auto|intros _; exists PExplicit; reflexivity]|]. intros n H. discriminate H.
    + apply Z.ltb_ge in E. split; [split; [intros [p H]; discriminate H|intros (n & Hn & Hlt); injection Hn as <-; lia]|]. intros n H. injection H as <-. split; [discriminate|]. split; [intros k' H; congruence|].
      destruct (k =? 0) eqn:E0; [lia|]. apply Z.eqb_neq in E0. lia.
  - split; [split; [intros [p H]; discriminate H|intros (n & Hn & _); discriminate Hn]|]. intros n H. injection H as <-. split; [reflexivity|]. split; [discriminate|].
    assert (0 <= dev / 2 <= dev) by (split; [apply Z.div_pos; lia|apply Z.div_le_upper_bound; lia]). destruct (dev / 2 =? 0) eqn:E0; [lia|]. apply Z.eqb_neq in E0. lia.
Qed.
(** agents are named up to ASCII case *)
Lemma agents_lowered : forall arg a, parse_agent arg = Ok a <->
  exists s, arg = Some s /\ ((a = AModel /\ to_ascii_lowercase s = "model") \/ (a = AMcts /\ to_ascii_lowercase s = "mcts") \/ (a = ARandom /\ to_ascii_lowercase s = "random")).
Proof.
  intros arg a. unfold parse_agent. destruct arg as [s|]; [|split; [discriminate|intros (s & H & _); discriminate H]].
  destruct (String.eqb_spec (to_ascii_lowercase s) "model") as [E|N1].
  { split; [intros H; injection H as <-; exists s; auto|]. intros (s' & H & [[-> _]|[[_ E']|[_ E']]]); [reflexivity|..]; injection H as <-; congruence. }
  destruct (String.eqb_spec (to_ascii_lowercase s) "mcts") as [E|N2].
  { split; [intros H; injection H as <-; exists s; auto|]. intros (s' & H & [[_ E']|[[-> _]|[_ E']]]); [|reflexivity|]; injection H as <-; congruence. }
  destruct (String.eqb_spec (to_ascii_lowercase s) "random") as [E|N3].
  { split; [intros H; injection H as <-; exists s; auto|]. intros (s' & H & [[_ E']|[[_ E']|[-> _]]]); [| |reflexivity]; injection H as <-; congruence. }
  split; [discriminate|]. intros (s' & H & [[_ E']|[[_ E']|[_ E']]]); injection H as <-; congruence.
Qed.
Lemma lower_upper : forall c, lower (lower c) = lower c /\ (forall k, (k < 26)%N -> c = ascii_of_N (65 + k) -> lower c = ascii_of_N (97 + k)).
Proof.
  intros c. split.
  - destruct c as [[] [] [] [] [] [] [] []]; reflexivity.
  - intros k Hk ->. assert (Hall : forallb (fun k => Ascii.eqb (lower (ascii_of_N (65 + k))) (ascii_of_N (97 + k))) (map N.of_nat (seq 0 26)) = true) by reflexivity.
    rewrite forallb_forall in Hall. apply Ascii.eqb_eq, Hall. apply in_map_iff. exists (N.to_nat k). split; [lia|]. apply in_seq. lia.
Qed.

(** ** C58: a model agent without a model file *)
Lemma bind_ok' (A B : Type) (e : res A) (k : A -> res B) v : bind e k = Ok v -> exists a, e = Ok a /\ k a = Ok v.
Proof. destruct e as [a|p]; [exists a; auto|discriminate]. Qed.
Theorem C58_no_model_lemma : forall G I, match_game (G := G) I ->
  forall ln tsum dirichlet unif tpow nanoid cfg hash order, (forall j l, Permutation (hash j l) l) ->
  forall p1 p2, (pl_type p1 = AModel /\ pl_model p1 = None) \/ (pl_type p2 = AModel /\ pl_model p2 = None) ->
  forall fuel r, exists p, play (G := G) ln tsum dirichlet unif tpow nanoid cfg hash order p1 p2 fuel r = Panic p.
Proof.
  intros G I HM ln tsum dir unif tpow nanoid cfg hash order HH p1 p2 Hp fuel r.
  destruct (play ln tsum dir unif tpow nanoid cfg hash order p1 p2 fuel r) as [x|p] eqn:E; [exfalso|exists p; reflexivity].
  unfold play in E. apply bind_ok' in E. destruct E as (a & Ea & E). apply bind_ok' in E. destruct E as (b & Eb & _).
  unfold vs_start in Ea. destruct (first_games_ok G I HM nanoid (pl_type p1) (pl_type p2) num_games 0 r) as (l & r' & El & HF). rewrite El in Ea. cbn [bind] in Ea. injection Ea as <-.
  assert (Hplayer : forall i, (i < 400)%nat -> exists e, In e l /\ g_player G (fst (snd e)) = if (i <? 200)%nat then -1 else 1).
  { intros i Hi. destruct (Forall2_nth_l _ _ _ _ _ i i HF) as (e & He & _ & _ & _ & _ & idn & ra & rb & _ & Hfs).
    - unfold num_games. rewrite nth_error_nth' with (d := 0%nat) by (rewrite seq_length; exact Hi). rewrite seq_nth by exact Hi. reflexivity.
    - exists e. split; [eapply nth_error_In; exact He|]. destruct (mg_first _ _ HM i ra) as (s & rc & Hs & _ & _ & _ & Hpl). rewrite Hfs in Hs. injection Hs as <- _. exact Hpl. }
  destruct fuel as [|fuel]; cbn [vs_loop s_games] in Eb.
  { destruct (Hplayer 0%nat ltac:(lia)) as (e & He & _). destruct l; [contradiction|discriminate Eb]. }
  destruct l as [|e0 l0] eqn:El'; [destruct (Hplayer 0%nat ltac:(lia)) as (e & He & _); contradiction|]. rewrite <- El' in *. apply bind_ok' in Eb. destruct Eb as (a1 & Er & _).
  unfold vs_round in Er. cbn [s_games s_rng] in Er. set (states := map (fun e => fst (snd e)) (hash 0%nat l)) in *.
  assert (Hin : forall e, In e l -> In (fst (snd e)) states).
  { intros e He. unfold states. apply in_map_iff. exists e. split; [reflexivity|]. apply (Permutation_in _ (Permutation_sym (HH 0%nat l))), He. }
  apply bind_ok' in Er. destruct Er as ([acts1 r1] & E1 & Er). apply bind_ok' in Er. destruct Er as ([acts2 r2] & E2 & _).
  destruct Hp as [[Ht Hm]|[Ht Hm]].
  - destruct (Hplayer 0%nat ltac:(lia)) as (e & He & Hpl). cbn [Nat.ltb Nat.leb] in Hpl.
    assert (Hf : In (fst (snd e)) (filter (fun s => g_player G s =? -1) states)) by (apply filter_In; split; [apply Hin, He|apply Z.eqb_eq, Hpl]).
    destruct (filter (fun s => g_player G s =? -1) states) as [|s ss]; [contradiction|]. cbn [get_actions_for_player] in E1. unfold get_actions_for_player in E1. rewrite Ht, Hm in E1. discriminate E1.
  - destruct (Hplayer 399%nat ltac:(lia)) as (e & He & Hpl). replace (399 <? 200)%nat with false in Hpl by (symmetry; apply Nat.ltb_ge; lia).
    assert (Hf : In (fst (snd e)) (filter (fun s => negb (g_player G s =? -1)) states)) by (apply filter_In; split; [apply Hin, He|rewrite Hpl; reflexivity]).
    destruct (filter (fun s => negb (g_player G s =? -1)) states) as [|s ss]; [contradiction|]. unfold get_actions_for_player in E2. rewrite Ht, Hm in E2. discriminate E2.
Qed.
(** the play command does not notice the missing path *)
Theorem C58_command_lemma : forall agent_one agent_two model_one model_two is_dir c p1 p2 t m,
  play_players agent_one model_one agent_two model_two is_dir c = Ok (p1, p2, t, m) ->
  parse_agent agent_one = Ok (pl_type p1) /\ parse_agent agent_two = Ok (pl_type p2) /\ is_dir = Some true
  /\ model_one = option_map Some (pl_model p1) /\ model_two = option_map Some (pl_model p2) /\ get_float c "temperature" = Some t /\ mcts_from_config c = Some m.
Proof.
  intros a1 a2 m1 m2 d c p1 p2 t m H. unfold play_players in H. destruct (parse_agent a1) as [x1|]; [|discriminate H]. destruct (parse_agent a2) as [x2|]; [|discriminate H]. destruct d as [[|]|]; try discriminate H.
  cbn [bind] in H. destruct m1 as [[n1|]|]; try discriminate H; destruct m2 as [[n2|]|]; try discriminate H; cbn [bind] in H; destruct (get_float c "temperature") as [t'|]; try discriminate H; cbn [bind] in H;
    destruct (mcts_from_config c) as [mm|]; try discriminate H; injection H as <- <- <- <-; repeat split.
Qed.
