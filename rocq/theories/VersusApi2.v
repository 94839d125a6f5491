(** * VersusApi2: endless matches, recorded games and the gate. *)
From Coq Require Import Permutation.
From Verif Require Import Base BaseFacts F32 Tensor TttModel BgModel GameModel GameFacts McModel McSpec AlphaModel AlphaSpec AlphaInst SampleModel SelfSpec
  VisitSpec VersusModel VersusSpec VersusProof VersusApi VersusStuck GateModel Witness.

(** ** C41: matches that never end *)
Definition order2 (j : nat) (b : bool) (n : nat) : list nat := seq 0 n.
Lemma random_setting G I : match_game I -> setting G I tsum0 dir0 unif0 pow1 (cfg0 1 1) hash0 order2 random_player random_player.
Proof.
  intros HM. constructor.
  - exact HM.
  - apply tsum0_ok.
  - apply dir0_len.
  - apply unif0_ok.
  - apply pow1_ok.
  - reflexivity.
  - cbn. lia.
  - cbn. lia.
  - intros j l. apply Permutation_refl.
  - intros j b n. apply Permutation_refl.
  - split; discriminate.
  - split; discriminate.
Qed.
Theorem C41_endless_lemma : forall pr fuel, play (G := bg_game pr) (fun x => x) tsum0 dir0 unif0 pow1 nano0 (cfg0 1 1) hash0 order2 random_player random_player fuel rng_stuck = Panic PFuel
  \/ (pr = Debug /\ 2 ^ 31 <= Z.of_nat fuel).
Proof.
  intros pr fuel. destruct (play _ _ _ _ _ _ _ _ _ _ _ fuel rng_stuck) as [x|p] eqn:E; [exfalso; revert E; apply never_ends|].
  destruct (C55_no_panic_lemma _ _ _ _ _ _ _ _ _ _ _ (random_setting _ _ (bg_match pr)) _ _ _ _ _ E) as [->|[(_ & [H|H] & _)|(_ & H1 & H2)]]; [auto|discriminate..|].
  right. split; [exact H1|exact H2].
Qed.
Theorem C41_limit_refuted_lemma : forall pr, ~ (forall tsum dirichlet unif tpow cfg hash order p1 p2, setting (bg_game pr) bg_pos tsum dirichlet unif tpow cfg hash order p1 p2 ->
  forall ln nanoid r, exists fuel x, play ln tsum dirichlet unif tpow nanoid cfg hash order p1 p2 fuel r = Ok x).
Proof.
  intros pr H. destruct (H _ _ _ _ _ _ _ _ _ (random_setting _ _ (bg_match pr)) (fun x => x) nano0 rng_stuck) as (fuel & x & E). revert E. apply never_ends.
Qed.

(** ** C42 *)
Section Turns.
  Variable G : Game.
  Definition no_turns (l : list (Z * (St G * vgame G))) : Prop := Forall (fun e => vg_turns (snd (snd e)) = []) l.
  Definition no_turns_played (l : list (vgame G)) : Prop := Forall (fun g => vg_turns g = []) l.
  Lemma turns_first nanoid p1 p2 : forall n i r l r', first_games (G := G) nanoid p1 p2 i n r = Ok (l, r') -> no_turns l.
  Proof.
    induction n as [|n IH]; intros i r l r' H; cbn [first_games] in H.
    - injection H as <- <-. constructor.
    - destruct (first_state i r) as [[s r1]|]; [|discriminate]. cbn [bind] in H. destruct (nanoid r1) as [id r2].
      destruct (first_games nanoid p1 p2 (S i) n r2) as [[l2 r3]|] eqn:E; [|discriminate]. cbn [bind] in H. injection H as <- <-.
      constructor; [reflexivity|]. eapply IH, E.
  Qed.
  Lemma turns_get l k s g : no_turns l -> hget k l = Some (s, g) -> vg_turns g = [].
  Proof.
    induction 1 as [|[k' v] l H HF IH]; cbn [hget]; [discriminate|]. destruct (k' =? k); [|exact IH]. intros E. injection E as ->. exact H.
  Qed.
  Lemma turns_set l k s g : no_turns l -> vg_turns g = [] -> no_turns (hset k (s, g) l).
  Proof.
    intros HF Hg. induction HF as [|[k' v] l H HF IH]; [constructor|]. cbn [hset]. destruct (k' =? k); constructor; auto.
  Qed.
  Lemma turns_remove l k : no_turns l -> no_turns (hremove k l).
  Proof. induction 1 as [|[k' v] l H HF IH]; [constructor|]. cbn [hremove]. destruct (k' =? k); [exact HF|constructor; auto]. Qed.
  Lemma turns_step t1 t2 count (a a' : vacc G) e : no_turns (v_games a) -> vs_step t1 t2 count a e = Ok a' -> no_turns (v_games a').
  Proof.
    intros HF. destruct e as [m s]. unfold vs_step. destruct (hget (g_id G s) (v_games a)) as [[s0 g]|] eqn:Eg; [|discriminate]. cbn [unwrap bind].
    pose proof (turns_get _ _ _ _ HF Eg) as Hg. destruct (g_mv_eqb G m (g_empty G)).
    - destruct (g_skip G s0 (v_rng a)) as [[s1 r1]|]; [|discriminate]. cbn [bind]. intros X. injection X as <-. apply turns_set; assumption.
    - destruct (g_valid G s0) as [vm|]; [|discriminate]. cbn [bind]. destruct (existsb _ vm); [|discriminate].
      destruct (g_apply G s0 m (v_rng a)) as [[s1 r1]|]; [|discriminate]. cbn [bind].
      destruct (match g_winner G s1 with Some w => Some w | None => _ end) as [w|]; [|intros X; injection X as <-; apply turns_set; assumption].
      destruct (w =? -1); [|destruct (w =? 1)]; intros X; injection X as <-; apply turns_set; assumption.
  Qed.
  Lemma turns_removes : forall l (x y : list (Z * (St G * vgame G)) * list (vgame G)), mfold vs_remove l x = Ok y -> no_turns (fst x) -> no_turns_played (snd x) ->
    no_turns (fst y) /\ no_turns_played (snd y).
  Proof.
    induction l as [|i l IH]; intros x y E H1 H2; cbn [mfold] in E; [injection E as <-; auto|].
    unfold vs_remove at 1 in E. destruct (hget i (fst x)) as [[s g]|] eqn:Eg; [|discriminate]. cbn [unwrap bind] in E. apply IH in E; [exact E|apply turns_remove, H1|].
    cbn [snd]. apply Forall_app. split; [exact H2|]. constructor; [eapply turns_get; eassumption|constructor].
  Qed.
  Variables (ln : f32 -> f32) (tsum : list f32 -> f32) (dirichlet : nat -> f32 -> rng -> list f32 * rng) (unif : f64 -> rng -> f64 * rng) (tpow : f32 -> f32)
    (nanoid : rng -> Z * rng) (cfg : mcfg) (hash : nat -> list (Z * (St G * vgame G)) -> list (Z * (St G * vgame G))) (order : nat -> bool -> nat -> list nat) (p1 p2 : vplayer).
  Lemma turns_loop : forall fuel j (a b : vstate G), vs_loop ln tsum dirichlet unif tpow cfg hash order p1 p2 fuel j a = Ok b -> no_turns (s_games a) -> no_turns_played (s_played a) ->
    no_turns_played (s_played b).
  Proof.
    induction fuel as [|fuel IH]; intros j a b; cbn [vs_loop]; destruct (s_games a) as [|e l] eqn:Eg; intros E H1 H2; [injection E as <-; exact H2|discriminate|injection E as <-; exact H2|].
    rewrite <- Eg in H1. clear Eg e l. destruct (vs_round _ _ _ _ _ _ _ _ p1 p2 j a) as [a'|] eqn:Er; [|discriminate]. cbn [bind] in E.
    unfold vs_round in Er. cbv zeta in Er.
    destruct (get_actions_for_player _ _ _ _ _ _ (order j true) _ _ _) as [[m1 r1]|]; [|discriminate]. cbn [bind] in Er.
    destruct (get_actions_for_player _ _ _ _ _ _ (order j false) _ _ _) as [[m2 r2]|]; [|discriminate]. cbn [bind] in Er.
    destruct (i32 _ _) as [count|]; [|discriminate]. cbn [bind] in Er.
    match type of Er with context [mfold (vs_step _ _ _) ?l ?b] => destruct (mfold (vs_step (pl_type p1) (pl_type p2) count) l b) as [c|] eqn:Ec end; [|discriminate]. cbn [bind] in Er.
    destruct (mfold vs_remove _ _) as [[g2 pl2]|] eqn:Ed; [|discriminate]. cbn [bind] in Er. injection Er as <-.
    assert (Hc : no_turns (v_games c)).
    { revert Ec. match goal with |- mfold _ ?l ?x = _ -> _ => assert (Hx : no_turns (v_games x)) by exact H1; revert Hx; generalize l x end. clear.
      intros l. induction l as [|e l IH]; intros x Hx E; cbn [mfold] in E; [injection E as <-; exact Hx|]. destruct (vs_step _ _ _ x e) as [x'|] eqn:Es; [|discriminate]. cbn [bind] in E.
      eapply IH; [eapply turns_step; eassumption|exact E]. }
    destruct (turns_removes _ _ _ Ed Hc H2) as [H3 H4]. eapply IH; [exact E|exact H3|exact H4].
  Qed.
End Turns.
Theorem C42_no_turns_lemma : forall G ln tsum dirichlet unif tpow nanoid cfg hash order p1 p2 fuel r (res : result G) r',
  play ln tsum dirichlet unif tpow nanoid cfg hash order p1 p2 fuel r = Ok (res, r') ->
  forall g, In g (r_games res) -> vg_turns g = [] /\ print_game g = [LId (vg_id g); LPlayers (vg_p1 g) (vg_p2 g); LWinner (vg_winner g); LInitial; LState (vg_init g)].
Proof.
  intros G ln tsum dirichlet unif tpow nanoid cfg hash order p1 p2 fuel r res r'. unfold play, vs_start.
  destruct (first_games _ _ _ _ _ _) as [[l r1]|] eqn:Ef; [|discriminate]. cbn [bind]. destruct (vs_loop _ _ _ _ _ _ _ _ _ _ _ _ _) as [b|] eqn:El; [|discriminate]. cbn [bind].
  destruct (vs_result p1 p2 b) as [res'|] eqn:Er; [|discriminate]. cbn [bind]. intros X. injection X as <- <-.
  assert (Hb : no_turns_played G (s_played b)) by (eapply turns_loop; [exact El|eapply turns_first, Ef|constructor]).
  assert (Eg : r_games res' = s_played b).
  { unfold vs_result in Er. cbv zeta in Er. destruct (usize _ _) as [x|]; [|discriminate]. cbn [bind] in Er. destruct (usize _ _) as [y|]; [|discriminate]. cbn [bind] in Er. injection Er as <-. reflexivity. }
  rewrite Eg. intros g Hg. unfold no_turns_played in Hb. rewrite Forall_forall in Hb. pose proof (Hb g Hg) as Ht. split; [exact Ht|]. unfold print_game. rewrite Ht. reflexivity.
Qed.
(** whatever the file says, the only position a replay ever shows is the first one *)
Theorem C56_replay_lemma : forall (G : Game) (g : vgame G),
  (forall s, In (LState s) (print_game g) -> s = vg_init g)
  /\ length (filter (fun e => match e with LState _ => true | _ => false end) (print_game g)) = S (length (vg_turns g)).
Proof.
  intros G g. unfold print_game. cbv zeta. split.
  - intros s Hs. apply in_app_or in Hs. destruct Hs as [[H|[H|[H|[H|[H|[]]]]]]|Hs]; try discriminate; [injection H as <-; reflexivity|].
    apply in_flat_map in Hs. destruct Hs as (t & _ & [H|[H|[H|[H|[H|[]]]]]]); try discriminate. injection H as <-. reflexivity.
  - cbn [app filter length]. f_equal. induction (vg_turns g) as [|t l IH]; [reflexivity|]. cbn [flat_map app filter length]. f_equal. exact IH.
Qed.

(** ** C43 *)
Lemma gate_all : forallb (fun k => match gate (ddiv (f64_of_Z (Z.of_nat k)) (f64_of_Z 400)) with
    | Some 1%nat => (220 <=? k)%nat | Some 2%nat => (k <=? 180)%nat | None => (180 <? k)%nat && (k <? 220)%nat | _ => false end) (seq 0 401) = true.
Proof. vm_compute. reflexivity. Qed.
Theorem C43_thresholds_lemma : forall wins, 0 <= wins <= 400 ->
  gate (ddiv (f64_of_Z wins) (f64_of_Z 400)) = if 220 <=? wins then Some 1%nat else if wins <=? 180 then Some 2%nat else None.
Proof.
  intros w Hw. assert (H : In (Z.to_nat w) (seq 0 401)) by (apply in_seq; lia).
  pose proof gate_all as HA. rewrite forallb_forall in HA. apply HA in H. rewrite Z2Nat.id in H by lia. unfold gate in *.
  destruct (SFleb f64_055 _); [apply Nat.leb_le in H; destruct (220 <=? w) eqn:E; [reflexivity|lia]|].
  destruct (SFleb _ f64_045).
  - apply Nat.leb_le in H. destruct (220 <=? w) eqn:E; [lia|]. destruct (w <=? 180) eqn:E2; [reflexivity|lia].
  - apply andb_true_iff in H. destruct H as [H1 H2]. apply Nat.ltb_lt in H1, H2. destruct (220 <=? w) eqn:E; [lia|]. destruct (w <=? 180) eqn:E2; [lia|reflexivity].
Qed.
Theorem C43_verdict_lemma : forall G I tsum dirichlet unif tpow cfg hash order self other,
  setting G I tsum dirichlet unif tpow cfg hash order (mkPlayer AModel (Some self)) (mkPlayer AModel (Some other)) ->
  forall ln nanoid fuel r v r', play_vs_model ln tsum dirichlet unif tpow nanoid cfg hash order self other fuel r = Ok (v, r') ->
  exists res starts ws, play ln tsum dirichlet unif tpow nanoid cfg hash order (mkPlayer AModel (Some self)) (mkPlayer AModel (Some other)) fuel r = Ok (res, r')
    /\ report (plays ln tsum dirichlet unif tpow cfg (mkPlayer AModel (Some self)) (mkPlayer AModel (Some other))) tpow AModel AModel res starts ws
    /\ (v = Some 1%nat <-> 220 <= times (-1) ws) /\ (v = Some 2%nat <-> times (-1) ws <= 180) /\ (v = None <-> 180 < times (-1) ws < 220)
    /\ (Forall (fun w => w = 0) ws -> v = Some 2%nat).
Proof.
  intros G I tsum dirichlet unif tpow cfg hash order self other HS ln nanoid fuel r v r'. unfold play_vs_model.
  destruct (play _ _ _ _ _ _ _ _ _ _ _ _ _) as [[res r1]|] eqn:E; [|discriminate]. cbn [bind]. intros X. injection X as <- <-.
  destruct (C39_accounting_lemma _ _ _ _ _ _ _ _ _ _ _ HS _ _ _ _ _ _ E) as (starts & ws & HR & Hbg). exists res, starts, ws. split; [reflexivity|]. split; [exact HR|].
  rewrite (rep_rate _ _ _ _ _ _ _ _ HR). pose proof (times_bound ws) as (B1 & B2 & B3).
  assert (HL : length ws = 400%nat) by (rewrite <- (F2_length _ _ _ _ _ (rep_end _ _ _ _ _ _ _ _ HR)); apply (rep_num _ _ _ _ _ _ _ _ HR)).
  rewrite C43_thresholds_lemma by lia. set (k := times (-1) ws) in *.
  assert (H0 : Forall (fun w => w = 0) ws -> k = 0).
  { intros HF. unfold k, times. rewrite (proj1 (count_occ_not_In Z.eq_dec ws (-1))); [reflexivity|]. intros Hin. rewrite Forall_forall in HF. specialize (HF _ Hin). discriminate. }
  destruct (220 <=? k) eqn:E1; [|destruct (k <=? 180) eqn:E2]; (split; [|split; [|split]]); try (split; intros; first [discriminate|lia|reflexivity]); intros HF; specialize (H0 HF); try lia; reflexivity.
Qed.
Theorem C43_file_lemma : forall G ln tsum dirichlet unif tpow nanoid cfg hash order file parse save self best fuel r best' r',
  play_vs_best_model (G := G) ln tsum dirichlet unif tpow nanoid cfg hash order file parse save self best fuel r = Ok (best', r') ->
  (best = None /\ best' = save self None)
  \/ exists f other v, best = Some f /\ parse f = Some other /\ play_vs_model (G := G) ln tsum dirichlet unif tpow nanoid cfg hash order self other fuel r = Ok (v, r')
       /\ (v = Some 1%nat -> best' = save self best) /\ (v <> Some 1%nat -> best' = best).
Proof.
  intros G ln tsum dirichlet unif tpow nanoid cfg hash order file parse save self best fuel r best' r'. unfold play_vs_best_model.
  destruct best as [f|]; [|intros X; injection X as <- <-; auto]. intros H. right. destruct (parse f) as [other|] eqn:Ep; [|discriminate]. cbn [bind] in H.
  destruct (play_vs_model ln tsum dirichlet unif tpow nanoid cfg hash order self other fuel r) as [[v r1]|] eqn:Ev; [|discriminate]. cbn [bind] in H. exists f, other, v.
  split; [reflexivity|]. split; [exact Ep|].
  destruct v as [[|[|[|n]]]|]; cbn [bind] in H; try discriminate; injection H as <- <-; (split; [exact Ev|]); (split; intros Hv; [first [reflexivity|discriminate]|first [reflexivity|exfalso; apply Hv; reflexivity]]).
Qed.
Theorem C43_returns_lemma : forall G I tsum dirichlet unif tpow cfg hash order self other,
  setting G I tsum dirichlet unif tpow cfg hash order (mkPlayer AModel (Some self)) (mkPlayer AModel (Some other)) -> live G I ->
  (forall x, prob01 x -> tpow x = f0 -> x = f0) ->
  forall ln nanoid r, exists v r', forall fuel, (400 <= fuel)%nat -> play_vs_model ln tsum dirichlet unif tpow nanoid cfg hash order self other fuel r = Ok (v, r').
Proof.
  intros G I tsum dirichlet unif tpow cfg hash order self other HS HLive HP ln nanoid r.
  destruct (C41_terminates_lemma _ _ _ _ _ _ _ _ _ _ _ HS HLive (fun _ => HP) ln nanoid r) as (res & r' & H).
  exists (gate (r_winrate res)), r'. intros fuel Hf. unfold play_vs_model. rewrite (H fuel Hf). reflexivity.
Qed.

(** ** runs and settings for the examples *)
Definition model_player (w : list Z) : vplayer := mkPlayer AModel (Some (net0 w)).
Lemma model_setting G I w w' : match_game I -> length w = asize G -> length w' = asize G ->
  setting G I tsum0 dir0 unif0 pow1 (cfg0 1 1) hash0 order2 (model_player w) (model_player w').
Proof.
  intros HM Hw Hw'. destruct (random_setting G I HM). constructor; try assumption; (split; [discriminate|]); intros _; eexists; (split; [reflexivity|]); apply net0_ok; assumption.
Qed.
Definition draw_a := [6; 4; 8; 2; 5; 9; 7; 1; 3].
Definition draw_b := [4; 5; 9; 8; 2; 6; 1; 3; 7].
(** Tic-Tac-Toe matches do return *)
Lemma ttt_returns : forall pr p1 p2, setting (ttt_game pr) ttt_pos tsum0 dir0 unif0 pow1 (cfg0 1 1) hash0 order2 p1 p2 -> forall r, exists res r',
  play (G := ttt_game pr) (fun x => x) tsum0 dir0 unif0 pow1 nano0 (cfg0 1 1) hash0 order2 p1 p2 400 r = Ok (res, r').
Proof.
  intros pr p1 p2 HS r. destruct (C41_terminates_lemma _ _ _ _ _ _ _ _ _ _ _ HS (ttt_live pr) (fun _ x _ E => E) (fun x => x) nano0 r) as (res & r' & H). exists res, r'. apply H. lia.
Qed.
(** an Mcts agent that must move without a valid move *)
Lemma mcts_setting G I : match_game I -> setting G I tsum0 dir0 unif0 pow1 (cfg0 1 1) hash0 order2 mcts_player random_player.
Proof. intros HM. destruct (random_setting G I HM). constructor; try assumption; split; discriminate. Qed.
Lemma mcts_no_rounds pr fuel a a' : (8 <= fuel)%nat -> on_paths pr 0 a ->
  mfold (fun a j => vs_round (G := bg_game pr) (fun x => x) tsum0 dir0 unif0 pow1 (cfg0 1 1) hash0 order2 mcts_player random_player j a) (seq 0 fuel) a = Ok a' -> False.
Proof. intros Hf Ha. apply (rounds_stop pr); [apply Nat.le_0_l|exact Hf|exact Ha]. Qed.
Lemma play_inv G ln tsum dirichlet unif tpow nanoid cfg hash order p1 p2 fuel r x : play (G := G) ln tsum dirichlet unif tpow nanoid cfg hash order p1 p2 fuel r = Ok x ->
  exists a b, vs_start (G := G) nanoid p1 p2 r = Ok a /\ vs_loop (G := G) ln tsum dirichlet unif tpow cfg hash order p1 p2 fuel 0 a = Ok b.
Proof.
  unfold play. destruct (vs_start nanoid p1 p2 r) as [a|]; [|discriminate]. cbn [bind]. destruct (vs_loop _ _ _ _ _ _ _ _ _ _ fuel 0 a) as [b|] eqn:E; [|discriminate]. intros _. exists a, b. auto.
Qed.
Lemma mcts_no_result pr r fuel x : (forall a, vs_start (G := bg_game pr) nano0 mcts_player random_player r = Ok a -> on_paths pr 0 a) ->
  play (G := bg_game pr) (fun x => x) tsum0 dir0 unif0 pow1 nano0 (cfg0 1 1) hash0 order2 mcts_player random_player fuel r = Ok x -> False.
Proof.
  intros Hst E. apply play_inv in E. destruct E as (a & b & Ea & Eb). exact (loop_stops pr tsum0 dir0 unif0 pow1 order2 fuel 0 a b (Nat.le_0_l 7) (Hst a Ea) Eb).
Qed.
Lemma mcts_run_fuel : forall pr r, (forall a, vs_start (G := bg_game pr) nano0 mcts_player random_player r = Ok a -> on_paths pr 0 a) -> forall fuel, (8 <= fuel < 1000)%nat ->
  play (G := bg_game pr) (fun x => x) tsum0 dir0 unif0 pow1 nano0 (cfg0 1 1) hash0 order2 mcts_player random_player fuel r = Panic PExplicit.
Proof.
  intros pr r Hst fuel Hf.
  destruct (play_cases (bg_game pr) bg_pos tsum0 dir0 unif0 pow1 (cfg0 1 1) hash0 order2 mcts_player random_player (mcts_setting _ _ (bg_match pr)) (fun x => x) nano0 fuel r)
    as [(res & r' & starts & ws & E & _)|[(q & k & E & Hk & H)|(_ & a & a' & Es & Em & _)]].
  - exfalso. exact (mcts_no_result pr r fuel _ Hst E).
  - assert (Hq : q = PExplicit); [|rewrite Hq in E; exact E]. clear E. destruct H as [(_ & -> & _)|[(Ht & _)|(_ & _ & Hb)]]; [reflexivity|discriminate Ht|exfalso; lia].
  - exfalso. exact (mcts_no_rounds pr fuel a a' (proj1 Hf) (Hst a Es) Em).
Qed.
Lemma mcts_run : forall pr, play (G := bg_game pr) (fun x => x) tsum0 dir0 unif0 pow1 nano0 (cfg0 1 1) hash0 order2 mcts_player random_player 20 rng_stuck = Panic PExplicit.
Proof. intros pr. apply mcts_run_fuel; [exact (start_paths pr mcts_player)|lia]. Qed.
Theorem C55_mcts_refuted_lemma : forall pr, ~ (forall tsum dirichlet unif tpow cfg hash order p1 p2, setting (bg_game pr) bg_pos tsum dirichlet unif tpow cfg hash order p1 p2 ->
  forall ln nanoid fuel r p, play ln tsum dirichlet unif tpow nanoid cfg hash order p1 p2 fuel r = Panic p -> p = PFuel \/ (p = POverflow /\ 2 ^ 31 <= Z.of_nat fuel)).
Proof.
  intros pr H. destruct (H _ _ _ _ _ _ _ _ _ (mcts_setting _ _ (bg_match pr)) _ _ _ _ _ (mcts_run pr)) as [E|[E _]]; discriminate.
Qed.
